(** * The block packing routines of src/pack_ob.cpp. *)

From Coq Require Import ZArith List Bool Lia.
From Verif Require Import Lang Lang_facts Spec ModelSizing ModelKernel ModelPack ModelSched
     Kernel_facts Tile_facts Loop_facts.
Import ListNotations.
Open Scope Z_scope.

Section P.

Variable S : scalar.
Notation T := (elt S).

(** What a guarded copy needs of its source: either the guard holds and the value is
    zero, or the source cell is readable and holds the value. *)
Definition src_ok (m : mem T) (Rd : region) (pad : bool) (b : buf) (x : Z) (v : T) : Prop :=
  if pad then v = zero S
  else Rd b x /\ dat m b x = Some v /\ exists bi, live m b = Some bi /\ 0 <= x < blen bi.

Lemma src_ok_frame m m' Rd pad b x v (W : region) :
  src_ok m Rd pad b x v -> live m' = live m ->
  (forall b x, ~ W b x -> dat m' b x = dat m b x) -> (forall b x, Rd b x -> ~ W b x) ->
  src_ok m' Rd pad b x v.
Proof.
  unfold src_ok. destruct pad; auto. intros (H1 & H2 & bi & H3 & H4) HL HF HR.
  split; [auto|split]. - rewrite HF; auto. - exists bi. now rewrite HL.
Qed.

Lemma copy0_spec (Rd : region) pad (db sb : buf) d i s j v bd m :
  live m db = Some bd -> 0 <= d + i < blen bd ->
  src_ok m Rd pad sb (s + j) v ->
  twp (rng db (d + i) (d + i + 1)) Rd (copy0 S pad (db, d) i (sb, s) j)
      (fun _ m' => dat m' db (d + i) = Some v) m.
Proof.
  intros HL Hb Hs. unfold copy0, src_ok, pload, pstore in *. cbn [fst snd]. destruct pad.
  - subst v. eapply twp_store; eauto; [split; [auto|lia]|]. apply dat_upd_same.
  - destruct Hs as (H1 & H2 & bi & H3 & H4). apply twp_bind.
    eapply twp_load; eauto. eapply twp_store; eauto; [split; [auto|lia]|]. apply dat_upd_same.
Qed.

(** kd x r elements at consecutive addresses; [src i j] is where element (i,j) comes from. *)
Lemma copy2_spec (Rd : region) (db sb : buf) d s ind0 kd r (base : Z) (pad : Z -> Z -> bool)
      (src : Z -> Z -> Z) (v : Z -> Z -> T) bd m (f : Z -> Z -> Z -> thr T Z) :
  0 <= kd -> 0 <= r ->
  live m db = Some bd -> 0 <= d + base + ind0 -> d + base + ind0 + kd * r <= blen bd ->
  (forall x, ~ Rd db x) ->
  (forall i j, 0 <= i < kd -> 0 <= j < r -> src_ok m Rd (pad i j) sb (s + src i j) (v i j)) ->
  (forall i j ind, 0 <= i < kd -> 0 <= j < r ->
     f i j ind = (copy0 S (pad i j) (db, d) (base + ind) (sb, s) (src i j) ;;+ TRet (ind + 1))%thr) ->
  twp (rng db (d + base + ind0) (d + base + ind0 + kd * r)) Rd
      (tfor 0 kd 1 ind0 (fun i ind => tfor 0 r 1 ind (f i)))
      (fun ind' m' => ind' = ind0 + kd * r /\
         forall i j, 0 <= i < kd -> 0 <= j < r ->
           dat m' db (d + base + ind0 + i * r + j) = Some (v i j)) m.
Proof.
  intros Hkd Hr HL Hb0 Hb1 HRd Hsrc Hf.
  eapply twp_mono with (Q := fun ind' m' => ind' = ind0 + kd * r /\
         forall i, 0 <= i < kd -> forall j, 0 <= j < r ->
           dat m' db (d + base + ind0 + i * r + j) = Some (v i j));
    [|cbn; intros ind' m' (H1 & H2); split; [exact H1|intros i j Hi; exact (H2 i Hi j)]].
  eapply (blk_loop _ db (d + base + ind0) kd 0 kd 1 r ind0
            (fun i m' => forall j, 0 <= j < r -> dat m' db (d + base + ind0 + i * r + j) = Some (v i j)));
    auto; try lia.
  - intros i Hi m1 m2 Hs H j Hj. rewrite <- Hs by nia. auto.
  - intros i m1 Hi HL1 HF1. replace (0 + i * 1) with i by lia.
    eapply twp_call with (Rd' := Rd).
    + eapply (blk_loop _ db (d + base + ind0 + i * r) r 0 r 1 1 (ind0 + i * r)
            (fun j m' => dat m' db (d + base + ind0 + i * r + j) = Some (v i j))); auto; try lia.
      * intros j Hj m2 m3 Hs H. rewrite <- Hs by lia. auto.
      * intros j m2 Hj HL2 HF2. replace (0 + j * 1) with j by lia.
        rewrite Hf by auto. replace (j * 1) with j by lia. apply twp_bind.
        assert (Hidx : 0 <= i * r + j < kd * r) by nia.
        eapply twp_call with (Rd' := Rd).
        -- eapply (copy0_spec Rd (pad i j) db sb d _ s (src i j) (v i j) bd m2).
           ++ rewrite HL2, HL1; auto.
           ++ lia.
           ++ eapply (src_ok_frame m m2 Rd _ _ _ _ (rng db (d + base + ind0) (d + base + ind0 + kd * r))).
              ** apply Hsrc; auto.
              ** congruence.
              ** intros b x Hx. rewrite HF2; [apply HF1; auto|].
                 intros (-> & Hx'). apply Hx. split; auto. nia.
              ** intros b x Hx (-> & _). apply (HRd x); auto.
        -- intros b x (-> & Hx). split; auto. lia.
        -- auto.
        -- cbn. intros _ m3 H3 _ _. apply twp_ret. split; [lia|].
           rewrite <- H3. f_equal. lia.
    + intros b x (-> & Hx). split; auto. lia.
    + auto.
    + cbn. intros ind' m2 (-> & H2) _ _. split; [lia|auto].
Qed.

Lemma pack_ob_A_spec (Rd : region) (ab pb : buf) ao po M K m1 m2 mt kd m_r nq (f : Z -> Z -> T) bp m :
  0 < m_r -> 0 <= nq -> 0 <= kd -> mt = nq * m_r ->
  live m pb = Some bp -> 0 <= po -> po + mt * kd <= blen bp ->
  (forall x, ~ Rd pb x) ->
  (forall row kk, 0 <= row < mt -> 0 <= kk < kd ->
     src_ok m Rd (M <=? m1 + m2 + row) ab (ao + (row * K + kk)) (f row kk)) ->
  twp (rng pb po (po + mt * kd)) Rd
      (pack_ob_A_single_buf S (ab, ao) (pb, po) M K m1 m2 mt kd m_r)
      (fun _ m' => panels m' pb po m_r nq kd f) m.
Proof.
  intros Hmr Hnq Hkd -> HL Hp0 Hp1 HRd Hsrc. unfold pack_ob_A_single_buf. apply twp_bind.
  replace (nq * m_r * kd) with (nq * (kd * m_r)) in * by ring.
  eapply twp_mono.
  - eapply (blk_loop _ pb po nq 0 (nq * m_r) m_r (kd * m_r) 0
       (fun q m' => forall i j, 0 <= i < kd -> 0 <= j < m_r ->
          dat m' pb (po + q * (kd * m_r) + i * m_r + j) = Some (f (q * m_r + j) i))); auto; try nia.
    + intros q Hq m3 m4 Hs H i j Hi Hj. rewrite <- Hs by nia. auto.
    + intros q m3 Hq HL3 HF3. replace (0 + q * m_r) with (q * m_r) by lia.
      eapply twp_call with (Rd' := Rd).
      * eapply (copy2_spec Rd pb ab po ao (0 + q * (kd * m_r)) kd m_r 0
                  (fun i j => M <=? m1 + m2 + q * m_r + j)
                  (fun i j => q * m_r * K + i + j * K) (fun i j => f (q * m_r + j) i) bp m3); auto; try nia.
        -- rewrite HL3. exact HL.
        -- intros i j Hi Hj.
           eapply (src_ok_frame m m3 Rd _ _ _ _ (rng pb po (po + nq * (kd * m_r)))); auto.
           ++ replace (ao + (q * m_r * K + i + j * K)) with (ao + ((q * m_r + j) * K + i)) by ring.
              replace (m1 + m2 + q * m_r + j) with (m1 + m2 + (q * m_r + j)) by ring.
              apply Hsrc; nia.
           ++ intros b x Hx (-> & _). apply (HRd x); auto.
      * intros b x (-> & Hx). split; auto. nia.
      * auto.
      * cbn. intros ind m4 (-> & H4) _ _. split; [ring|].
        intros i j Hi Hj. rewrite <- (H4 i j Hi Hj). f_equal. ring.
  - cbn. intros ind m3 (_ & H3). apply twp_ret. intros q i kk Hq Hi Hkk.
    rewrite <- (H3 q Hq kk i Hkk Hi). f_equal. ring.
Qed.

Lemma pack_ob_B_spec (Rd : region) (bb pb : buf) bo po K N n1 nt kd n_r nq pad (f : Z -> Z -> T) bp m :
  0 < n_r -> 0 <= nq -> 0 <= kd -> nt = nq * n_r ->
  live m pb = Some bp -> 0 <= po -> po + nt * kd <= blen bp ->
  (forall x, ~ Rd pb x) ->
  (forall kk col, 0 <= col < nt -> 0 <= kk < kd ->
     src_ok m Rd (pad && (N <=? n1 + col)) bb (bo + (kk * N + col)) (f kk col)) ->
  twp (rng pb po (po + nt * kd)) Rd
      (pack_ob_B_single_buf S (bb, bo) (pb, po) K N n1 kd nt n_r pad)
      (fun _ m' => panels m' pb po n_r nq kd (fun c kk => f kk c)) m.
Proof.
  intros Hmr Hnq Hkd -> HL Hp0 Hp1 HRd Hsrc. unfold pack_ob_B_single_buf. apply twp_bind.
  replace (nq * n_r * kd) with (nq * (kd * n_r)) in * by ring.
  eapply twp_mono.
  - eapply (blk_loop _ pb po nq 0 (nq * n_r) n_r (kd * n_r) 0
       (fun q m' => forall i j, 0 <= i < kd -> 0 <= j < n_r ->
          dat m' pb (po + q * (kd * n_r) + i * n_r + j) = Some (f i (q * n_r + j)))); auto; try nia.
    + intros q Hq m3 m4 Hs H i j Hi Hj. rewrite <- Hs by nia. auto.
    + intros q m3 Hq HL3 HF3. replace (0 + q * n_r) with (q * n_r) by lia.
      eapply twp_call with (Rd' := Rd).
      * eapply (copy2_spec Rd pb bb po bo (0 + q * (kd * n_r)) kd n_r 0
                  (fun i j => pad && (N <=? n1 + q * n_r + j))
                  (fun i j => q * n_r + i * N + j) (fun i j => f i (q * n_r + j)) bp m3); auto; try nia.
        -- rewrite HL3. exact HL.
        -- intros i j Hi Hj.
           eapply (src_ok_frame m m3 Rd _ _ _ _ (rng pb po (po + nq * (kd * n_r)))); auto.
           ++ replace (bo + (q * n_r + i * N + j)) with (bo + (i * N + (q * n_r + j))) by ring.
              replace (n1 + q * n_r + j) with (n1 + (q * n_r + j)) by ring.
              apply Hsrc; nia.
           ++ intros b x Hx (-> & _). apply (HRd x); auto.
      * intros b x (-> & Hx). split; auto. nia.
      * auto.
      * cbn. intros ind m4 (-> & H4) _ _. split; [ring|].
        intros i j Hi Hj. rewrite <- (H4 i j Hi Hj). f_equal. ring.
  - cbn. intros ind m3 (_ & H3). apply twp_ret. intros q i kk Hq Hi Hkk.
    rewrite <- (H3 q Hq kk i Hkk Hi). f_equal. ring.
Qed.

Lemma pack_B_nr_spec (Rd : region) (bb pb : buf) bo po N kd n_r (f : Z -> Z -> T) bp m :
  0 < n_r -> 0 <= kd ->
  live m pb = Some bp -> 0 <= po -> po + n_r * kd <= blen bp ->
  (forall x, ~ Rd pb x) ->
  (forall kk col, 0 <= col < n_r -> 0 <= kk < kd ->
     src_ok m Rd false bb (bo + (kk * N + col)) (f kk col)) ->
  twp (rng pb po (po + n_r * kd)) Rd (pack_B_nr_x_kc S (bb, bo) (pb, po) N kd n_r)
      (fun _ m' => panels m' pb po n_r 1 kd (fun c kk => f kk c)) m.
Proof.
  intros Hmr Hkd HL Hp0 Hp1 HRd Hsrc. unfold pack_B_nr_x_kc. apply twp_bind.
  replace (n_r * kd) with (kd * n_r) in * by ring.
  eapply twp_call with (Rd' := Rd).
  - eapply (copy2_spec Rd pb bb po bo 0 kd n_r 0 (fun i j => false)
                  (fun i j => i * N + j) (fun i j => f i j) bp m); auto; try lia.
  - intros b x (-> & Hx). split; auto. lia.
  - auto.
  - cbn. intros ind m3 (_ & H3) _ _. apply twp_ret. intros q i kk Hq Hi Hkk.
    assert (q = 0) by lia. subst q. cbv beta. replace (0 * n_r + i) with i by lia.
    rewrite <- (H3 kk i Hkk Hi). f_equal. ring.
Qed.

Lemma pack_A_mr_spec (Rd : region) (ab pb : buf) ao po K kd m_r (f : Z -> Z -> T) bp m :
  0 < m_r -> 0 <= kd ->
  live m pb = Some bp -> 0 <= po -> po + m_r * kd <= blen bp ->
  (forall x, ~ Rd pb x) ->
  (forall row kk, 0 <= row < m_r -> 0 <= kk < kd ->
     src_ok m Rd false ab (ao + (row * K + kk)) (f row kk)) ->
  twp (rng pb po (po + m_r * kd)) Rd (pack_A_mr_x_kc S (ab, ao) (pb, po) K kd m_r)
      (fun _ m' => panels m' pb po m_r 1 kd f) m.
Proof.
  intros Hmr Hkd HL Hp0 Hp1 HRd Hsrc. unfold pack_A_mr_x_kc. apply twp_bind.
  replace (m_r * kd) with (kd * m_r) in * by ring.
  eapply twp_call with (Rd' := Rd).
  - eapply (copy2_spec Rd pb ab po ao 0 kd m_r 0 (fun i j => false)
                  (fun i j => i + j * K) (fun i j => f j i) bp m); auto; try lia.
    intros i j Hi Hj. replace (ao + (i + j * K)) with (ao + (j * K + i)) by ring. auto.
  - intros b x (-> & Hx). split; auto. lia.
  - auto.
  - cbn. intros ind m3 (_ & H3) _ _. apply twp_ret. intros q i kk Hq Hi Hkk.
    assert (q = 0) by lia. subst q. cbv beta. replace (0 * m_r + i) with i by lia.
    rewrite <- (H3 kk i Hkk Hi). f_equal. ring.
Qed.

(** Packing C. *)
Lemma pack_ob_C_spec (Rd : region) (cb pb : buf) co po M N m1 n1 m2 mt nt m_r n_r nm nn
      pad_m pad_n (f : Z -> Z -> T) bp m :
  0 < m_r -> 0 < n_r -> 0 <= nm -> 0 <= nn -> mt = nm * m_r -> nt = nn * n_r ->
  live m pb = Some bp -> 0 <= po -> po + mt * nt <= blen bp ->
  (forall x, ~ Rd pb x) ->
  (forall row col, 0 <= row < mt -> 0 <= col < nt ->
     src_ok m Rd ((pad_m || pad_n) && ((N <=? n1 + col) || (M <=? m1 + m2 + row)))
            cb (co + (row * N + col)) (f row col)) ->
  twp (rng pb po (po + mt * nt)) Rd
      (pack_ob_C_single_buf S (cb, co) (pb, po) M N m1 n1 m2 mt nt m_r n_r pad_m pad_n)
      (fun _ m' => ctiles m' pb po m_r n_r nm nn f) m.
Proof.
  intros Hmr Hnr Hnm Hnn -> -> HL Hp0 Hp1 HRd Hsrc. unfold pack_ob_C_single_buf. apply twp_bind.
  replace (nm * m_r * (nn * n_r)) with (nn * (nm * (m_r * n_r))) in * by ring.
  set (w := m_r * n_r) in *. assert (Hw : 0 < w) by (unfold w; nia).
  eapply twp_mono.
  - eapply (blk_loop _ pb po nn 0 (nn * n_r) n_r (nm * w) 0
       (fun qn m' => forall qm i j, 0 <= qm < nm -> 0 <= i < m_r -> 0 <= j < n_r ->
          dat m' pb (po + qn * (nm * w) + qm * w + i * n_r + j)
          = Some (f (qm * m_r + i) (qn * n_r + j)))); auto; try nia.
    + intros q Hq m3 m4 Hs H qm i j Hqm Hi Hj. rewrite <- Hs; [auto|].
      pose proof (cell_bound m_r n_r i j Hi Hj). fold w in H0. nia.
    + intros qn m3 Hqn HL3 HF3. replace (0 + qn * n_r) with (qn * n_r) by lia.
      eapply twp_call with (Rd' := Rd).
      * eapply (blk_loop _ pb (po + qn * (nm * w)) nm 0 (nm * m_r) m_r w (0 + qn * (nm * w))
          (fun qm m' => forall i j, 0 <= i < m_r -> 0 <= j < n_r ->
            dat m' pb (po + qn * (nm * w) + qm * w + i * n_r + j)
            = Some (f (qm * m_r + i) (qn * n_r + j)))); auto; try nia.
        -- intros q Hq m4 m5 Hs H i j Hi Hj. rewrite <- Hs; [auto|].
           pose proof (cell_bound m_r n_r i j Hi Hj). fold w in H0. nia.
        -- intros qm m4 Hqm HL4 HF4. replace (0 + qm * m_r) with (qm * m_r) by lia.
           assert (Hpos : 0 <= qn * (nm * w) + qm * w /\ qn * (nm * w) + qm * w + w <= nn * (nm * w)).
           { assert ((qn * nm + qm + 1) * w <= nn * nm * w) by (apply Z.mul_le_mono_nonneg_r; nia). nia. }
           eapply twp_call with (Rd' := Rd).
           ++ eapply (copy2_spec Rd pb cb po co (0 + qn * (nm * w) + qm * w) m_r n_r 0
                  (fun i j => (pad_m || pad_n) && ((N <=? n1 + qn * n_r + j) || (M <=? m1 + m2 + qm * m_r + i)))
                  (fun i j => qn * n_r + qm * m_r * N + i * N + j)
                  (fun i j => f (qm * m_r + i) (qn * n_r + j)) bp m4); auto; try (fold w; lia).
              ** rewrite HL4, HL3. exact HL.
              ** intros i j Hi Hj.
                 eapply (src_ok_frame m m4 Rd _ _ _ _ (rng pb po (po + nn * (nm * w)))).
                 --- replace (co + (qn * n_r + qm * m_r * N + i * N + j))
                       with (co + ((qm * m_r + i) * N + (qn * n_r + j))) by ring.
                     replace (n1 + qn * n_r + j) with (n1 + (qn * n_r + j)) by ring.
                     replace (m1 + m2 + qm * m_r + i) with (m1 + m2 + (qm * m_r + i)) by ring.
                     apply Hsrc; nia.
                 --- congruence.
                 --- intros b x Hx. rewrite HF4; [apply HF3; auto|].
                     intros (-> & Hx'). apply Hx. split; auto. nia.
                 --- intros b x Hx (-> & _). apply (HRd x); auto.
           ++ fold w. intros b x (-> & Hx). split; auto. lia.
           ++ auto.
           ++ cbn. fold w. intros ind m5 (-> & H5) _ _. split; [ring|].
              intros i j Hi Hj. rewrite <- (H5 i j Hi Hj). f_equal. ring.
      * intros b x (-> & Hx). split; auto. nia.
      * auto.
      * cbn. intros ind m4 (-> & H4) _ _. split; [ring|].
        intros qm i j Hqm Hi Hj. rewrite <- (H4 qm Hqm i j Hi Hj). reflexivity.
  - cbn. intros ind m3 (_ & H3). apply twp_ret. intros qm i qn j Hqm Hi Hqn Hj.
    rewrite <- (H3 qn Hqn qm i j Hqm Hi Hj). f_equal. unfold w. ring.
Qed.

End P.
