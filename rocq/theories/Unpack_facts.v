(** * Unpacking a block of C. *)

From Coq Require Import ZArith List Bool Lia.
From Verif Require Import Lang Lang_facts Spec ModelSizing ModelKernel ModelPack ModelSched
     Kernel_facts Tile_facts Loop_facts.
Import ListNotations.
Open Scope Z_scope.

(** Cells (r,c) with r0 <= r < r1, c0 <= c < c1 of an M x ld row-major matrix. *)
Definition rect (b : buf) (ld M r0 r1 c0 c1 : Z) : region := fun b' x =>
  b' = b /\ exists r c, r0 <= r < r1 /\ r < M /\ c0 <= c < c1 /\ c < ld /\ x = r * ld + c.

Lemma rc_inj ld r c r' c' : 0 <= c < ld -> 0 <= c' < ld -> r * ld + c = r' * ld + c' -> r = r' /\ c = c'.
Proof. intros. assert (r = r') by nia. subst. lia. Qed.

Lemma rect_disj b ld M r0 r1 c0 c1 r0' r1' c0' c1' b' x :
  0 <= c0 -> 0 <= c0' -> (r1 <= r0' \/ r1' <= r0 \/ c1 <= c0' \/ c1' <= c0) ->
  rect b ld M r0 r1 c0 c1 b' x -> ~ rect b ld M r0' r1' c0' c1' b' x.
Proof.
  intros Hc Hc' Hd (_ & r & c & H1 & H2 & H3 & H4 & ->) (_ & r' & c' & H1' & H2' & H3' & H4' & E).
  apply rc_inj in E; lia.
Qed.

Section U.

Variable S : scalar.
Notation T := (elt S).

(** The block of C holds [f] (in global coordinates). *)
Definition boxed {V} (m : mem V) (b : buf) (ld M r0 r1 c0 c1 : Z) (f : Z -> Z -> V) : Prop :=
  forall r c, r0 <= r < r1 -> r < M -> c0 <= c < c1 -> c < ld -> dat m b (r * ld + c) = Some (f r c).

Lemma boxed_stable {V} b ld M r0 r1 c0 c1 (f : Z -> Z -> V) m1 m2 :
  (forall x, rect b ld M r0 r1 c0 c1 b x -> dat m2 b x = dat m1 b x) ->
  boxed m1 b ld M r0 r1 c0 c1 f -> boxed m2 b ld M r0 r1 c0 c1 f.
Proof.
  intros Hs H r c H1 H2 H3 H4. rewrite Hs; auto. split; auto. exists r, c. auto.
Qed.

Lemma acc_loop (g : Z -> Z -> thr T Z) n lo hi step w ind0 (Wq : Z -> region)
      (P : Z -> mem T -> Prop) (W Rd : region) m :
  0 < step -> 0 <= n -> hi = lo + n * step ->
  (forall q b x, 0 <= q < n -> Wq q b x -> W b x) ->
  (forall q q' b x, 0 <= q < n -> 0 <= q' < n -> q <> q' -> Wq q b x -> ~ Wq q' b x) ->
  (forall q m1 m2, 0 <= q < n -> (forall b x, Wq q b x -> dat m2 b x = dat m1 b x) -> P q m1 -> P q m2) ->
  (forall q m', 0 <= q < n -> live m' = live m ->
     (forall b x, ~ W b x -> dat m' b x = dat m b x) ->
     twp (Wq q) Rd (g (lo + q * step) (ind0 + q * w))
         (fun ind' m'' => ind' = ind0 + (q + 1) * w /\ P q m'') m') ->
  twp W Rd (tfor lo hi step ind0 g)
      (fun ind' m' => ind' = ind0 + n * w /\ forall q, 0 <= q < n -> P q m') m.
Proof.
  intros Hs Hn Hhi Hsub Hdis Hst Hb.
  eapply (twp_tfor _ Rd (fun c ind m' => ind = ind0 + c * w /\ forall q, 0 <= q < c -> P q m')
            g lo hi step n); auto.
  - split; [lia|intros; lia].
  - intros c ind m' Hc (-> & HP) HL HF.
    eapply twp_call with (Rd' := Rd); [apply Hb; auto| | |].
    + intros b x. apply Hsub; auto.
    + auto.
    + cbn. intros ind' m'' (-> & HPc) _ HF'. split; auto.
      intros q Hq. destruct (Z.eq_dec q c) as [->|Hne]; auto.
      eapply (Hst q m' m'' ltac:(lia)); [|apply HP; lia].
      intros b x Hx. apply HF'. intros Hx'. eapply (Hdis q c b x); eauto; lia.
Qed.

Lemma unpack_spec (cb pb : buf) co po M N m1 n1 m2 mt nt m_r n_r nm nn (f : Z -> Z -> T) bc bp m :
  0 < m_r -> 0 < n_r -> 0 <= nm -> 0 <= nn -> mt = nm * m_r -> nt = nn * n_r ->
  0 <= m1 + m2 -> 0 <= n1 -> co = (m1 + m2) * N + n1 ->
  cb <> pb ->
  live m cb = Some bc -> M * N <= blen bc ->
  live m pb = Some bp -> 0 <= po -> po + mt * nt <= blen bp ->
  ctiles m pb po m_r n_r nm nn (fun r c => f (m1 + m2 + r) (n1 + c)) ->
  twp (rect cb N M (m1 + m2) (m1 + m2 + mt) n1 (n1 + nt)) (rng pb po (po + mt * nt))
      (unpack_ob_C_single_buf S (cb, co) (pb, po) M N m1 n1 m2 mt nt m_r n_r)
      (fun _ m' => boxed m' cb N M (m1 + m2) (m1 + m2 + mt) n1 (n1 + nt) f) m.
Proof.
  intros Hmr Hnr Hnm Hnn -> -> Hr0 Hc0 -> Hcp HLc Hbc HLp Hp0 Hp1 PC.
  unfold unpack_ob_C_single_buf. apply twp_bind.
  set (r0 := m1 + m2) in *.
  set (Rd := rng pb po (po + nm * m_r * (nn * n_r))).
  set (w := m_r * n_r). assert (Hw : 0 < w) by (unfold w; nia).
  set (X := fun ra rb ca cb' => rect cb N M ra rb ca cb').
  set (B := fun ra rb ca cb' m' => boxed m' cb N M ra rb ca cb' f).
  assert (HXB : forall ra rb ca cb' m1 m2, (forall b x, X ra rb ca cb' b x -> dat m2 b x = dat m1 b x) ->
              B ra rb ca cb' m1 -> B ra rb ca cb' m2).
  { intros ra rb ca cb' ma mb Hs. apply boxed_stable. intros x Hx. apply Hs. exact Hx. }
  eapply twp_mono.
  - eapply (acc_loop _ nn 0 (nn * n_r) n_r (nm * w) 0
       (fun qn => X r0 (r0 + nm * m_r) (n1 + qn * n_r) (n1 + (qn + 1) * n_r))
       (fun qn => B r0 (r0 + nm * m_r) (n1 + qn * n_r) (n1 + (qn + 1) * n_r))
       (X r0 (r0 + nm * m_r) n1 (n1 + nn * n_r)) Rd m); auto.
    + intros q b x Hq (E & r & c & H). split; auto. exists r, c. nia.
    + intros q q' b x Hq Hq' Hne. apply rect_disj; [nia|nia|destruct (Z_lt_le_dec q q'); nia].
    + intros q ma mb Hq Hs. apply HXB. auto.
    + intros qn m3 Hqn HL3 HF3. replace (0 + qn * n_r) with (qn * n_r) by lia.
      set (X3 := X r0 (r0 + nm * m_r) (n1 + qn * n_r) (n1 + (qn + 1) * n_r)).
      eapply twp_mono.
      * eapply (acc_loop _ nm 0 (nm * m_r) m_r w (0 + qn * (nm * w))
          (fun qm => X (r0 + qm * m_r) (r0 + (qm + 1) * m_r) (n1 + qn * n_r) (n1 + (qn + 1) * n_r))
          (fun qm => B (r0 + qm * m_r) (r0 + (qm + 1) * m_r) (n1 + qn * n_r) (n1 + (qn + 1) * n_r))
          X3 Rd m3); auto.
        -- intros q b x Hq (E & r & c & H). split; auto. exists r, c. nia.
        -- intros q q' b x Hq Hq' Hne. apply rect_disj; [nia|nia|destruct (Z_lt_le_dec q q'); nia].
        -- intros q ma mb Hq Hs. apply HXB. auto.
        -- intros qm m4 Hqm HL4 HF4. replace (0 + qm * m_r) with (qm * m_r) by lia.
           set (X4 := X (r0 + qm * m_r) (r0 + (qm + 1) * m_r) (n1 + qn * n_r) (n1 + (qn + 1) * n_r)).
           eapply twp_mono.
           ++ eapply (acc_loop _ m_r 0 m_r 1 n_r (0 + qn * (nm * w) + qm * w)
                (fun i => X (r0 + qm * m_r + i) (r0 + qm * m_r + i + 1) (n1 + qn * n_r) (n1 + (qn + 1) * n_r))
                (fun i => B (r0 + qm * m_r + i) (r0 + qm * m_r + i + 1) (n1 + qn * n_r) (n1 + (qn + 1) * n_r))
                X4 Rd m4); try lia.
              ** intros q b x Hq (E & r & c & H). split; auto. exists r, c. nia.
              ** intros q q' b x Hq Hq' Hne. apply rect_disj; [nia|nia|lia].
              ** intros q ma mb Hq Hs. apply HXB. auto.
              ** intros i m5 Hi HL5 HF5. replace (0 + i * 1) with i by lia.
                 set (X5 := X (r0 + qm * m_r + i) (r0 + qm * m_r + i + 1) (n1 + qn * n_r) (n1 + (qn + 1) * n_r)).
                 eapply twp_mono.
                 { eapply (acc_loop _ n_r 0 n_r 1 1 (0 + qn * (nm * w) + qm * w + i * n_r)
                    (fun j => X (r0 + qm * m_r + i) (r0 + qm * m_r + i + 1) (n1 + qn * n_r + j) (n1 + qn * n_r + j + 1))
                    (fun j => B (r0 + qm * m_r + i) (r0 + qm * m_r + i + 1) (n1 + qn * n_r + j) (n1 + qn * n_r + j + 1))
                    X5 Rd m5); try lia.
                   - intros q b x Hq (E & r & c & H). split; auto. exists r, c. nia.
                   - intros q q' b x Hq Hq' Hne. apply rect_disj; [nia|nia|lia].
                   - intros q ma mb Hq Hs. apply HXB. auto.
                   - intros j m6 Hj HL6 HF6. replace (0 + j * 1) with j by lia. replace (j * 1) with j by lia.
                     apply twp_bind.
                     set (row := qm * m_r + i). set (col := qn * n_r + j).
                     replace (n1 + qn * n_r + j) with (n1 + col) by (unfold col; ring).
                     replace (m1 + m2 + qm * m_r + i) with (r0 + row) by (unfold r0, row; ring).
                     replace (r0 + qm * m_r + i) with (r0 + row) by (unfold row; ring).
                     destruct (Z.ltb_spec (n1 + col) N) as [Hc|Hc];
                       [destruct (Z.ltb_spec (r0 + row) M) as [Hr|Hr]|]; cbn [andb].
                     + apply twp_bind. unfold pload, pstore. cbn [fst snd].
                       pose proof (cell_bound m_r n_r i j Hi Hj) as Hcell. fold w in Hcell.
                       assert (Hlin : 0 <= (qn * nm + qm) * w /\ (qn * nm + qm) * w + w <= nm * m_r * (nn * n_r)).
                       { replace (nm * m_r * (nn * n_r)) with (nn * nm * w) by (unfold w; ring).
                         assert ((qn * nm + qm + 1) * w <= nn * nm * w) by (apply Z.mul_le_mono_nonneg_r; nia). nia. }
                       assert (Hi2 : 0 + qn * (nm * w) + qm * w + i * n_r + j = (qn * nm + qm) * w + (i * n_r + j)) by ring.
                       eapply twp_load with (v := f (r0 + row) (n1 + col)).
                       * left. split; auto. rewrite Hi2. lia.
                       * rewrite HL6, HL5, HL4, HL3. exact HLp.
                       * rewrite Hi2. lia.
                       * assert (Hpb : forall x, ~ X r0 (r0 + nm * m_r) n1 (n1 + nn * n_r) pb x).
                         { intros x (E & _). congruence. }
                         rewrite HF6 by (intros (E & _); congruence).
                         rewrite HF5 by (intros (E & _); congruence).
                         rewrite HF4 by (intros (E & _); congruence).
                         rewrite HF3 by (intros (E & _); congruence).
                         etransitivity; [|exact (PC qm i qn j Hqm Hi Hqn Hj)]. f_equal. unfold w. ring.
                       * assert (Haddr : r0 * N + n1 + (qn * n_r + qm * m_r * N + i * N + j)
                                         = (r0 + row) * N + (n1 + col)) by (unfold row, col; ring).
                         assert (Hrc : 0 <= row /\ 0 <= col) by (unfold row, col; nia).
                         eapply twp_store.
                         -- split; auto. exists (r0 + row), (n1 + col). repeat split; try lia.
                         -- rewrite HL6, HL5, HL4, HL3. exact HLc.
                         -- rewrite Haddr. nia.
                         -- apply twp_ret. split; [lia|]. intros r c H1 H2 H3 H4.
                            assert (r = r0 + row) by lia. assert (c = n1 + col) by lia. subst r c.
                            rewrite <- Haddr. apply dat_upd_same.
                     + apply twp_ret, twp_ret. split; [lia|]. intros r c H1 H2 H3 H4. lia.
                     + apply twp_ret, twp_ret. split; [lia|]. intros r c H1 H2 H3 H4. lia. }
                 cbn. intros ind m6 (-> & H6). split; [ring|].
                 intros r c H1 H2 H3 H4. apply (H6 (c - (n1 + qn * n_r))); lia.
           ++ cbn. intros ind m5 (-> & H5). split; [unfold w; ring|].
              intros r c H1 H2 H3 H4. apply (H5 (r - (r0 + qm * m_r))); lia.
      * cbn. intros ind m4 (-> & H4). split; [ring|].
        intros r c H1 H2 H3 H4'.
        assert (E : r - r0 = m_r * ((r - r0) / m_r) + (r - r0) mod m_r) by (apply Z.div_mod; lia).
        pose proof (Z.mod_pos_bound (r - r0) m_r Hmr).
        assert (0 <= (r - r0) / m_r < nm) by (split; [apply Z.div_pos; lia|apply Z.div_lt_upper_bound; nia]).
        apply (H4 ((r - r0) / m_r)); try lia; try nia.
  - cbn. intros ind m3 (_ & H3). apply twp_ret. intros r c H1 H2 H3' H4.
    assert (E : c - n1 = n_r * ((c - n1) / n_r) + (c - n1) mod n_r) by (apply Z.div_mod; lia).
    pose proof (Z.mod_pos_bound (c - n1) n_r Hnr).
    assert (0 <= (c - n1) / n_r < nn) by (split; [apply Z.div_pos; lia|apply Z.div_lt_upper_bound; nia]).
    apply (H3 ((c - n1) / n_r)); try lia; try nia.
Qed.

Lemma memset0_spec b o n bi m :
  0 <= n -> live m b = Some bi -> 0 <= o -> o + n <= blen bi ->
  twp (rng b o (o + n)) rnone (memset0 S (b, o) n)
      (fun _ m' => forall x, 0 <= x < n -> dat m' b (o + x) = Some (zero S)) m.
Proof.
  intros Hn HL H0 H1. unfold memset0, tfor_, pstore. cbn [fst snd].
  eapply (twp_tfor1 _ _ (fun i _ m' => forall x, 0 <= x < i -> dat m' b (o + x) = Some (zero S))); auto.
  - intros; lia.
  - intros i _ m' Hi HI Hl _.
    eapply twp_store; [split; [reflexivity|lia]|rewrite Hl; eauto|lia|].
    intros j Hj. destruct (Z.eq_dec j i) as [->|].
    + apply dat_upd_same.
    + rewrite dat_upd_other by lia. apply HI. lia.
Qed.

End U.
