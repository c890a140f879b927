(** * Packing and unpacking one block.  Proofs only. *)

From Coq Require Import ZArith List Bool Lia FunctionalExtensionality.
From Verif Require Import Lang Lang_facts Spec SpecTop SpecPack ModelSizing ModelKernel ModelPack ModelSched ModelBlock SpecBlock
     Kernel_facts Tile_facts Loop_facts Pack_facts Unpack_facts Trans_facts Mult_facts.
Import ListNotations.
Open Scope Z_scope.

Lemma rng_dec db lo hi b x : {rng db lo hi b x} + {~ rng db lo hi b x}.
Proof.
  unfold rng. destruct (buf_eqb_spec b db) as [->|]; [|right; tauto].
  destruct (Z_le_dec lo x); [|right; lia]. destruct (Z_lt_dec x hi); [left; auto|right; lia].
Qed.

Lemma fills_seq {V} (t : thr V unit) m dst o n rows cols slot (v : Z -> Z -> V) Rd (Q : mem V -> Prop) :
  twp (rng dst o (o + n)) Rd t (fun _ => Q) m -> n = rows * cols ->
  (forall m', Q m' -> forall i j, 0 <= i < rows -> 0 <= j < cols -> dat m' dst (o + slot i j) = Some (v i j)) ->
  fills (pseq t) m dst o rows cols slot v.
Proof.
  intros H -> HQ. apply pok_always. eapply pok_seq; [exact H| |intros b x; apply rng_dec].
  intros ms m' HQm _ HL HE HF. split; [|split].
  - intros i j Hi Hj. rewrite HE. apply HQ; auto.
  - intros b. now rewrite HL.
  - exact HF.
Qed.

Lemma panels_slot {V} (m : mem V) b o r nq kd f i k : 0 < r -> panels m b o r nq kd f ->
  0 <= i < nq * r -> 0 <= k < kd -> dat m b (o + panel_slot r kd i k) = Some (f i k).
Proof.
  intros Hr P Hi Hk. pose proof (Z.div_mod i r ltac:(lia)) as E. pose proof (Z.mod_pos_bound i r Hr).
  assert (0 <= i / r < nq) by (split; [apply Z.div_pos; lia|apply Z.div_lt_upper_bound; lia]).
  unfold panel_slot. specialize (P (i / r) (i mod r) k ltac:(auto) ltac:(auto) Hk).
  rewrite (Z.mul_comm (i / r) r), <- E in P.
  rewrite <- P. f_equal. ring.
Qed.

Lemma ctiles_slot {V} (m : mem V) b o mr nr nm nn f i j : 0 < mr -> 0 < nr -> ctiles m b o mr nr nm nn f ->
  0 <= i < nm * mr -> 0 <= j < nn * nr -> dat m b (o + tile_slot mr nr (nm * mr) i j) = Some (f i j).
Proof.
  intros Hm Hn P Hi Hj. pose proof (Z.div_mod i mr ltac:(lia)) as E. pose proof (Z.mod_pos_bound i mr Hm).
  pose proof (Z.div_mod j nr ltac:(lia)) as E'. pose proof (Z.mod_pos_bound j nr Hn).
  assert (0 <= i / mr < nm) by (split; [apply Z.div_pos; lia|apply Z.div_lt_upper_bound; lia]).
  assert (0 <= j / nr < nn) by (split; [apply Z.div_pos; lia|apply Z.div_lt_upper_bound; lia]).
  unfold tile_slot. specialize (P (i / mr) (i mod mr) (j / nr) (j mod nr) ltac:(auto) ltac:(auto) ltac:(auto) ltac:(auto)).
  rewrite (Z.mul_comm (i / mr) mr), (Z.mul_comm (j / nr) nr), <- E, <- E' in P.
  rewrite <- P. f_equal. ring.
Qed.

Lemma slot_ctiles {V} (m : mem V) b o mr nr nm nn f : 0 < mr -> 0 < nr -> 
  (forall i j, 0 <= i < nm * mr -> 0 <= j < nn * nr -> dat m b (o + tile_slot mr nr (nm * mr) i j) = Some (f i j)) ->
  ctiles m b o mr nr nm nn f.
Proof.
  intros Hm Hn H qm i qn j Hqm Hi Hqn Hj.
  rewrite <- H by nia. f_equal. unfold tile_slot.
  rewrite (Z.add_comm (qm * mr)), (Z.add_comm (qn * nr)).
  rewrite !Z.div_add, !Z.mod_add, !(Z.div_small _ _), !(Z.mod_small _ _) by lia. ring.
Qed.

Section B.

Variable S : scalar.
Notation T := (elt S).

(** The version of A with the matrix, like [pack_ob_A_spec]. *)
Lemma pack_A_multiple_spec (Rd : region) (ab pb : buf) ao po M K m1 k1 m2 mt kd m_r nq pad (f : Z -> Z -> T) bp m :
  0 < m_r -> 0 <= nq -> 0 <= kd -> mt = nq * m_r ->
  live m pb = Some bp -> 0 <= po -> po + mt * kd <= blen bp ->
  (forall x, ~ Rd pb x) ->
  (forall row kk, 0 <= row < mt -> 0 <= kk < kd ->
     src_ok S m Rd (pad && (M <=? m1 + m2 + row)) ab (ao + ((m1 + m2 + row) * K + k1 + kk)) (f row kk)) ->
  twp (rng pb po (po + mt * kd)) Rd
      (pack_ob_A_multiple_buf S (ab, ao) (pb, po) M K m1 k1 m2 mt kd m_r pad)
      (fun _ m' => panels m' pb po m_r nq kd f) m.
Proof.
  intros Hmr Hnq Hkd -> HL Hp0 Hp1 HRd Hsrc. unfold pack_ob_A_multiple_buf. apply twp_bind.
  replace (nq * m_r * kd) with (nq * (kd * m_r)) in * by ring.
  eapply twp_mono.
  - eapply (blk_loop _ pb po nq 0 (nq * m_r) m_r (kd * m_r) 0
       (fun q m' => forall i j, 0 <= i < kd -> 0 <= j < m_r ->
          dat m' pb (po + q * (kd * m_r) + i * m_r + j) = Some (f (q * m_r + j) i))); auto; try nia.
    + intros q Hq m3 m4 Hs H i j Hi Hj. rewrite <- Hs by nia. auto.
    + intros q m3 Hq HL3 HF3. replace (0 + q * m_r) with (q * m_r) by lia.
      eapply twp_call with (Rd' := Rd).
      * eapply (copy2_spec S Rd pb ab po ao (0 + q * (kd * m_r)) kd m_r 0
                  (fun i j => pad && (M <=? m1 + m2 + q * m_r + j))
                  (fun i j => m1 * K + k1 + m2 * K + q * m_r * K + i + j * K) (fun i j => f (q * m_r + j) i) bp m3); auto; try nia.
        -- rewrite HL3. exact HL.
        -- intros i j Hi Hj.
           eapply (src_ok_frame S m m3 Rd _ _ _ _ (rng pb po (po + nq * (kd * m_r)))); auto.
           ++ replace (ao + (m1 * K + k1 + m2 * K + q * m_r * K + i + j * K))
                with (ao + ((m1 + m2 + (q * m_r + j)) * K + k1 + i)) by ring.
              replace (m1 + m2 + q * m_r + j) with (m1 + m2 + (q * m_r + j)) by ring.
              apply Hsrc; nia.
           ++ intros b x Hx (-> & _). apply (HRd x); auto.
      * intros b x (-> & Hx). split; auto. nia.
      * auto.
      * cbn. intros ind m4 (-> & H4) _ _. split; [ring|].
        intros i j Hi Hj. rewrite <- (H4 i j Hi Hj). f_equal. ring.
  - cbn. intros ind m3 (_ & H3). apply twp_ret. intros q i kk Hq Hi Hkk.
    rewrite <- (H3 q Hq kk i Hkk Hi). f_equal. ring.
Qed.

(** The versions for C are those with a pointer to the block. *)
Lemma pack_C_multiple_is C o C_p M N m1 n1 m2 mc nc m_r n_r pad :
  pack_ob_C_multiple_buf S (C, o) C_p M N m1 n1 m2 mc nc m_r n_r pad =
  pack_ob_C_single_buf S (C, o + ((m1 + m2) * N + n1)) C_p M N m1 n1 m2 mc nc m_r n_r pad false.
Proof.
  unfold pack_ob_C_multiple_buf, pack_ob_C_single_buf. f_equal. f_equal.
  extensionality n2. extensionality i1. f_equal. extensionality m3. extensionality i2. f_equal.
  extensionality i. extensionality i3. f_equal. extensionality j. extensionality i4.
  rewrite orb_false_r. f_equal. unfold copy0, pload. cbn [fst snd].
  replace (o + (n1 + m1 * N + m2 * N + n2 + m3 * N + i * N + j))
    with (o + ((m1 + m2) * N + n1) + (n2 + m3 * N + i * N + j)) by ring. reflexivity.
Qed.

Lemma unpack_C_multiple_is C o C_p M N m1 n1 m2 mc nc m_r n_r :
  unpack_ob_C_multiple_buf S (C, o) C_p M N m1 n1 m2 mc nc m_r n_r =
  unpack_ob_C_single_buf S (C, o + ((m1 + m2) * N + n1)) C_p M N m1 n1 m2 mc nc m_r n_r.
Proof.
  unfold unpack_ob_C_multiple_buf, unpack_ob_C_single_buf. f_equal. f_equal.
  extensionality n2. extensionality i1. f_equal. extensionality m3. extensionality i2. f_equal.
  extensionality i. extensionality i3. f_equal. extensionality j. extensionality i4.
  f_equal. unfold pload, pstore. cbn [fst snd].
  replace (o + (n1 + m1 * N + m2 * N + n2 + m3 * N + i * N + j))
    with (o + ((m1 + m2) * N + n1) + (n2 + m3 * N + i * N + j)) by ring. reflexivity.
Qed.

(** ** A *)

Lemma A_src (m : mem T) src dst M K r0 k1 kc (A : Z -> Z -> T) row kk pad :
  src <> dst -> 0 <= r0 -> 0 <= k1 -> k1 + kc <= K -> at_least m src (M * K) -> holds m src M K A ->
  0 <= row -> 0 <= kk < kc -> (pad = false -> r0 + row < M) ->
  src_ok S m (fun b _ => b = src) (pad && (M <=? r0 + row)) src ((r0 + row) * K + k1 + kk)
    (if r0 + row <? M then A (r0 + row) (k1 + kk) else zero S).
Proof.
  intros Hne H0 H1 HK (bi & L1 & L2) HA Hr Hk Hp.
  unfold src_ok. destruct (Z.ltb_spec (r0 + row) M); destruct (Z.leb_spec M (r0 + row)); try lia.
  - rewrite andb_false_r. split; [auto|]. split.
    + rewrite <- (HA (r0 + row) (k1 + kk)) by lia. f_equal. ring.
    + exists bi. split; [auto|]. split; [nia|].
      assert ((r0 + row + 1) * K <= M * K) by (apply Z.mul_le_mono_nonneg_r; lia). lia.
  - destruct pad; [reflexivity|]. specialize (Hp eq_refl). lia.
Qed.

Lemma block_A src dst o M K m1 m2 k1 mc kc mr pad (A : Z -> Z -> T) m :
  src <> dst -> 0 < mr -> (mr | mc) -> 0 <= mc -> 0 <= kc -> 0 <= m1 + m2 -> 0 <= k1 -> k1 + kc <= K -> 0 <= o ->
  at_least m src (M * K) -> holds m src M K A -> at_least m dst (o + mc * kc) ->
  let v := fun i k => if m1 + m2 + i <? M then A (m1 + m2 + i) (k1 + k) else zero S in
  fills (pseq (pack_ob_A_single_buf S (src, (m1 + m2) * K + k1) (dst, o) M K m1 m2 mc kc mr)) m dst o mc kc
    (panel_slot mr kc) v /\
  (pad = true \/ m1 + m2 + mc <= M ->
   fills (pseq (pack_ob_A_multiple_buf S (src, 0) (dst, o) M K m1 k1 m2 mc kc mr pad)) m dst o mc kc
     (panel_slot mr kc) v).
Proof.
  intros Hne Hr [nq E] Hmc Hkc H0 H1 HK Ho HS HA (bd & D1 & D2). cbv zeta. assert (0 <= nq) by nia.
  split; [|intros Hpad].
  - eapply fills_seq; [|reflexivity|].
    + eapply (pack_ob_A_spec S (fun b _ => b = src) src dst _ o M K m1 m2 mc kc mr nq
               (fun i k => if m1 + m2 + i <? M then A (m1 + m2 + i) (k1 + k) else zero S) bd m); auto.
      intros row kk Hrow Hkk. 
      replace ((m1 + m2) * K + k1 + (row * K + kk)) with ((m1 + m2 + row) * K + k1 + kk) by ring.
      rewrite <- (andb_true_l (M <=? m1 + m2 + row)).
      eapply A_src with (kc := kc) (dst := dst); eauto; try lia.
    + intros m' P i j Hi Hj. apply (panels_slot m' dst o mr nq kc _ i j Hr P); [lia|auto].
  - eapply fills_seq; [|reflexivity|].
    + eapply (pack_A_multiple_spec (fun b _ => b = src) src dst 0 o M K m1 k1 m2 mc kc mr nq pad
               (fun i k => if m1 + m2 + i <? M then A (m1 + m2 + i) (k1 + k) else zero S) bd m); auto.
      intros row kk Hrow Hkk. rewrite Z.add_0_l.
      eapply A_src with (kc := kc) (dst := dst); eauto; try lia.
      intros ->. destruct Hpad; [discriminate|lia].
    + intros m' P i j Hi Hj. apply (panels_slot m' dst o mr nq kc _ i j Hr P); [lia|auto].
Qed.

(** ** B *)

Lemma B_src (m : mem T) src K N k1 n1 kc (B : Z -> Z -> T) col kk pad :
  0 <= n1 -> 0 <= k1 -> k1 + kc <= K -> at_least m src (K * N) -> holds m src K N B ->
  0 <= col -> 0 <= kk < kc -> (pad = false -> n1 + col < N) ->
  src_ok S m (fun b _ => b = src) (pad && (N <=? n1 + col)) src (k1 * N + n1 + (kk * N + col))
    (if n1 + col <? N then B (k1 + kk) (n1 + col) else zero S).
Proof.
  intros H0 H1 HK (bi & L1 & L2) HB Hc Hk Hp.
  unfold src_ok. destruct (Z.ltb_spec (n1 + col) N); destruct (Z.leb_spec N (n1 + col)); try lia.
  - rewrite andb_false_r. split; [auto|].
    replace (k1 * N + n1 + (kk * N + col)) with ((k1 + kk) * N + (n1 + col)) by ring. split.
    + apply HB; lia.
    + exists bi. split; [auto|]. split; [nia|].
      assert ((k1 + kk + 1) * N <= K * N) by (apply Z.mul_le_mono_nonneg_r; lia). lia.
  - destruct pad; [reflexivity|]. specialize (Hp eq_refl). lia.
Qed.

(** one panel of [pack_ob_B_parallel] *)
Lemma B_panel_spec (Rd : region) (bb pb : buf) bo po N n1 n2 kd n_r pad (f : Z -> Z -> T) bp m :
  0 < n_r -> 0 <= kd -> 0 <= n2 ->
  live m pb = Some bp -> 0 <= po -> po + n2 * kd + kd * n_r <= blen bp ->
  (forall x, ~ Rd pb x) ->
  (forall kk col, 0 <= col < n_r -> 0 <= kk < kd ->
     src_ok S m Rd (pad && (N <=? n1 + n2 + col)) bb (bo + (n2 + kk * N + col)) (f kk col)) ->
  twp (rng pb (po + n2 * kd) (po + n2 * kd + kd * n_r)) Rd
    (tbind (tfor 0 kd 1 0 (fun i ind => tfor 0 n_r 1 ind (fun j ind =>
       tbind (copy0 S (pad && (N <=? n1 + n2 + j)) (pb, po) (n2 * kd + ind) (bb, bo) (n2 + i * N + j))
             (fun _ => TRet (ind + 1))))) (fun _ => TRet tt))
    (fun _ m' => forall i j, 0 <= i < kd -> 0 <= j < n_r -> dat m' pb (po + n2 * kd + i * n_r + j) = Some (f i j)) m.
Proof.
  intros Hr Hk H2 HL Hp0 Hp1 HRd Hsrc. apply twp_bind. eapply twp_call with (Rd' := Rd).
  - eapply (copy2_spec S Rd pb bb po bo 0 kd n_r (n2 * kd)
       (fun i j => pad && (N <=? n1 + n2 + j)) (fun i j => n2 + i * N + j) f bp m); auto; try nia.
  - intros b x (-> & Hx). split; auto. lia.
  - auto.
  - cbn. intros ind m3 (_ & H3) _ _. apply twp_ret. intros i j Hi Hj.
    rewrite <- (H3 i j Hi Hj). f_equal. ring.
Qed.

Lemma block_B src dst o K N n1 k1 kc nc nr pad (B : Z -> Z -> T) m :
  src <> dst -> 0 < nr -> (nr | nc) -> 0 <= nc -> 0 <= kc -> 0 <= n1 -> 0 <= k1 -> k1 + kc <= K -> 0 <= o ->
  at_least m src (K * N) -> holds m src K N B -> at_least m dst (o + nc * kc) ->
  pad = true \/ n1 + nc <= N ->
  let v := fun j k => if n1 + j <? N then B (k1 + k) (n1 + j) else zero S in
  fills (pseq (pack_ob_B_single_buf S (src, k1 * N + n1) (dst, o) K N n1 kc nc nr pad)) m dst o nc kc
    (panel_slot nr kc) v /\
  fills (pack_ob_B_parallel S (src, k1 * N + n1) (dst, o) K N n1 kc nc nr pad) m dst o nc kc
    (panel_slot nr kc) v.
Proof.
  intros Hne Hr [nq E] Hnc Hkc H0 H1 HK Ho HS HB (bd & D1 & D2) Hpad. cbv zeta. assert (0 <= nq) by nia.
  assert (SRC : forall col kk, 0 <= col < nc -> 0 <= kk < kc ->
    src_ok S m (fun b _ => b = src) (pad && (N <=? n1 + col)) src (k1 * N + n1 + (kk * N + col))
    (if n1 + col <? N then B (k1 + kk) (n1 + col) else zero S)).
  { intros col kk Hc Hk. eapply B_src with (kc := kc) (K := K); eauto; try lia.
    intros ->. destruct Hpad; [discriminate|lia]. }
  split.
  - eapply fills_seq; [|reflexivity|].
    + eapply (pack_ob_B_spec S (fun b _ => b = src) src dst _ o K N n1 nc kc nr nq pad
               (fun k j => if n1 + j <? N then B (k1 + k) (n1 + j) else zero S) bd m); auto.
    + intros m' P i j Hi Hj. cbv beta in P.
      apply (panels_slot m' dst o nr nq kc _ i j Hr P); [lia|auto].
  - apply pok_always. unfold pack_ob_B_parallel.
    apply (pok_par_for 0 nc nr nq _ m
       (fun c => rng dst (o + c * nr * kc) (o + c * nr * kc + kc * nr)) (fun _ b _ => b = src)
       (fun c m' => forall i j, 0 <= i < kc -> 0 <= j < nr ->
           dat m' dst (o + c * nr * kc + i * nr + j) =
           Some (if n1 + (c * nr + j) <? N then B (k1 + i) (n1 + (c * nr + j)) else zero S))); auto; try lia.
    + intros c Hc. replace (0 + c * nr) with (c * nr) by lia.
      assert (c * nr + nr <= nc) by (subst nc; nia).
      apply (B_panel_spec (fun b _ => b = src) src dst (k1 * N + n1) o N n1 (c * nr) kc nr pad
               (fun i j => if n1 + (c * nr + j) <? N then B (k1 + i) (n1 + (c * nr + j)) else zero S) bd m); auto; try nia.
      intros kk col Hcol Hkk.
      replace (k1 * N + n1 + (c * nr + kk * N + col)) with (k1 * N + n1 + (kk * N + (c * nr + col))) by ring.
      replace (n1 + c * nr + col) with (n1 + (c * nr + col)) by ring. apply SRC; nia.
    + intros c d b x Hc Hd Hcd (-> & Hx) [(_ & Hy)|Hy]; [|congruence].
      assert (c < d \/ d < c) as [L|L] by lia.
      * assert ((c + 1) * (nr * kc) <= d * (nr * kc)) by (apply Z.mul_le_mono_nonneg_r; nia). nia.
      * assert ((d + 1) * (nr * kc) <= c * (nr * kc)) by (apply Z.mul_le_mono_nonneg_r; nia). nia.
    + intros m' HL HV HF. split; [|split].
      * intros i j Hi Hj. pose proof (Z.div_mod i nr ltac:(lia)) as Ei. pose proof (Z.mod_pos_bound i nr Hr).
        assert (0 <= i / nr < nq) as Hq by (split; [apply Z.div_pos; lia|apply Z.div_lt_upper_bound; lia]).
        destruct (HV (i / nr) Hq) as (ms & Q1 & _ & _ & Q4).
        assert (0 <= j * nr + i mod nr < kc * nr) by nia.
        rewrite Q4.
        -- replace (o + panel_slot nr kc i j) with (o + i / nr * nr * kc + j * nr + i mod nr) by (unfold panel_slot; ring).
           rewrite Q1 by auto. replace (i / nr * nr + i mod nr) with i by lia. reflexivity.
        -- split; auto. unfold panel_slot. lia.
      * intros b. now rewrite HL.
      * intros b x Hx. apply HF. intros c Hc (-> & Hy). apply Hx. split; auto.
        assert ((c + 1) * (nr * kc) <= nq * (nr * kc)) by (apply Z.mul_le_mono_nonneg_r; nia). nia.
Qed.

(** ** C *)

Lemma block_C src dst o M N m1 n1 m2 mc nc mr nr pad_m pad_n (C : Z -> Z -> T) m :
  src <> dst -> 0 < mr -> 0 < nr -> (mr | mc) -> (nr | nc) -> 0 <= mc -> 0 <= nc -> 0 <= m1 + m2 -> 0 <= n1 -> 0 <= o ->
  at_least m src (M * N) -> holds m src M N C -> at_least m dst (o + mc * nc) ->
  pad_m || pad_n = true \/ (m1 + m2 + mc <= M /\ n1 + nc <= N) ->
  let v := fun i j => if (m1 + m2 + i <? M) && (n1 + j <? N) then C (m1 + m2 + i) (n1 + j) else zero S in
  fills (pseq (pack_ob_C_single_buf S (src, (m1 + m2) * N + n1) (dst, o) M N m1 n1 m2 mc nc mr nr pad_m pad_n)) m dst o mc nc
    (tile_slot mr nr mc) v /\
  fills (pseq (pack_ob_C_multiple_buf S (src, 0) (dst, o) M N m1 n1 m2 mc nc mr nr (pad_m || pad_n))) m dst o mc nc
    (tile_slot mr nr mc) v.
Proof.
  intros Hne Hr Hs [nm E] [nn E'] Hmc Hnc H0 H1 Ho (bi & L1 & L2) HC (bd & D1 & D2) Hpad. cbv zeta.
  assert (0 <= nm) by nia. assert (0 <= nn) by nia.
  assert (G : forall pm pn, pm || pn = pad_m || pad_n ->
    fills (pseq (pack_ob_C_single_buf S (src, (m1 + m2) * N + n1) (dst, o) M N m1 n1 m2 mc nc mr nr pm pn)) m dst o mc nc
    (tile_slot mr nr mc) (fun i j => if (m1 + m2 + i <? M) && (n1 + j <? N) then C (m1 + m2 + i) (n1 + j) else zero S)).
  { intros pm pn Ep. eapply fills_seq; [|reflexivity|].
    - eapply (pack_ob_C_spec S (fun b _ => b = src) src dst _ o M N m1 n1 m2 mc nc mr nr nm nn pm pn
        (fun i j => if (m1 + m2 + i <? M) && (n1 + j <? N) then C (m1 + m2 + i) (n1 + j) else zero S) bd m); auto.
      intros row col Hrow Hcol. unfold src_ok. rewrite Ep.
      destruct (Z.ltb_spec (m1 + m2 + row) M); destruct (Z.leb_spec M (m1 + m2 + row)); try lia;
      destruct (Z.ltb_spec (n1 + col) N); destruct (Z.leb_spec N (n1 + col)); try lia;
      cbn [andb orb]; rewrite ?andb_false_r, ?andb_true_r;
      try (destruct (pad_m || pad_n); [reflexivity|]; destruct Hpad; [discriminate|lia]).
      split; [auto|]. replace ((m1 + m2) * N + n1 + (row * N + col)) with ((m1 + m2 + row) * N + (n1 + col)) by ring.
      split; [apply HC; lia|]. exists bi. split; [auto|]. split; [nia|].
      assert ((m1 + m2 + row + 1) * N <= M * N) by (apply Z.mul_le_mono_nonneg_r; lia). lia.
    - intros m' P i j Hi Hj. cbv beta in P. subst mc. 
      apply (ctiles_slot m' dst o mr nr nm nn _ i j Hr Hs P); lia. }
  split; [apply G; reflexivity|].
  rewrite pack_C_multiple_is. rewrite Z.add_0_l. apply G. now rewrite orb_false_r.
Qed.

Lemma block_unpack src dst o M N m1 n1 m2 mc nc mr nr (v : Z -> Z -> T) m :
  src <> dst -> 0 < mr -> 0 < nr -> (mr | mc) -> (nr | nc) -> 0 <= mc -> 0 <= nc -> 0 <= m1 + m2 -> 0 <= n1 -> 0 <= o ->
  at_least m dst (M * N) -> at_least m src (o + mc * nc) ->
  (forall i j, 0 <= i < mc -> 0 <= j < nc -> dat m src (o + tile_slot mr nr mc i j) = Some (v i j)) ->
  copies_back (pseq (unpack_ob_C_single_buf S (dst, (m1 + m2) * N + n1) (src, o) M N m1 n1 m2 mc nc mr nr))
    m dst M N (m1 + m2) n1 mc nc v /\
  copies_back (pseq (unpack_ob_C_multiple_buf S (dst, 0) (src, o) M N m1 n1 m2 mc nc mr nr))
    m dst M N (m1 + m2) n1 mc nc v.
Proof.
  intros Hne Hr Hs [nm E] [nn E'] Hmc Hnc H0 H1 Ho (bc & L1 & L2) (bp & D1 & D2) HV.
  rewrite unpack_C_multiple_is, Z.add_0_l.
  enough (G : copies_back (pseq (unpack_ob_C_single_buf S (dst, (m1 + m2) * N + n1) (src, o) M N m1 n1 m2 mc nc mr nr))
    m dst M N (m1 + m2) n1 mc nc v) by auto.
  assert (0 <= nm) by nia. assert (0 <= nn) by nia.
  apply pok_always. eapply pok_seq.
  - eapply (unpack_spec S dst src _ o M N m1 n1 m2 mc nc mr nr nm nn (fun r c => v (r - (m1 + m2)) (c - n1)) bc bp m); auto.
    intros qm i qn j Hqm Hi Hqn Hj. 
    replace (m1 + m2 + (qm * mr + i) - (m1 + m2)) with (qm * mr + i) by ring.
    replace (n1 + (qn * nr + j) - n1) with (qn * nr + j) by ring.
    revert qm i qn j Hqm Hi Hqn Hj. apply (slot_ctiles m src o mr nr nm nn v Hr Hs).
    subst mc nc. exact HV.
  - cbv beta. intros ms m' HB HLs HL HE HF. split; [|split].
    + intros i j Hi Hj.
      destruct (Z.leb_spec (m1 + m2) i); destruct (Z.ltb_spec i (m1 + m2 + mc));
      destruct (Z.leb_spec n1 j); destruct (Z.ltb_spec j (n1 + nc)); cbn [andb];
      try (apply HF; intros (_ & r & c & A1 & A2 & A3 & A4 & A5); apply rc_inj in A5; lia).
      rewrite HE. rewrite (HB i j) by lia. reflexivity.
    + intros b. now rewrite HL.
    + intros b x Hx. apply HF. intros (-> & r & c & A1 & A2 & A3 & A4 & ->). apply Hx. split; auto.
      split; [nia|]. assert ((r + 1) * N <= M * N) by (apply Z.mul_le_mono_nonneg_r; lia). lia.
  - intros b x. destruct (buf_eqb_spec b dst) as [->|]; [|right; intros (? & _); congruence].
    destruct (Z_le_dec N 0) as [LN|LN]; [right; intros (_ & r & c & A1 & A2 & A3 & A4 & ->); lia|].
    pose proof (Z.div_mod x N ltac:(lia)) as Ex. pose proof (Z.mod_pos_bound x N ltac:(lia)).
    destruct (Z_le_dec (m1 + m2) (x / N)); [|right; intros (_ & r & c & A1 & A2 & A3 & A4 & A5);
      assert (r = x / N /\ c = x mod N) by (apply (rc_inj N); lia); lia].
    destruct (Z_lt_dec (x / N) (m1 + m2 + mc)); [|right; intros (_ & r & c & A1 & A2 & A3 & A4 & A5);
      assert (r = x / N /\ c = x mod N) by (apply (rc_inj N); lia); lia].
    destruct (Z_lt_dec (x / N) M); [|right; intros (_ & r & c & A1 & A2 & A3 & A4 & A5);
      assert (r = x / N /\ c = x mod N) by (apply (rc_inj N); lia); lia].
    destruct (Z_le_dec n1 (x mod N)); [|right; intros (_ & r & c & A1 & A2 & A3 & A4 & A5);
      assert (r = x / N /\ c = x mod N) by (apply (rc_inj N); lia); lia].
    destruct (Z_lt_dec (x mod N) (n1 + nc)); [|right; intros (_ & r & c & A1 & A2 & A3 & A4 & A5);
      assert (r = x / N /\ c = x mod N) by (apply (rc_inj N); lia); lia].
    left. split; auto. exists (x / N), (x mod N). lia.
Qed.

End B.
