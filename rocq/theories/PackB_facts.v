(** * Packing all of B for the K-first schedule. *)

From Coq Require Import ZArith List Bool Lia.
From Verif Require Import Lang Lang_facts Spec ModelSizing ModelKernel ModelPack ModelSched
     Kernel_facts Tile_facts Loop_facts Pack_facts Sizing_facts PackMat_facts.
Import ListNotations.
Open Scope Z_scope.

Lemma pbind_tt {V} (p : prog V unit) : pbind p (fun _ => PRet tt) = p.
Proof. Transparent pbind. induction p as [[]| | | | |]; cbn; congruence. Qed.
#[global] Opaque pbind.

Section B.

Variable S : scalar.
Notation T := (elt S).

Lemma packB_main_spec guard (bb pb : buf) K N x n_r nn n1 base nt (f : Z -> Z -> T) bp m :
  0 < n_r -> 0 <= nn -> nt = nn * n_r -> 0 < k_c x -> 0 <= K -> 0 <= base ->
  bb <> pb ->
  live m pb = Some bp -> base + Z.quot K (k_c x) * k_c x * nt <= blen bp ->
  (forall kk col, 0 <= kk < K -> 0 <= col < nt ->
     src_ok S m (fun b _ => b = bb) (guard && (N <=? n1 + col)) bb (n1 + kk * N + col) (f kk (n1 + col))) ->
  pok (packB_main S guard (bb, 0) (pb, 0) K N x n_r n1 base nt) m
      (fun _ m' => live m' = live m /\
         same_out (rng pb base (base + Z.quot K (k_c x) * k_c x * nt)) m m' /\
         forall k, 0 <= k < Z.quot K (k_c x) ->
           panels m' pb (base + k * k_c x * nt) n_r nn (k_c x)
                  (fun col kk => f (k * k_c x + kk) (n1 + col))).
Proof.
  intros Hnr Hnn -> Hkc HK Hb0 Hne HL Hlen Hsrc. unfold packB_main.
  pose proof (Z.quot_rem K (k_c x) ltac:(lia)) as QK.
  pose proof (Z.rem_bound_pos K (k_c x) HK Hkc) as BK.
  assert (Hq0 : 0 <= Z.quot K (k_c x)) by (apply Z.quot_pos; lia).
  set (kq := Z.quot K (k_c x)) in *. set (kc := k_c x) in *.
  set (nt := nn * n_r) in *. assert (Hnt : 0 <= nt) by (unfold nt; nn).
  assert (Hblk : forall k, 0 <= k < kq ->
      0 <= k * kc * nt /\ 0 <= kc * nt /\ k * kc * nt + kc * nt <= kq * kc * nt).
  { intros k Hk. assert (0 <= k * kc * nt) by nn. assert (0 <= kc * nt) by nn.
    assert ((k + 1) * (kc * nt) <= kq * (kc * nt)) by (apply Z.mul_le_mono_nonneg_r; lia). lia. }
  eapply (par_blk _ pb kq 0 (K - Z.rem K kc) kc
     (fun k => base + k * kc * nt) (fun k => base + k * kc * nt + kc * nt)
     (fun k m' => panels m' pb (base + k * kc * nt) n_r nn kc
                  (fun col kk => f (k * kc + kk) (n1 + col)))
     (fun _ b _ => b = bb) base (base + kq * kc * nt)); try lia.
  - intros c d y Hc Hd Hcd H1 H2. assert (0 <= kc * nt) by nn.
    destruct (Z_lt_le_dec c d); nia.
  - intros c Hc _. specialize (Hblk c Hc). lia.
  - intros c Hc. replace (base + c * kc * nt + kc * nt) with (base + c * kc * nt + nn * n_r * kc) by (unfold nt; ring).
    apply panels_stable; lia.
  - intros c y _ E. congruence.
  - intros k Hk. replace (0 + k * kc) with (k * kc) by lia. cbv beta. rewrite Z.quot_mul by lia.
    specialize (Hblk k Hk). set (bs := base + k * kc * nt) in *.
    apply twp_bind.
    replace (bs + kc * nt) with (bs + nn * (kc * n_r)) by (unfold nt; ring).
    eapply twp_mono.
    + eapply (blk_loop _ pb bs nn 0 (nn * n_r) n_r (kc * n_r) 0
         (fun q m' => forall i j, 0 <= i < kc -> 0 <= j < n_r ->
            dat m' pb (bs + q * (kc * n_r) + i * n_r + j) = Some (f (k * kc + i) (n1 + (q * n_r + j)))));
        [lia|lia|unfold nt; lia|nia| |].
      * intros q Hq m3 m4 Hs H i j Hi Hj. rewrite <- Hs by nia. auto.
      * intros q m3 Hq HL3 HF3. replace (0 + q * n_r) with (q * n_r) by lia.
        eapply twp_call with (Rd' := fun b _ => b = bb).
        -- eapply (copy2_spec S (fun b _ => b = bb) pb bb 0 0 (0 + q * (kc * n_r)) kc n_r bs
                  (fun i j => guard && (N <=? n1 + q * n_r + j))
                  (fun i j => n1 + k * kc * N + q * n_r + i * N + j)
                  (fun i j => f (k * kc + i) (n1 + (q * n_r + j))) bp m3); auto; try nia.
           ++ rewrite HL3. exact HL.
           ++ intros i j Hi Hj.
              eapply (src_ok_frame S m m3 _ _ _ _ _ (rng pb bs (bs + nn * (kc * n_r)))); auto.
              ** replace (0 + (n1 + k * kc * N + q * n_r + i * N + j))
                   with (n1 + (k * kc + i) * N + (q * n_r + j)) by ring.
                 replace (n1 + q * n_r + j) with (n1 + (q * n_r + j)) by ring.
                 apply Hsrc; [|unfold nt; nia].
                 assert (k * kc + kc <= kq * kc) by nia. nia.
              ** intros b y -> (? & _). congruence.
        -- intros b y (-> & Hy). split; auto. lia.
        -- auto.
        -- cbn. intros ind m4 (-> & H4) _ _. split; [ring|].
           intros i j Hi Hj. rewrite <- (H4 i j Hi Hj). f_equal; ring.
    + cbn. intros ind m3 (_ & H3). apply twp_ret. intros q i kk Hq Hi Hkk.
      rewrite <- (H3 q Hq kk i Hkk Hi). f_equal; ring.
  - intros m' HL' HF' HP. auto.
Qed.

Lemma packB_tail_spec guard (bb pb : buf) K N x n_r nn n1 base nt (f : Z -> Z -> T) bp m :
  0 < n_r -> 0 <= nn -> nt = nn * n_r -> 0 < k_c x -> 0 <= K -> 0 <= base ->
  k_c1 x = Z.rem K (k_c x) -> bb <> pb ->
  live m pb = Some bp -> base + k_c1 x * nt <= blen bp ->
  (forall kk col, 0 <= kk < K -> 0 <= col < nt ->
     src_ok S m (fun b _ => b = bb) (guard && (N <=? n1 + col)) bb (n1 + kk * N + col) (f kk (n1 + col))) ->
  pok (packB_tail S guard (bb, 0) (pb, 0) K N x n_r n1 base nt) m
      (fun _ m' => live m' = live m /\
         same_out (rng pb base (base + k_c1 x * nt)) m m' /\
           panels m' pb base n_r nn (k_c1 x)
                  (fun col kk => f (Z.quot K (k_c x) * k_c x + kk) (n1 + col))).
Proof.
  intros Hnr Hnn -> Hkc HK Hb0 Ek1 Hne HL Hlen Hsrc. unfold packB_tail.
  pose proof (Z.quot_rem K (k_c x) ltac:(lia)) as QK.
  pose proof (Z.rem_bound_pos K (k_c x) HK Hkc) as BK.
  assert (Hq0 : 0 <= Z.quot K (k_c x)) by (apply Z.quot_pos; lia).
  rewrite <- Ek1 in *. set (k1 := k_c1 x) in *.
  set (kq := Z.quot K (k_c x)) in *. set (kc := k_c x) in *.
  assert (Hblk : forall c, 0 <= c < nn -> 0 <= c * n_r * k1 /\ c * n_r * k1 + n_r * k1 <= k1 * (nn * n_r)).
  { intros c Hc. assert (0 <= c * n_r * k1) by nn.
    assert ((c + 1) * (n_r * k1) <= nn * (n_r * k1)) by (apply Z.mul_le_mono_nonneg_r; nia). lia. }
  eapply (par_blk _ pb nn 0 (nn * n_r) n_r
     (fun c => base + c * n_r * k1) (fun c => base + c * n_r * k1 + n_r * k1)
     (fun c m' => forall i j, 0 <= i < k1 -> 0 <= j < n_r ->
            dat m' pb (base + c * n_r * k1 + i * n_r + j) = Some (f (kq * kc + i) (n1 + (c * n_r + j))))
     (fun _ b _ => b = bb) base (base + k1 * (nn * n_r))); try lia.
  - intros c d y Hc Hd Hcd H1 H2. assert (0 <= n_r * k1) by nn. destruct (Z_lt_le_dec c d); nia.
  - intros c Hc _. specialize (Hblk c Hc). lia.
  - intros c Hc m1 m2 Hs H i j Hi Hj. rewrite <- Hs by nia. auto.
  - intros c y _ E. congruence.
  - intros c Hc. replace (0 + c * n_r) with (c * n_r) by lia. specialize (Hblk c Hc).
    apply twp_bind. eapply twp_call with (Rd' := fun b _ => b = bb).
    + eapply (copy2_spec S (fun b _ => b = bb) pb bb 0 0 0 k1 n_r (base + c * n_r * k1)
                  (fun i j => guard && (N <=? n1 + c * n_r + j))
                  (fun i j => n1 + (K - k1) * N + c * n_r + i * N + j)
                  (fun i j => f (kq * kc + i) (n1 + (c * n_r + j))) bp m); auto; try lia.
      intros i j Hi Hj.
      replace (0 + (n1 + (K - k1) * N + c * n_r + i * N + j))
         with (n1 + (kq * kc + i) * N + (c * n_r + j)) by (replace (K - k1) with (kq * kc) by lia; ring).
      replace (n1 + c * n_r + j) with (n1 + (c * n_r + j)) by ring.
      apply Hsrc; nia.
    + intros b y (-> & Hy). split; auto. lia.
    + auto.
    + cbn. intros ind m4 (-> & H4) _ _. apply twp_ret. intros i j Hi Hj. rewrite <- (H4 i j Hi Hj). f_equal; ring.
  - intros m' HL' HF' HP. split; [auto|split; [auto|]]. intros q i kk Hq Hi Hkk.
    rewrite <- (HP q Hq kk i Hkk Hi). f_equal; ring.
Qed.

Section Col.

Variables (M N K p m_r n_r : Z) (x : blk_dims).
Hypothesis F : kmn_facts M N K p m_r n_r x.
Hypothesis HK : 0 <= K.

Lemma kt_cases k : 0 <= k < Kb x ->
  (k < Z.quot K (k_c x) /\ blk_kt x k = k_c x) \/
  (k = Z.quot K (k_c x) /\ blk_kt x k = k_c1 x /\ 0 < k_c1 x).
Proof.
  intros Hk. pose proof (kf_kc _ _ _ _ _ _ _ F) as Hkc.
  rewrite (kf_Kq _ _ _ _ _ _ _ F) in Hk. pose proof (kf_kpad _ _ _ _ _ _ _ F) as E.
  pose proof (Z.rem_bound_pos K (k_c x) HK Hkc) as BK.
  unfold blk_kt, is_last. rewrite (kf_Kq _ _ _ _ _ _ _ F). rewrite (kf_kc1 _ _ _ _ _ _ _ F).
  unfold pad01, truthy in *. destruct (Z.eqb_spec (Z.rem K (k_c x)) 0) as [E0|E0]; cbn [negb] in E; rewrite E in *.
  - left. cbn [Z.eqb negb]. rewrite andb_false_r. lia.
  - cbn [Z.eqb negb]. rewrite andb_true_r. destruct (Z.eqb_spec k (Z.quot K (k_c x) + 1 - 1)); lia.
Qed.

Lemma packB_col_spec {R} guard (bb pb : buf) nn n1 base nt (f : Z -> Z -> T) bp (r1 r2 : R) m :
  0 < n_r -> 0 <= nn -> nt = nn * n_r -> 0 <= base -> bb <> pb ->
  live m pb = Some bp -> base + K * nt <= blen bp ->
  (forall kk col, 0 <= kk < K -> 0 <= col < nt ->
     src_ok S m (fun b _ => b = bb) (guard && (N <=? n1 + col)) bb (n1 + kk * N + col) (f kk (n1 + col))) ->
  pok (pbind (packB_main S guard (bb, 0) (pb, 0) K N x n_r n1 base nt) (fun _ =>
        if truthy (k_c1 x)
        then pbind (packB_tail S guard (bb, 0) (pb, 0) K N x n_r n1 (base + (K - Z.rem K (k_c x)) * nt) nt)
                   (fun _ => PRet r1)
        else PRet r2)) m
      (fun r m' => r = (if truthy (k_c1 x) then r1 else r2) /\ live m' = live m /\
         same_out (rng pb base (base + K * nt)) m m' /\
         forall k, 0 <= k < Kb x ->
           panels m' pb (base + k * k_c x * nt) n_r nn (blk_kt x k)
                  (fun col kk => f (k * k_c x + kk) (n1 + col))).
Proof.
  intros Hnr Hnn -> Hb0 Hne HL Hlen Hsrc.
  pose proof (kf_kc _ _ _ _ _ _ _ F) as Hkc. pose proof (kf_kc1 _ _ _ _ _ _ _ F) as Ek1.
  pose proof (Z.quot_rem K (k_c x) ltac:(lia)) as QK.
  pose proof (Z.rem_bound_pos K (k_c x) HK Hkc) as BK.
  assert (Hq0 : 0 <= Z.quot K (k_c x)) by (apply Z.quot_pos; lia).
  set (nt := nn * n_r) in *. assert (Hnt : 0 <= nt) by (unfold nt; nn).
  assert (Hsz : 0 <= Z.quot K (k_c x) * k_c x * nt /\ Z.quot K (k_c x) * k_c x * nt + k_c1 x * nt = K * nt /\ 0 <= k_c1 x * nt).
  { split; [nn|]. split; [rewrite Ek1; rewrite QK at 3; ring|nn]. }
  apply pok_bind. eapply pok_mono.
  { eapply (packB_main_spec guard bb pb K N x n_r nn n1 base nt f bp m); auto. lia. }
  cbn. intros _ m1 (HL1 & HF1 & HP1).
  unfold truthy. destruct (Z.eqb_spec (k_c1 x) 0) as [E0|E0]; cbn [negb].
  - apply pok_ret. split; [auto|split; [auto|split]].
    + eapply same_out_sub; [exact HF1|]. intros b y (-> & Hy). split; auto. lia.
    + intros k Hk. destruct (kt_cases k Hk) as [(Hk1 & ->)|(_ & _ & H)]; [|lia]. apply HP1; lia.
  - apply pok_bind. eapply pok_mono.
    { eapply (packB_tail_spec guard bb pb K N x n_r nn n1 _ nt f bp m1); auto.
      - replace (K - Z.rem K (k_c x)) with (Z.quot K (k_c x) * k_c x) by lia. lia.
      - now rewrite HL1.
      - replace (K - Z.rem K (k_c x)) with (Z.quot K (k_c x) * k_c x) by lia. lia.
      - intros kk col Hkk Hcol. eapply (src_ok_frame S m m1); [apply Hsrc; auto|auto|exact HF1|].
        intros b y -> (? & _). congruence. }
    cbn. intros _ m2 (HL2 & HF2 & HP2). apply pok_ret.
    replace (K - Z.rem K (k_c x)) with (Z.quot K (k_c x) * k_c x) in * by lia.
    split; [auto|split; [congruence|split]].
    + intros b y Hy. rewrite HF2, HF1; auto; intros (-> & H); apply Hy; split; auto; lia.
    + intros k Hk. destruct (kt_cases k Hk) as [(Hk1 & ->)|(-> & -> & H)].
      * assert (Hkb : (k + 1) * (k_c x * nt) <= Z.quot K (k_c x) * (k_c x * nt))
          by (apply Z.mul_le_mono_nonneg_r; nia).
        eapply (panels_stable S pb _ n_r nn (k_c x)); [lia|lia|lia| |apply HP1; lia].
        intros y Hy. symmetry. apply HF2. intros (_ & H). unfold nt in *. nia.
      * exact HP2.
Qed.

Lemma nt_cases n : 0 <= N -> 0 < n_r -> 0 <= n < Nb x ->
  (n < Z.quot N (n_c x) /\ blk_nt x n = n_c x) \/
  (n = Z.quot N (n_c x) /\ blk_nt x n = n_c1 x /\ 0 < n_c1 x /\ N - Z.rem N (n_c x) = n * n_c x).
Proof.
  intros HN Hnr Hn. pose proof (kf_nc _ _ _ _ _ _ _ F) as Hnc.
  rewrite (kf_Nq _ _ _ _ _ _ _ F) in Hn. pose proof (kf_npad _ _ _ _ _ _ _ F) as E.
  pose proof (Z.rem_bound_pos N (n_c x) HN Hnc) as BN.
  pose proof (Z.quot_rem N (n_c x) ltac:(lia)) as QN.
  unfold blk_nt, is_last. rewrite (kf_Nq _ _ _ _ _ _ _ F). rewrite (kf_nc1 _ _ _ _ _ _ _ F).
  unfold pad01, truthy in *. destruct (Z.eqb_spec (Z.rem N (n_c x)) 0) as [E0|E0]; cbn [negb] in E; rewrite E in *.
  - left. cbn [Z.eqb negb]. rewrite andb_false_r. lia.
  - cbn [Z.eqb negb]. rewrite andb_true_r.
    assert (0 < cdiv (Z.rem N (n_c x)) n_r) by (apply cdiv_pos; lia).
    destruct (Z.eqb_spec n (Z.quot N (n_c x) + 1 - 1)); [right; split; [lia|split; [auto|split; [nia|nia]]]|lia].
Qed.

Lemma pack_B_k_first_spec (bb pb : buf) (f : Z -> Z -> T) bi bp m :
  0 < n_r -> 0 <= N -> bb <> pb ->
  live m bb = Some bi -> K * N <= blen bi -> holds m bb K N f ->
  live m pb = Some bp -> K * N_padded x <= blen bp ->
  pok (pack_B_k_first S (bb, 0) (pb, 0) K N x n_r) m
      (fun _ m' => live m' = live m /\ same_out (rng pb 0 (K * N_padded x)) m m' /\
         packedB_KMN S x n_r K pb (padcol S N f) m').
Proof.
  intros Hnr HN Hne HLb Hbb Hh HLp Hbp.
  pose proof (kf_kc _ _ _ _ _ _ _ F) as Hkc. pose proof (kf_nc _ _ _ _ _ _ _ F) as Hnc.
  pose proof (Z.quot_rem N (n_c x) ltac:(lia)) as QN.
  pose proof (Z.rem_bound_pos N (n_c x) HN Hnc) as BN.
  assert (Hq0 : 0 <= Z.quot N (n_c x)) by (apply Z.quot_pos; lia).
  pose proof (kf_N _ _ _ _ _ _ _ F) as PN.
  unfold pack_B_k_first.
  destruct (Z.eqb_spec (n_c x) 0) as [?|_]; [lia|]. destruct (Z.eqb_spec (k_c x) 0) as [?|_]; [lia|]. cbn [orb].
  set (nq := Z.quot N (n_c x)) in *.
  replace (N - Z.rem N (n_c x)) with (nq * n_c x) by lia.
  assert (Hnb : nq <= Nb x).
  { rewrite (kf_Nq _ _ _ _ _ _ _ F), (kf_npad _ _ _ _ _ _ _ F). fold nq. unfold pad01. destruct (truthy _); lia. }
  assert (Dn : forall n, 0 <= n < nq -> (n_r | n_c x)).
  { intros n Hn. destruct (nt_cases n HN Hnr ltac:(lia)) as [(_ & <-)|(Hc & _)]; [|fold nq in Hc; lia].
    apply (kf_nr _ _ _ _ _ _ _ F). lia. }
  assert (Hend : nq * n_c x <= N_padded x) by (pose proof (kf_Np _ _ _ _ _ _ _ F); nia).
  assert (Hsrc : forall m' n nt, live m' = live m -> same_out (rng pb 0 (K * N_padded x)) m m' ->
            0 <= n -> (n * n_c x + nt <= N \/ True) ->
            forall guard, (guard = false -> n * n_c x + nt <= N) ->
            forall kk col, 0 <= kk < K -> 0 <= col < nt ->
     src_ok S m' (fun b _ => b = bb) (guard && (N <=? n * n_c x + col)) bb (n * n_c x + kk * N + col)
            (padcol S N f kk (n * n_c x + col))).
  { intros m' n0 nt HL' HF' Hn0 _ guard Hg kk col Hkk Hcol. unfold src_ok, padcol.
    destruct (Z.leb_spec N (n0 * n_c x + col)) as [Hc|Hc].
    - destruct guard; cbn [andb]; [|specialize (Hg eq_refl); lia].
      destruct (Z.ltb_spec (n0 * n_c x + col) N); [lia|easy].
    - rewrite andb_false_r. destruct (Z.ltb_spec (n0 * n_c x + col) N); [|lia].
      assert (Ea : n0 * n_c x + kk * N + col = kk * N + (n0 * n_c x + col)) by ring.
      assert (0 <= n0 * n_c x + col) by nia.
      split; [auto|]. split.
      + rewrite HF' by (intros (? & _); congruence). rewrite Ea. apply Hh; lia.
      + exists bi. rewrite HL'. split; auto. rewrite Ea. nia. }
  set (P := fun n (m' : mem T) => forall k, 0 <= k < Kb x ->
    panels m' pb (n * K * n_c x + k * k_c x * blk_nt x n)
           n_r (blk_nt x n / n_r) (blk_kt x k)
           (fun col kk => padcol S N f (k * k_c x + kk) (n * n_c x + col))).
  assert (HPst : forall n, 0 <= n < Nb x -> stable pb (n * K * n_c x) (n * K * n_c x + K * blk_nt x n) (P n)).
  { intros n0 Hn0 m1 m2 Hs HP k Hk.
    pose proof (pt_w _ _ _ _ (kf_K _ _ _ _ _ _ _ F) k Hk) as Hw.
    pose proof (part_end _ _ _ _ (kf_K _ _ _ _ _ _ _ F) k Hk) as He.
    pose proof (pt_w _ _ _ _ PN n0 Hn0) as Hwn.
    pose proof (div_exact_of n_r _ Hnr (kf_nr _ _ _ _ _ _ _ F n0 Hn0)) as E.
    eapply panels_stable; [lia|apply Z.div_pos; lia|lia| |apply HP; auto].
    rewrite <- E. intros y Hy. apply Hs.
    assert (0 <= k * k_c x * blk_nt x n0) by nn.
    assert ((k * k_c x + blk_kt x k) * blk_nt x n0 <= K * blk_nt x n0) by (apply Z.mul_le_mono_nonneg_r; lia).
    lia. }
  apply pok_bind. eapply pok_mono.
  { change 0 with ((fun n => n * K * n_c x) 0) at 4.
    eapply (pblk_loop _ pb (fun n => n * K * n_c x) nq 0 (nq * n_c x) (n_c x) P); try lia.
    - intros c Hc. replace ((c + 1) * K * n_c x) with (c * K * n_c x + K * n_c x) by ring.
      destruct (nt_cases c HN Hnr ltac:(lia)) as [(_ & E)|(Hcc & _)]; [|fold nq in Hcc; lia].
      rewrite <- E at 3. apply HPst; lia.
    - intros c m' Hc HL' HF'. cbv beta. replace (0 + c * n_c x) with (c * n_c x) by lia.
      destruct (nt_cases c HN Hnr ltac:(lia)) as [(_ & E)|(Hcc & _)]; [|fold nq in Hcc; lia].
      pose proof (div_exact_of n_r _ Hnr (Dn c Hc)) as Ed.
      assert (Hc1 : (c + 1) * (n_c x) <= nq * n_c x) by (apply Z.mul_le_mono_nonneg_r; lia).
      assert (0 <= c * K * n_c x) by nn.
      assert (c * K * n_c x + K * n_c x <= K * N_padded x).
      { assert (K * ((c + 1) * n_c x) <= K * N_padded x) by (apply Z.mul_le_mono_nonneg_l; lia). lia. }
      cbv zeta.
      assert (HF'' : same_out (rng pb 0 (K * N_padded x)) m m').
      { eapply same_out_sub; [exact HF'|]. intros b y (-> & Hy). split; auto.
        assert (nq * K * n_c x <= K * N_padded x).
        { assert (K * (nq * n_c x) <= K * N_padded x) by (apply Z.mul_le_mono_nonneg_l; lia). lia. } lia. }
      eapply pok_mono.
      { eapply (packB_col_spec false bb pb (n_c x / n_r) (c * n_c x) (c * K * n_c x) (n_c x) (padcol S N f) bp
             (c * K * n_c x + (K - Z.rem K (k_c x)) * n_c x + k_c1 x * n_c x) (c * K * n_c x + (K - Z.rem K (k_c x)) * n_c x) m'); auto.
        - apply Z.div_pos; lia.
        - now rewrite HL'.
        - lia.
        - apply Hsrc; auto; [lia|]. intros _. lia. }
      cbn. intros r m2 (-> & HL2 & HF2 & HP2). split; [|split; [auto|split]].
      + rewrite (kf_kc1 _ _ _ _ _ _ _ F). unfold truthy.
        destruct (Z.eqb_spec (Z.rem K (k_c x)) 0) as [E0|E0]; cbn [negb]; [rewrite E0|]; ring.
      + eapply same_out_sub; [exact HF2|]. intros b y (-> & Hy). split; auto. lia.
      + intros k Hk. rewrite E. apply HP2; auto. }
  cbn. intros r m1 (-> & HL1 & HF1 & HP1).
  assert (HF1' : same_out (rng pb 0 (K * N_padded x)) m m1).
  { eapply same_out_sub; [exact HF1|]. intros b y (-> & Hy). split; auto.
    assert (K * (nq * n_c x) <= K * N_padded x) by (apply Z.mul_le_mono_nonneg_l; lia). lia. }
  unfold truthy at 1. destruct (Z.eqb_spec (n_c1 x) 0) as [E0|E0]; cbn [negb].
  - apply pok_ret. split; [auto|split; [auto|]]. intros n0 k Hn0 Hk.
    destruct (nt_cases n0 HN Hnr Hn0) as [(Hn & E)|(_ & _ & H & _)]; [|lia]. fold nq in Hn. apply HP1; auto. lia.
  - destruct (Z.eq_dec (Nb x) nq) as [Ez|Ez].
    { exfalso. pose proof (kf_Nq _ _ _ _ _ _ _ F) as E1. pose proof (kf_npad _ _ _ _ _ _ _ F) as E2.
      pose proof (kf_nc1 _ _ _ _ _ _ _ F) as E3. fold nq in E1. unfold pad01, truthy in E2.
      destruct (Z.eqb_spec (Z.rem N (n_c x)) 0) as [E4|E4]; cbn [negb] in E2; [|lia].
      rewrite E4, cdiv_0 in E3 by lia. lia. }
    assert (Hlast : 0 <= nq < Nb x) by lia.
    destruct (nt_cases nq HN Hnr Hlast) as [(Hn & _)|(_ & E & Hpos & _)]; [fold nq in Hn; lia|].
    pose proof (part_end _ _ _ _ PN nq Hlast) as He. rewrite E in He.
    pose proof (kf_nr _ _ _ _ _ _ _ F nq Hlast) as Dl. rewrite E in Dl.
    pose proof (div_exact_of n_r _ Hnr Dl) as Ed.
    assert (0 <= nq * K * n_c x) by nn.
    assert (K * (nq * n_c x + n_c1 x) <= K * N_padded x) by (apply Z.mul_le_mono_nonneg_l; lia).
    match goal with |- pok (pbind _ (fun _ => if _ then ?t else _)) _ _ => rewrite <- (pbind_tt t) end.
    eapply pok_mono.
    { eapply (packB_col_spec true bb pb (n_c1 x / n_r) (nq * n_c x) (nq * K * n_c x) (n_c1 x) (padcol S N f) bp tt tt m1); auto.
      - apply Z.div_pos; lia.
      - now rewrite HL1.
      - lia.
      - apply Hsrc; auto. intros; discriminate. }
    cbn. intros r m2 (_ & HL2 & HF2 & HP2). split; [congruence|split].
    + intros b y Hy. rewrite HF2, HF1'; auto; intros (-> & H'); apply Hy; split; auto; lia.
    + intros n0 k Hn0 Hk. destruct (nt_cases n0 HN Hnr Hn0) as [(Hn & E')|(Hn & E' & _)].
      * fold nq in Hn. assert ((n0 + 1) * (K * n_c x) <= nq * (K * n_c x)) by (apply Z.mul_le_mono_nonneg_r; nia).
        eapply (HPst n0 Hn0); [|apply HP1; lia|exact Hk].
        rewrite E'. intros y Hy. symmetry. apply HF2. intros (_ & H'). lia.
      * fold nq in Hn. subst n0. rewrite E. apply HP2; auto.
Qed.

End Col.

End B.
