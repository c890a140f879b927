(** * The choice of the schedule and of the grid for all sizes, up to single precision. *)

From Coq Require Import ZArith Reals Bool Lia Lra.
From Flocq Require Import Core BinarySingleNaN Relative.
From Verif Require Import Lang Spec SpecTop SpecSizing SpecOnline SpecTile SpecTol ModelSizing ModelDouble ModelIEEE
  Double_facts IEEE_facts IEEE32_facts Sched_facts Pn_facts Machine_facts.
Open Scope Z_scope.

Lemma eps16 : (16 * eps <= / 100000000)%R.
Proof.
  unfold eps. change 16%R with (bpow radix2 4). rewrite <- bpow_plus. change (bpow radix2 (4 + -53)) with (/ IZR (2 ^ 49))%R.
  apply Rinv_le; [lra|]. apply IZR_le. lia.
Qed.

(** rounding an int to float *)
Lemma int24 K : 0 <= K -> (IZR K * (1 - / 16777216) <= rnd24 (IZR K) <= IZR K * (1 + / 16777216))%R.
Proof.
  intros HK. destruct (Z.eq_dec K 0) as [-> |K0].
  - rewrite (rnd24_int 0) by lia. lra.
  - assert (1 <= IZR K)%R by (apply IZR_le; lia).
    pose proof (rnd24_error (IZR K)) as E. rewrite Rabs_pos_eq in E by lra.
    assert (B : (bpow radix2 (-120) <= IZR K)%R).
    { apply Rle_trans with (bpow radix2 0); [apply bpow_le; lia|]. cbn. lra. }
    specialize (E B). apply Rabs_le_inv in E. change (bpow radix2 (-24)) with (/ 16777216)%R in E. lra.
Qed.

(** the float of the cut-off *)
Lemma K_cut24 D p mc : 0 < D < 2 ^ 31 -> 0 < p * mc <= 2 ^ 24 ->
  exists f, srep (ieee_K_cut D p mc) f /\
    (IZR (2 * D * (p * mc)) * ((1 - / 100000000) * (1 - / 16777216)) <= f * IZR (p * mc + D) <=
     IZR (2 * D * (p * mc)) * ((1 + / 100000000) * (1 + / 16777216)))%R.
Proof.
  intros HD HP. destruct (K_cut_rep D p mc HD HP) as (V & RV & NV). exists (rnd24 V). split; [exact RV|].
  destruct (near_bounds 16 _ _ ltac:(lia) NV) as (B1 & B2). destruct NV as (T0 & _).
  set (T := (IZR (2 * D * (p * mc)) / IZR (p * mc + D))%R) in *.
  set (s := p * mc + D) in *. set (n := 2 * D * (p * mc)) in *.
  assert (PD : (1 <= IZR s <= 2 * 16777216 * 16777216)%R).
  { split; [apply IZR_le; lia|]. rewrite <- !mult_IZR. apply IZR_le. lia. }
  assert (ET : (T * IZR s = IZR n)%R) by (unfold T; field; lra).
  assert (N8 : (2 <= IZR n)%R) by (apply IZR_le; unfold n; nia).
  pose proof eps_pos. pose proof eps16 as E9.
  assert (V24 : (Rabs (rnd24 V - V) <= bpow radix2 (-24) * Rabs V)%R).
  { apply rnd24_error. rewrite Rabs_pos_eq by lra.
    assert (T1 : (/ IZR s <= T)%R).
    { apply Rmult_le_reg_r with (IZR s); [lra|]. rewrite Rinv_l, ET by lra. lra. }
    assert (S2 : (bpow radix2 (-60) <= / IZR s)%R).
    { replace (bpow radix2 (-60)) with (/ bpow radix2 60)%R by (rewrite <- bpow_opp; reflexivity). apply Rinv_le; [lra|].
      change (bpow radix2 60) with (IZR (2 ^ 60)). apply Rle_trans with (1 := proj2 PD). rewrite <- !mult_IZR. apply IZR_le. lia. }
    assert (S3 : (2 * bpow radix2 (-120) <= bpow radix2 (-60))%R).
    { change 2%R with (bpow radix2 1). rewrite <- bpow_plus. apply bpow_le. lia. }
    lra. }
  rewrite (Rabs_pos_eq V) in V24 by lra. apply Rabs_le_inv in V24.
  change (bpow radix2 (-24)) with (/ 16777216)%R in V24.
  rewrite <- ET. assert (0 <= eps * T)%R by nra. assert (16 * (eps * T) <= / 100000000 * T)%R by nra.
  assert (L1 : (T * (1 - / 100000000) * (1 - / 16777216) <= rnd24 V)%R).
  { apply Rle_trans with (V * (1 - / 16777216))%R; [|lra]. apply Rmult_le_compat_r; lra. }
  assert (L2 : (rnd24 V <= T * (1 + / 100000000) * (1 + / 16777216))%R).
  { apply Rle_trans with (V * (1 + / 16777216))%R; [lra|]. apply Rmult_le_compat_r; lra. }
  split.
  - replace (T * IZR s * ((1 - / 100000000) * (1 - / 16777216)))%R with (T * (1 - / 100000000) * (1 - / 16777216) * IZR s)%R by ring.
    apply Rmult_le_compat_r; lra.
  - replace (T * IZR s * ((1 + / 100000000) * (1 + / 16777216)))%R with (T * (1 + / 100000000) * (1 + / 16777216) * IZR s)%R by ring.
    apply Rmult_le_compat_r; lra.
Qed.

Lemma K_cut_about D p mc K : 0 < D < 2 ^ 31 -> 0 < p * mc <= 2 ^ 24 -> 0 <= K < 2 ^ 31 ->
  Bleb (single_of_int K) (ieee_K_cut D p mc) = true -> about_le (K * (D + p * mc)) (2 * D * (p * mc)).
Proof.
  intros HD HP HK. destruct (K_cut24 D p mc HD HP) as (f & Rf & _ & UB).
  rewrite (sleb_rep _ _ _ _ (single_of_int_rep K ltac:(lia)) Rf).
  case Rle_bool_spec; [|discriminate]. intros L _. unfold about_le.
  destruct (int24 K ltac:(lia)) as (LK & _).
  rewrite (Z.add_comm D). set (s := p * mc + D) in *. set (n := 2 * D * (p * mc)) in *.
  assert (S1 : (1 <= IZR s)%R) by (apply IZR_le; lia).
  assert (N1 : (2 <= IZR n)%R) by (apply IZR_le; unfold n; nia).
  assert (Q : (IZR K * IZR s * (1 - / 16777216) <= IZR n * ((1 + / 100000000) * (1 + / 16777216)))%R).
  { apply Rle_trans with (f * IZR s)%R; [|exact UB].
    replace (IZR K * IZR s * (1 - / 16777216))%R with (IZR K * (1 - / 16777216) * IZR s)%R by ring.
    apply Rmult_le_compat_r; lra. }
  apply le_IZR. rewrite !mult_IZR, plus_IZR. change (IZR (2 ^ 22)) with 4194304%R. fold n. lra.
Qed.

Lemma K_cut_clearly D p mc K : 0 < D < 2 ^ 31 -> 0 < p * mc <= 2 ^ 24 -> 0 <= K < 2 ^ 31 ->
  clearly_le (K * (D + p * mc)) (2 * D * (p * mc)) -> Bleb (single_of_int K) (ieee_K_cut D p mc) = true.
Proof.
  intros HD HP HK. destruct (K_cut24 D p mc HD HP) as (f & Rf & LB & _).
  rewrite (sleb_rep _ _ _ _ (single_of_int_rep K ltac:(lia)) Rf). unfold clearly_le. intros C.
  apply Rle_bool_true. destruct (int24 K ltac:(lia)) as (_ & UK).
  rewrite (Z.add_comm D) in C. set (s := p * mc + D) in *. set (n := 2 * D * (p * mc)) in *.
  assert (S1 : (1 <= IZR s)%R) by (apply IZR_le; lia).
  assert (N1 : (2 <= IZR n)%R) by (apply IZR_le; unfold n; nia).
  apply IZR_le in C. rewrite !mult_IZR, minus_IZR in C. change (IZR (2 ^ 22)) with 4194304%R in C. fold n in C.
  apply Rle_trans with (1 := UK). apply Rmult_le_reg_r with (IZR s); [lra|].
  apply Rle_trans with (2 := LB).
  replace (IZR K * (1 + / 16777216) * IZR s)%R with (IZR K * IZR s * (1 + / 16777216))%R by ring. lra.
Qed.

Lemma D_cut_about D E p mc a b : 0 <= D < 2 ^ 31 -> 0 <= E < 2 ^ 31 -> 0 < a <= 2 ^ 31 -> 0 < b <= 2 ^ 31 ->
  0 < p <= 2 ^ 31 -> 0 < mc <= 2 ^ 31 ->
  (E <= D -> Bleb (single_of_int E) (ieee_D_cut D p mc (a, b)) = true) /\
  (Bleb (single_of_int E) (ieee_D_cut D p mc (a, b)) = true -> about_le E D).
Proof.
  intros HD HE Ha Hb Hp Hmc.
  rewrite (sleb_rep _ _ _ _ (single_of_int_rep E ltac:(lia)) (D_cut_rep D p mc a b ltac:(lia) Ha Hb Hp Hmc)).
  split.
  - intros L. apply Rle_bool_true. apply rnd24_le. now apply IZR_le.
  - case Rle_bool_spec; [|discriminate]. intros L _. destruct (int24 E ltac:(lia)) as (LE & _). destruct (int24 D ltac:(lia)) as (_ & UD).
    unfold about_le. apply le_IZR. rewrite !mult_IZR, plus_IZR. change (IZR (2 ^ 22)) with 4194304%R.
    assert (0 <= IZR D)%R by (apply IZR_le; lia). lra.
Qed.

(** ** The schedule *)

Section Schedule.

Variables (c : cntx) (M N K p n2 n3 mcu kcu ncu : Z) (x : blk_dims) (c' : cntx).
Hypothesis Hm : machine c.
Hypothesis H2 : L2_side c n2.
Hypothesis H3 : L3_side c n3.
Hypothesis G2 : mr c <= n2.
Hypothesis G3 : mr c <= n3.
Hypothesis Hp : 0 < p.
Hypothesis Hu : mcu = 0 \/ kcu = 0 \/ ncu = 0.
Let k := p * tile_for M p (mr c) (round_down n2 (mr c)).
Hypothesis Hk : k <= 2 ^ 24.
Hypothesis HI : init_block_dims ieee M N K p c NA mcu kcu ncu = CRet (x, c').

Lemma sch_is : 0 < M -> exists a b mc, 0 < a <= 2 ^ 31 /\ 0 < b <= 2 ^ 31 /\ 0 < p <= 2 ^ 31 /\ 0 < mc <= 2 ^ 31 /\ k = p * mc /\
  sch x = if ieee_first M N K p mc (a, b) then MKN else if ieee_first N M K p mc (a, b) then NKM else KMN.
Proof.
  intros HM. assert (Hmr : 0 < mr c) by apply Hm. assert (Hnr : 0 < nr c) by apply Hm.
  destruct (mcL2_is c n2 Hm H2) as (E2 & B2). destruct (mcL3_is c n3 Hm H3) as (E3 & B3).
  destruct (init_inv ieee c NA M N K p mcu kcu ncu ltac:(lia) Hp Hmr Hnr Hu x c' HI) as (Es & _).
  rewrite (alpha_is c n2 n3 Hm H2 H3) in *. cbn [snd] in *.
  assert (N0 : 0 <= n2) by apply H2. destruct (round_down_facts n2 (mr c) N0 Hmr) as (R1 & R2 & R3).
  assert (N3 : 0 <= n3) by apply H3. destruct (round_down_facts n3 (mr c) N3 Hmr) as (R4 & R5 & R6).
  set (m := round_down n2 (mr c)) in *. set (a := round_down n3 (mr c)) in *.
  assert (Gm : mr c <= m) by (apply round_down_ge; lia).
  assert (Ga : mr c <= a) by (apply round_down_ge; lia).
  destruct (tile_for_le M p (mr c) m ltac:(lia) Hp Hmr Gm R3) as (T1 & T2 & T3).
  exists a, m, (tile_for M p (mr c) m). assert (p <= k) by (unfold k; nia).
  repeat (split; [lia|]). rewrite Es. reflexivity.
Qed.

(** sizes below 2^24: the rule, or another schedule in place of K-first next to the cut-off *)
Theorem schedule_near : 0 < M < 2 ^ 24 -> 0 < N < 2 ^ 24 -> 0 <= K <= 2 ^ 24 ->
  sch x = choice M N K k \/
  (choice M N K k = KMN /\ sch x = (if N <=? M then MKN else NKM) /\ about_le (K * (Z.max M N + k)) (2 * Z.max M N * k)).
Proof.
  intros HM HN HK. destruct (sch_is ltac:(lia)) as (a & b & mc & Ha & Hb & Hp' & Hmc & Ek & ->).
  assert (K0 : 0 < k) by nia. clearbody k. subst k.
  unfold ieee_first. rewrite !D_cut_cmp by lia. unfold choice.
  pose proof (fun D (HD : 0 < D < 2 ^ 24) => K_cut_le D p mc K ltac:(lia) ltac:(lia) HK) as A.
  pose proof (fun D (HD : 0 < D < 2 ^ 24) => K_cut_about D p mc K ltac:(lia) ltac:(lia) ltac:(lia)) as B.
  destruct (Z.leb_spec N M) as [L|L]; cbn [andb].
  - replace (Z.max M N) with M by lia. specialize (A M HM). specialize (B M HM).
    destruct (Z.leb_spec (K * (M + p * mc)) (2 * M * (p * mc))) as [L2|L2].
    + rewrite A by lia. now left.
    + assert (EN : (M <=? N) = true -> M = N) by (destruct (Z.leb_spec M N); [lia|discriminate]).
      destruct (Bleb (single_of_int K) (ieee_K_cut M p mc)) eqn:EB.
      * right. split; [|split; [reflexivity|auto]].
        destruct (M <=? N) eqn:ME; [|reflexivity]. rewrite <- (EN eq_refl). cbn [andb]. destruct (Z.leb_spec (K * (M + p * mc)) (2 * M * (p * mc))); [lia|reflexivity].
      * left. destruct (M <=? N) eqn:ME; [|reflexivity]. rewrite <- (EN eq_refl), EB. cbn [andb]. destruct (Z.leb_spec (K * (M + p * mc)) (2 * M * (p * mc))); [lia|reflexivity].
  - replace (Z.max M N) with N by lia. specialize (A N HN). specialize (B N HN).
    destruct (Z.leb_spec M N); [|lia]. cbn [andb].
    destruct (Z.leb_spec (K * (N + p * mc)) (2 * N * (p * mc))) as [L2|L2].
    + rewrite A by lia. now left.
    + destruct (Bleb (single_of_int K) (ieee_K_cut N p mc)); [right; auto|now left].
Qed.

(** all ints *)
Theorem schedule_int : 0 < M < 2 ^ 31 -> 0 < N < 2 ^ 31 -> 0 <= K < 2 ^ 31 ->
  (N <= M -> clearly_le (K * (M + k)) (2 * M * k) -> sch x = MKN) /\
  (~ about_le N M -> clearly_le (K * (N + k)) (2 * N * k) -> sch x = NKM) /\
  (sch x = MKN -> about_le N M /\ about_le (K * (M + k)) (2 * M * k)) /\
  (sch x = NKM -> about_le M N /\ about_le (K * (N + k)) (2 * N * k)).
Proof.
  intros HM HN HK. destruct (sch_is ltac:(lia)) as (a & b & mc & Ha & Hb & Hp' & Hmc & Ek & ->).
  assert (K0 : 0 < k) by nia. clearbody k. subst k. unfold ieee_first.
  destruct (D_cut_about M N p mc a b ltac:(lia) ltac:(lia) Ha Hb Hp' Hmc) as (A1 & A2).
  destruct (D_cut_about N M p mc a b ltac:(lia) ltac:(lia) Ha Hb Hp' Hmc) as (B1 & B2).
  pose proof (fun D (HD : 0 < D < 2 ^ 31) => K_cut_clearly D p mc K HD ltac:(lia) HK) as C1.
  pose proof (fun D (HD : 0 < D < 2 ^ 31) => K_cut_about D p mc K HD ltac:(lia) HK) as C2.
  set (u := Bleb (single_of_int N) (ieee_D_cut M p mc (a, b))) in *.
  set (v := Bleb (single_of_int M) (ieee_D_cut N p mc (a, b))) in *.
  pose proof (C1 M HM). pose proof (C1 N HN). pose proof (C2 M HM). pose proof (C2 N HN).
  set (y := Bleb (single_of_int K) (ieee_K_cut M p mc)) in *.
  set (z := Bleb (single_of_int K) (ieee_K_cut N p mc)) in *. clear C1 C2. clearbody u v y z.
  repeat split.
  - intros L C. rewrite A1, H by auto. reflexivity.
  - intros NA C. destruct u; [now elim NA; apply A2|]. cbn [andb].
    assert (M <= N) by (unfold about_le in NA; lia). rewrite B1, H0 by auto. reflexivity.
  - destruct u, y; try (destruct v, z); cbn [andb]; try discriminate; auto.
  - destruct u, y; try (destruct v, z); cbn [andb] in *; try discriminate; auto.
  - destruct u, y, v, z; cbn [andb] in *; try discriminate; auto.
  - destruct u, y, v, z; cbn [andb] in *; try discriminate; auto.
Qed.

End Schedule.

(** ** The grid *)

Lemma pn_upper n M : 0 < M < 2 ^ 31 -> 0 < n < 2 ^ 53 ->
  (rnd24 (rnd (sqrt (rnd (IZR n / IZR M)))) <= sqrt (IZR n / IZR M) * (1 + / 14000000))%R.
Proof.
  intros HM Hn. set (Q := (IZR n / IZR M)%R).
  assert (M' : (1 <= IZR M)%R) by (apply IZR_le; lia).
  assert (EQ : (Q * IZR M = IZR n)%R) by (unfold Q; field; lra).
  assert (n' : (1 <= IZR n)%R) by (apply IZR_le; lia).
  assert (Q0 : (0 < Q)%R) by nra.
  pose proof eps_pos as Ep. pose proof eps_small as Es.
  assert (N2 : near 2 (rnd Q) Q) by (apply (near_rnd 0); [lia|apply near_exact; lra|apply frac_normal; lia]).
  destruct (near_bounds 2 _ _ ltac:(lia) N2) as (B & B').
  assert (Eq : (eps * Q <= / 1000000 * Q)%R) by nra.
  assert (SQ : (0 < sqrt Q)%R) by now apply sqrt_lt_R0.
  assert (SS : (sqrt Q * sqrt Q = Q)%R) by (apply sqrt_sqrt; lra).
  set (s := sqrt Q) in *.
  assert (S1 : (sqrt (rnd Q) <= s * (1 + 2 * eps))%R).
  { rewrite <- (sqrt_square (s * (1 + 2 * eps))) by nra. apply sqrt_le_1_alt.
    replace (s * (1 + 2 * eps) * (s * (1 + 2 * eps)))%R with ((s * s) * ((1 + 2 * eps) * (1 + 2 * eps)))%R by ring. rewrite SS.
    nra. }
  set (w := sqrt (rnd Q)) in *.
  assert (W0 : (s / 2 <= w)%R).
  { unfold w. rewrite <- (sqrt_square (s / 2)) by lra. apply sqrt_le_1_alt.
    replace (s / 2 * (s / 2))%R with (s * s / 4)%R by field. rewrite SS. lra. }
  assert (SL : (bpow radix2 (-40) <= s)%R).
  { unfold s. rewrite <- (sqrt_square (bpow radix2 (-40))) by apply bpow_ge_0. apply sqrt_le_1_alt.
    rewrite <- bpow_plus. assert (/ IZR M <= Q)%R.
    { unfold Q, Rdiv. rewrite <- (Rmult_1_l (/ IZR M)) at 1. apply Rmult_le_compat_r; [left; apply Rinv_0_lt_compat; lra|lra]. }
    apply Rle_trans with (/ IZR M)%R; [|auto]. replace (bpow radix2 (-40 + -40)) with (/ IZR (2 ^ 80))%R by reflexivity.
    apply Rinv_le; [lra|]. apply IZR_le. lia. }
  assert (P41 : (bpow radix2 (-41) <= w)%R).
  { apply Rle_trans with (bpow radix2 (-40) / 2)%R; [|lra]. apply Req_le. unfold Rdiv. change (/ 2)%R with (bpow radix2 (-1)).
    rewrite <- bpow_plus. reflexivity. }
  assert (Ew : (Rabs (rnd w - w) <= eps * Rabs w)%R).
  { apply rnd_error. rewrite Rabs_pos_eq by (pose proof (bp_pos (-41)); lra). apply Rle_trans with (2 := P41). apply bpow_le. lia. }
  assert (w0 : (0 < w)%R) by lra.
  rewrite (Rabs_pos_eq w) in Ew by lra. apply Rabs_le_inv in Ew. set (u := rnd w) in *.
  assert (U1 : (u <= s * (1 + 4 * eps))%R) by nra.
  assert (U0 : (w / 2 <= u)%R) by nra.
  assert (E24 : (Rabs (rnd24 u - u) <= bpow radix2 (-24) * Rabs u)%R).
  { apply rnd24_error. rewrite Rabs_pos_eq by lra. apply Rle_trans with (bpow radix2 (-41) / 2)%R; [|lra].
    unfold Rdiv. change (/ 2)%R with (bpow radix2 (-1)). rewrite <- bpow_plus. apply bpow_le. lia. }
  rewrite (Rabs_pos_eq u) in E24 by lra. apply Rabs_le_inv in E24.
  change (bpow radix2 (-24)) with (/ 16777216)%R in E24. set (f := rnd24 u) in *.
  pose proof eps16 as E9.
  assert (U2 : (u <= s * (1 + / 100000000))%R) by (apply Rle_trans with (1 := U1); apply Rmult_le_compat_l; lra).
  apply Rle_trans with (u * (1 + / 16777216))%R; [lra|].
  apply Rle_trans with (s * (1 + / 100000000) * (1 + / 16777216))%R.
  - apply Rmult_le_compat_r; lra.
  - rewrite Rmult_assoc. apply Rmult_le_compat_l; lra.
Qed.

Lemma pn_gap_about n M h : 0 < M < 2 ^ 31 -> 0 <= n < 2 ^ 53 -> 0 < h -> ~ about_le (h * h * M) (4 * n) ->
  (rnd24 (rnd (sqrt (rnd (IZR n / IZR M)))) < half h)%R.
Proof.
  intros HM Hn Hh H. unfold about_le in H.
  assert (hp : (0 < half h)%R) by (unfold half; assert (0 < IZR h)%R by (apply IZR_lt; lia); lra).
  destruct (Z.eq_dec n 0) as [E0|E0].
  { assert (IZR n / IZR M = 0)%R as -> by (rewrite E0; unfold Rdiv; ring).
    rewrite (round_0 radix2 fexp64) by auto with typeclass_instances. rewrite sqrt_0.
    rewrite (round_0 radix2 fexp64) by auto with typeclass_instances. now rewrite round_0 by auto with typeclass_instances. }
  pose proof (pn_upper n M HM ltac:(lia)) as U. set (f := rnd24 _) in *. set (Q := (IZR n / IZR M)%R) in *.
  assert (M' : (1 <= IZR M)%R) by (apply IZR_le; lia).
  assert (EQ : (Q * IZR M = IZR n)%R) by (unfold Q; field; lra).
  assert (n' : (1 <= IZR n)%R) by (apply IZR_le; lia).
  assert (Q0 : (0 < Q)%R) by nra.
  assert (SS : (sqrt Q * sqrt Q = Q)%R) by (apply sqrt_sqrt; lra). pose proof (sqrt_pos Q) as SP.
  assert (HH : (4 * IZR n * (1 + / 4194304) < IZR h * IZR h * IZR M)%R).
  { apply Z.nle_gt in H. apply IZR_lt in H. rewrite !mult_IZR, plus_IZR in H. change (IZR (2 ^ 22)) with 4194304%R in H. lra. }
  destruct (Rle_lt_dec (half h) f) as [C|C]; [exfalso|exact C].
  set (s := sqrt Q) in *.
  assert (C2 : (half h * half h <= s * (1 + / 14000000) * (s * (1 + / 14000000)))%R) by (apply Rmult_le_compat; lra).
  replace (s * (1 + / 14000000) * (s * (1 + / 14000000)))%R with ((s * s) * ((1 + / 14000000) * (1 + / 14000000)))%R in C2 by ring.
  rewrite SS in C2. unfold half in C2. apply Rmult_le_compat_r with (r := IZR M) in C2; [|lra].
  replace (Q * ((1 + / 14000000) * (1 + / 14000000)) * IZR M)%R with (Q * IZR M * ((1 + / 14000000) * (1 + / 14000000)))%R in C2 by ring.
  rewrite EQ in C2. replace (IZR h / 2 * (IZR h / 2) * IZR M)%R with (IZR h * IZR h * IZR M / 4)%R in C2 by field. lra.
Qed.

Theorem pn_about p N M : 0 < M < 2 ^ 31 -> 0 < p < 2 ^ 31 -> 0 <= N < 2 ^ 31 -> p * N <= 2 ^ 45 ->
  exists v, ieee_pn p N M = Some v /\ about_nearest_root (p * N) M v.
Proof.
  intros HM Hp HN HpN. destruct (pn_rep p N M ltac:(lia) ltac:(lia) ltac:(lia) ltac:(lia)) as (f & Rf & Ef & RB).
  pose proof (double_of_single_rep _ _ (sround_rep _ _ Rf)) as R. set (v := ZnearestA f) in *.
  assert (Hf : (0 <= f)%R).
  { rewrite Ef, <- (rnd24_int 0) by lia. apply rnd24_le. rewrite <- (rnd_int 0) by lia. apply rnd_le. apply sqrt_pos. }
  pose proof (Znearest_half (Zle_bool 0) f) as HZ. fold v in HZ. apply Rabs_le_inv in HZ.
  assert (v0 : 0 <= v).
  { apply le_IZR. assert (IZR v > -1)%R by lra. apply IZR_le. apply Z.lt_pred_le. apply lt_IZR. change (Z.pred 0) with (-1). lra. }
  assert (Hn : 0 <= p * N) by nia.
  set (n := p * N) in *.
  assert (UP : (f < half (2 * v + 1))%R).
  { unfold half. rewrite plus_IZR, mult_IZR. destruct HZ as (_ & HZ). destruct (Rle_lt_dec (IZR v + / 2) f) as [L|L]; [exfalso|lra].
    assert (Ev : f = (IZR v + / 2)%R) by lra.
    assert (Fl : Zfloor f = v) by (apply Zfloor_imp; rewrite plus_IZR; lra).
    assert (V : ZnearestA f = Zceil f).
    { unfold Znearest. rewrite Fl. replace (f - IZR v)%R with (/ 2)%R by lra. rewrite Rcompare_Eq by reflexivity.
      destruct (Z.leb_spec 0 v); [reflexivity|lia]. }
    fold v in V. assert (Ce : Zceil f = v + 1).
    { apply Zceil_imp. rewrite plus_IZR. replace (v + 1 - 1) with v by ring. lra. }
    lia. }
  assert (LO : (half (2 * v - 1) <= f)%R) by (unfold half; rewrite minus_IZR, mult_IZR; lra).
  assert (v24 : 2 * v + 1 < 2 ^ 24).
  { apply lt_IZR. pose proof (pn_gap_about n M 12000000 HM ltac:(lia) ltac:(lia)) as G. rewrite <- Ef in G.
    unfold about_le in G. specialize (G ltac:(nia)).
    unfold half in G, LO. rewrite minus_IZR, mult_IZR in LO. rewrite plus_IZR, mult_IZR. change (2 ^ 24) with 16777216. lra. }
  exists v. split; [|split; [auto|split]].
  - unfold ieee_pn, int_of_single. rewrite (to_int_rep _ _ R); rewrite Ztrunc_IZR; [reflexivity|lia].
  - apply Z.nle_gt. intros C. apply Rlt_not_le in UP. apply UP. rewrite Ef. apply pn_mono; [lia|].
    assert (Mp : (0 < IZR M)%R) by (apply IZR_lt; lia).
    apply Rmult_le_reg_r with (IZR M); [auto|]. replace (IZR n / IZR M * IZR M)%R with (IZR n) by (field; lra).
    apply IZR_le in C. rewrite !mult_IZR in C. unfold half. lra.
  - intros Hv. unfold about_le. apply Z.nlt_ge. intros C.
    pose proof (pn_gap_about n M (2 * v - 1) HM ltac:(lia) ltac:(lia) ltac:(unfold about_le; lia)). rewrite <- Ef in *. lra.
Qed.

Theorem grid_about p N M : 0 < M < 2 ^ 31 -> 0 < p < 2 ^ 31 -> 0 <= N < 2 ^ 31 -> p * N <= 2 ^ 45 ->
  about_nearest_root (p * N) M (fp_pn ieee p N M).
Proof. intros HM Hp HN HB. destruct (pn_about p N M HM Hp HN HB) as (v & E & V). cbn. rewrite E. exact V. Qed.
