(** * The width of the two-dimensional grid: (int) roundf(sqrt(((double) p*N) / M)). *)

From Coq Require Import ZArith Reals Bool Lia Lra.
From Flocq Require Import Core BinarySingleNaN Relative.
From Verif Require Import SpecTop ModelSizing ModelDouble ModelIEEE Double_facts IEEE_facts IEEE32_facts Sched_facts.
Open Scope Z_scope.

Lemma sround_rep x a : srep x a -> srep (sround x) (IZR (ZnearestA a)).
Proof.
  intros (F1 & <-). unfold sround, srep.
  destruct (Bnearbyint_correct 24 128 emax128 mode_NA x) as (E1 & E2 & _).
  split; [congruence|]. rewrite E1. cbn [round_mode]. apply round_FIX0. auto with typeclass_instances.
Qed.

(** the float computed before roundf *)
Lemma pn_rep p N M : 0 < M < 2 ^ 31 -> 0 <= p < 2 ^ 31 -> 0 <= N < 2 ^ 31 -> p * N < 2 ^ 53 ->
  exists f, srep (single_of_double (dsqrt (ddiv (dmul (of_int p) (of_int N)) (of_int M)))) f /\
    f = rnd24 (rnd (sqrt (rnd (IZR (p * N) / IZR M)))) /\ (0 <= rnd (IZR (p * N) / IZR M) <= bpow radix2 54)%R.
Proof.
  intros HM Hp HN HpN.
  assert (I : forall k, Z.abs k < 2 ^ 53 -> rep (of_int k) (IZR k)) by (intros; now apply of_int_rep).
  assert (Hn : 0 <= p * N) by nia.
  assert (R1 : rep (dmul (of_int p) (of_int N)) (IZR (p * N))) by (apply dmul_int; try (apply I); lia).
  assert (Hb : (0 < IZR M)%R) by (apply IZR_lt; lia).
  set (Q := (IZR (p * N) / IZR M)%R).
  assert (Q0 : (0 <= Q)%R) by (apply frac_pos; lia).
  assert (Q1 : (Q <= bpow radix2 53)%R).
  { apply frac_le; [lia|]. change (bpow radix2 53) with (IZR (2 ^ 53)). rewrite <- mult_IZR. apply IZR_le. nia. }
  assert (R2 : rep (ddiv (dmul (of_int p) (of_int N)) (of_int M)) (rnd Q)).
  { apply ddiv_rep; [exact R1|apply I; lia|lra|]. fold Q. rewrite Rabs_pos_eq by auto. apply Rle_trans with (1 := Q1). apply bpow_le. lia. }
  assert (N2 : near 2 (rnd Q) Q) by (apply (near_rnd 0); [lia|now apply near_exact|apply frac_normal; lia]).
  destruct (near_bounds 2 _ _ ltac:(lia) N2) as (_ & B).
  assert (RB : (0 <= rnd Q <= bpow radix2 54)%R).
  { split; [lra|]. replace (bpow radix2 54) with (2 * bpow radix2 53)%R; [lra|].
    change 2%R with (bpow radix2 1). rewrite <- bpow_plus. reflexivity. }
  pose proof (dsqrt_rep _ _ R2 (proj1 RB)) as R3.
  eexists. split; [|split; [reflexivity|exact RB]]. apply single_of_double_rep; [exact R3|].
  pose proof (sqrt_le_1_alt _ _ (proj2 RB)) as S. replace (sqrt (bpow radix2 54)) with (bpow radix2 27) in S.
  2:{ symmetry. rewrite <- (sqrt_square (bpow radix2 27)) by apply bpow_ge_0. f_equal. rewrite <- bpow_plus. reflexivity. }
  apply Rle_trans with (bpow radix2 27); [|apply bpow_le; lia].
  apply abs_round_le_generic; auto with typeclass_instances; [apply bpow_format; lia|].
  rewrite Rabs_pos_eq by apply sqrt_pos. exact S.
Qed.

Definition half (n : Z) : R := (IZR n / 2)%R.

Lemma half_dy n : half n = dy n (-1).
Proof. unfold half, dy. change (bpow radix2 (-1)) with (/ 2)%R. reflexivity. Qed.

(** monotone: a half-integer below the root is still below *)
Lemma pn_mono (Q : R) h : 0 <= h < 2 ^ 24 -> (half h * half h <= Q)%R -> (half h <= rnd24 (rnd (sqrt (rnd Q))))%R.
Proof.
  intros Hh H.
  assert (E : (half h * half h = dy (h * h) (-2))%R).
  { unfold half, dy. rewrite mult_IZR. change (bpow radix2 (-2)) with (/ 4)%R. field. }
  assert (h0 : (0 <= half h)%R) by (unfold half; assert (0 <= IZR h)%R by (apply IZR_le; lia); lra).
  assert (S1 : (half h * half h <= rnd Q)%R).
  { rewrite E, <- rnd_dy by nia. apply rnd_le. now rewrite <- E. }
  assert (S2 : (half h <= sqrt (rnd Q))%R).
  { rewrite <- (sqrt_square (half h)) by auto. now apply sqrt_le_1_alt. }
  assert (S3 : (half h <= rnd (sqrt (rnd Q)))%R).
  { rewrite half_dy in *. rewrite <- rnd_dy by lia. now apply rnd_le. }
  rewrite half_dy in *. rewrite <- rnd24_dy by lia. now apply rnd24_le.
Qed.

Lemma pn_gap n M h : 0 < M < 2 ^ 31 -> 0 <= n <= 2 ^ 19 -> 0 < h -> 4 * n < h * h * M ->
  (rnd24 (rnd (sqrt (rnd (IZR n / IZR M)))) < half h)%R.
Proof.
  intros HM Hn Hh H. set (Q := (IZR n / IZR M)%R).
  assert (hp : (0 < half h)%R) by (unfold half; assert (0 < IZR h)%R by (apply IZR_lt; lia); lra).
  destruct (Z.eq_dec n 0) as [E0|E0].
  { assert (Q = 0)%R as -> by (unfold Q; rewrite E0; unfold Rdiv; ring).
    rewrite (round_0 radix2 fexp64) by auto with typeclass_instances. rewrite sqrt_0.
    rewrite (round_0 radix2 fexp64) by auto with typeclass_instances. now rewrite round_0 by auto with typeclass_instances. }
  assert (M' : (1 <= IZR M)%R) by (apply IZR_le; lia).
  assert (EQ : (Q * IZR M = IZR n)%R) by (unfold Q; field; lra).
  assert (n' : (1 <= IZR n <= 524288)%R) by (split; apply IZR_le; lia).
  assert (Q0 : (0 < Q)%R) by nra.
  pose proof eps_pos as Ep. pose proof eps_small as Es.
  assert (N2 : near 2 (rnd Q) Q) by (apply (near_rnd 0); [lia|apply near_exact; lra|apply frac_normal; lia]).
  destruct (near_bounds 2 _ _ ltac:(lia) N2) as (B & B').
  assert (Eq : (eps * Q <= / 1000000 * Q)%R) by nra.
  assert (SQ : (0 < sqrt Q)%R) by now apply sqrt_lt_R0.
  assert (SS : (sqrt Q * sqrt Q = Q)%R) by (apply sqrt_sqrt; lra).
  set (s := sqrt Q) in *.
  assert (S1 : (sqrt (rnd Q) <= s * (1 + 2 * eps))%R).
  { rewrite <- (sqrt_square (s * (1 + 2 * eps))) by nra. apply sqrt_le_1_alt.
    replace (s * (1 + 2 * eps) * (s * (1 + 2 * eps)))%R with ((s * s) * ((1 + 2 * eps) * (1 + 2 * eps)))%R by ring. rewrite SS.
    nra. }
  set (w := sqrt (rnd Q)) in *.
  assert (W0 : (s / 2 <= w)%R).
  { unfold w. rewrite <- (sqrt_square (s / 2)) by lra. apply sqrt_le_1_alt.
    replace (s / 2 * (s / 2))%R with (s * s / 4)%R by field. rewrite SS. lra. }
  assert (SL : (bpow radix2 (-40) <= s)%R).
  { unfold s. rewrite <- (sqrt_square (bpow radix2 (-40))) by apply bpow_ge_0. apply sqrt_le_1_alt.
    rewrite <- bpow_plus. assert (/ IZR M <= Q)%R.
    { unfold Q, Rdiv. rewrite <- (Rmult_1_l (/ IZR M)) at 1. apply Rmult_le_compat_r; [left; apply Rinv_0_lt_compat; lra|lra]. }
    apply Rle_trans with (/ IZR M)%R; [|auto]. replace (bpow radix2 (-40 + -40)) with (/ IZR (2 ^ 80))%R by reflexivity.
    apply Rinv_le; [lra|]. apply IZR_le. lia. }
  assert (P41 : (bpow radix2 (-41) <= w)%R).
  { apply Rle_trans with (bpow radix2 (-40) / 2)%R; [|lra]. apply Req_le. unfold Rdiv. change (/ 2)%R with (bpow radix2 (-1)).
    rewrite <- bpow_plus. reflexivity. }
  assert (Ew : (Rabs (rnd w - w) <= eps * Rabs w)%R).
  { apply rnd_error. rewrite Rabs_pos_eq by (pose proof (bp_pos (-41)); lra). apply Rle_trans with (2 := P41). apply bpow_le. lia. }
  assert (w0 : (0 < w)%R) by lra.
  rewrite (Rabs_pos_eq w) in Ew by lra. apply Rabs_le_inv in Ew. set (u := rnd w) in *.
  assert (U1 : (u <= s * (1 + 4 * eps))%R) by nra.
  assert (U0 : (w / 2 <= u)%R) by nra.
  assert (E24 : (Rabs (rnd24 u - u) <= bpow radix2 (-24) * Rabs u)%R).
  { apply rnd24_error. rewrite Rabs_pos_eq by lra. apply Rle_trans with (bpow radix2 (-41) / 2)%R; [|lra].
    unfold Rdiv. change (/ 2)%R with (bpow radix2 (-1)). rewrite <- bpow_plus. apply bpow_le. lia. }
  rewrite (Rabs_pos_eq u) in E24 by lra. apply Rabs_le_inv in E24.
  change (bpow radix2 (-24)) with (/ 16777216)%R in E24. set (f := rnd24 u) in *.
  assert (E9 : (4 * eps <= / 100000000)%R).
  { unfold eps. change 4%R with (bpow radix2 2). rewrite <- bpow_plus. change (bpow radix2 (2 + -53)) with (/ IZR (2 ^ 51))%R.
    apply Rinv_le; [lra|]. apply IZR_le. lia. }
  assert (F1 : (f <= s * (1 + / 8388608))%R).
  { apply Rle_trans with (u * (1 + / 16777216))%R; [lra|].
    apply Rle_trans with (s * (1 + / 100000000) * (1 + / 16777216))%R.
    - apply Rmult_le_compat_r; [lra|]. nra.
    - nra. }
  assert (f0 : (0 <= f)%R) by lra.
  assert (FF : (f * f <= Q * ((1 + / 8388608) * (1 + / 8388608)))%R).
  { apply Rle_trans with (s * (1 + / 8388608) * (s * (1 + / 8388608)))%R; [apply Rmult_le_compat; lra|].
    replace (s * (1 + / 8388608) * (s * (1 + / 8388608)))%R with ((s * s) * ((1 + / 8388608) * (1 + / 8388608)))%R by ring.
    rewrite SS. lra. }
  assert (HH : (4 * IZR n + 1 <= IZR h * IZR h * IZR M)%R).
  { rewrite <- !mult_IZR, <- plus_IZR. apply IZR_le. lia. }
  assert (G : (f * f < half h * half h)%R).
  { apply Rle_lt_trans with (1 := FF). apply Rmult_lt_reg_r with (IZR M); [lra|].
    replace (Q * ((1 + / 8388608) * (1 + / 8388608)) * IZR M)%R with ((Q * IZR M) * ((1 + / 8388608) * (1 + / 8388608)))%R by ring.
    rewrite EQ. unfold half. replace (IZR h / 2 * (IZR h / 2) * IZR M)%R with (IZR h * IZR h * IZR M / 4)%R by field. nra. }
  nra.
Qed.

Theorem pn_nearest p N M : 0 < M < 2 ^ 31 -> 0 < p < 2 ^ 31 -> 0 <= N < 2 ^ 31 -> p * N <= 2 ^ 19 ->
  exists v, ieee_pn p N M = Some v /\ 0 <= v /\ 4 * (p * N) < (2 * v + 1) * (2 * v + 1) * M /\
    (0 < v -> (2 * v - 1) * (2 * v - 1) * M <= 4 * (p * N)).
Proof.
  intros HM Hp HN HpN. destruct (pn_rep p N M ltac:(lia) ltac:(lia) ltac:(lia) ltac:(lia)) as (f & Rf & Ef & RB).
  pose proof (double_of_single_rep _ _ (sround_rep _ _ Rf)) as R. set (v := ZnearestA f) in *.
  assert (Hf : (0 <= f)%R).
  { rewrite Ef, <- (rnd24_int 0) by lia. apply rnd24_le. rewrite <- (rnd_int 0) by lia. apply rnd_le. apply sqrt_pos. }
  pose proof (Znearest_half (Zle_bool 0) f) as HZ. fold v in HZ. apply Rabs_le_inv in HZ.
  assert (v0 : 0 <= v).
  { apply le_IZR. assert (IZR v > -1)%R by lra. apply IZR_le. apply Z.lt_pred_le. apply lt_IZR. change (Z.pred 0) with (-1). lra. }
  assert (Hn : 0 <= p * N) by nia.
  set (n := p * N) in *.
  assert (UP : (f < half (2 * v + 1))%R).
  { unfold half. rewrite plus_IZR, mult_IZR. destruct HZ as (_ & HZ). destruct (Rle_lt_dec (IZR v + / 2) f) as [L|L]; [exfalso|lra].
    assert (Ev : f = (IZR v + / 2)%R) by lra.
    assert (Fl : Zfloor f = v) by (apply Zfloor_imp; rewrite plus_IZR; lra).
    assert (V : ZnearestA f = Zceil f).
    { unfold Znearest. rewrite Fl. replace (f - IZR v)%R with (/ 2)%R by lra. rewrite Rcompare_Eq by reflexivity.
      destruct (Z.leb_spec 0 v); [reflexivity|lia]. }
    fold v in V. assert (Ce : Zceil f = v + 1).
    { apply Zceil_imp. rewrite plus_IZR. replace (v + 1 - 1) with v by ring. lra. }
    lia. }
  assert (LO : (half (2 * v - 1) <= f)%R) by (unfold half; rewrite minus_IZR, mult_IZR; lra).
  assert (v24 : v < 2 ^ 21).
  { apply lt_IZR. pose proof (pn_gap n M 2048 HM ltac:(lia) ltac:(lia) ltac:(lia)) as G. rewrite <- Ef in G.
    unfold half in G, LO. rewrite minus_IZR, mult_IZR in LO. change (2 ^ 21) with 2097152. lra. }
  exists v. split; [|split; [auto|split]].
  - unfold ieee_pn, int_of_single. rewrite (to_int_rep _ _ R); rewrite Ztrunc_IZR; [reflexivity|lia].
  - apply Z.nle_gt. intros C. apply Rlt_not_le in UP. apply UP. rewrite Ef. apply pn_mono; [lia|].
    assert (Mp : (0 < IZR M)%R) by (apply IZR_lt; lia).
    apply Rmult_le_reg_r with (IZR M); [auto|]. replace (IZR n / IZR M * IZR M)%R with (IZR n) by (field; lra).
    apply IZR_le in C. rewrite !mult_IZR in C. unfold half. lra.
  - intros Hv. apply Z.nlt_ge. intros C. pose proof (pn_gap n M (2 * v - 1) HM ltac:(lia) ltac:(lia) ltac:(lia)). unfold n in *. rewrite <- Ef in *. lra.
Qed.
