(** * The scaled tile sizes and the automatic choice of the schedule. *)

From Coq Require Import ZArith Reals Bool Lia Lra.
From Flocq Require Import Core BinarySingleNaN Relative.
From Verif Require Import SpecTop ModelSizing ModelDouble ModelIEEE Double_facts IEEE_facts IEEE32_facts.
Open Scope Z_scope.

Definition eps : R := bpow radix2 (-53).
Definition tiny : R := bpow radix2 (-900).

Lemma eps_pos : (0 < eps)%R. Proof. apply bpow_gt_0. Qed.

Lemma eps_small : (eps * 1000000 < 1)%R.
Proof.
  apply Rle_lt_trans with (eps * bpow radix2 20)%R.
  - apply Rmult_le_compat_l; [apply bpow_ge_0|]. change (bpow radix2 20) with (IZR (2 ^ 20)). apply IZR_le. lia.
  - unfold eps. rewrite <- bpow_plus. change 1%R with (bpow radix2 0). apply bpow_lt. lia.
Qed.

Lemma tiny_pos : (0 < tiny)%R. Proof. apply bpow_gt_0. Qed.

(** [x] is [r] up to a relative error of k/2^53 *)
Definition near (k : Z) (x r : R) : Prop := (0 <= r /\ Rabs (x - r) <= IZR k * eps * r)%R.

(** zero, or not in the subnormal range *)
Definition normal (r : R) : Prop := r = 0%R \/ (tiny <= r)%R.

Lemma rnd_err r : normal r \/ (tiny / 2 <= r)%R -> (Rabs (rnd r - r) <= eps * Rabs r)%R.
Proof.
  intros [[-> |H]|H].
  - rewrite round_0 by auto with typeclass_instances. rewrite Rminus_0_r, Rabs_R0. lra.
  - apply rnd_error. pose proof tiny_pos. rewrite Rabs_pos_eq by lra. apply Rle_trans with (2 := H). apply bpow_le. lia.
  - apply rnd_error. pose proof tiny_pos. rewrite Rabs_pos_eq by lra. apply Rle_trans with (2 := H).
    unfold tiny, Rdiv. change (/ 2)%R with (bpow radix2 (-1)). rewrite <- bpow_plus. apply bpow_le. lia.
Qed.

Lemma near_bounds k x r : 0 <= k <= 1000 -> near k x r -> (r - IZR k * (eps * r) <= x <= r + IZR k * (eps * r) /\ r / 2 <= x <= 2 * r)%R.
Proof.
  intros Hk (Hr & H). apply Rabs_le_inv in H.
  assert (K : (0 <= IZR k <= 1000)%R) by (split; apply IZR_le; lia).
  pose proof eps_pos. pose proof eps_small.
  assert (Z : (0 <= eps * r)%R) by nra.
  assert (IZR k * (eps * r) <= 1000 * (eps * r))%R by nra.
  assert (1000 * (eps * r) <= / 1000 * r)%R by nra. nra.
Qed.

(** rounding adds two units *)
Lemma near_rnd k x r : 0 <= k <= 1000 -> near k x r -> normal r -> near (k + 2) (rnd x) r.
Proof.
  intros Hk N Hn. destruct (near_bounds k x r Hk N) as (B1 & B2). destruct N as (Hr & _).
  split; [auto|].
  assert (E : (Rabs (rnd x - x) <= eps * Rabs x)%R).
  { apply rnd_err. destruct Hn as [-> |Hn]; [|right; lra]. left. left. lra. }
  rewrite (Rabs_pos_eq x) in E by lra. apply Rabs_le_inv in E.
  assert (K : (0 <= IZR k <= 1000)%R) by (split; apply IZR_le; lia).
  rewrite plus_IZR. pose proof eps_pos. assert (eps * x <= 2 * (eps * r))%R by nra.
  apply Rabs_le. lra.
Qed.

Lemma near_exact r : (0 <= r)%R -> near 0 r r.
Proof. intros. split; [auto|]. replace (r - r)%R with 0%R by ring. rewrite Rabs_R0. lra. Qed.

Lemma near_mul k x r c : (0 <= c)%R -> near k x r -> near k (x * c) (r * c).
Proof.
  intros Hc (Hr & H). split; [now apply Rmult_le_pos|].
  replace (x * c - r * c)%R with ((x - r) * c)%R by ring. rewrite Rabs_mult, (Rabs_pos_eq c) by auto. nra.
Qed.

Lemma near_big k x r : 0 <= k <= 1000 -> near k x r -> (2 * r <= big)%R -> (Rabs x <= big)%R.
Proof.
  intros Hk N H. destruct (near_bounds k x r Hk N) as (_ & B). destruct N as (Hr & _). rewrite Rabs_pos_eq; lra.
Qed.

Lemma small_big (z : Z) : 0 <= z <= 2 ^ 99 -> (IZR z <= big)%R.
Proof. intros. unfold big. change (bpow radix2 100) with (IZR (2 ^ 100)). apply IZR_le. lia. Qed.

(** quotients of ints of reasonable size are normal *)
Lemma frac_normal a b : 0 <= a -> 0 < b <= 2 ^ 100 -> normal (IZR a / IZR b).
Proof.
  intros Ha Hb. destruct (Z.eq_dec a 0) as [-> |Ha0].
  - left. unfold Rdiv. ring.
  - right. assert (B : (0 < IZR b <= bpow radix2 100)%R).
    { change (bpow radix2 100) with (IZR (2 ^ 100)). split; [apply IZR_lt|apply IZR_le]; lia. }
    assert (A : (1 <= IZR a)%R) by (apply IZR_le; lia).
    apply Rmult_le_reg_r with (IZR b); [lra|]. unfold Rdiv. rewrite Rmult_assoc, Rinv_l, Rmult_1_r by lra.
    apply Rle_trans with (2 := A). apply Rle_trans with (tiny * bpow radix2 100)%R.
    + apply Rmult_le_compat_l; [apply bpow_ge_0|lra].
    + unfold tiny. rewrite <- bpow_plus. change 1%R with (bpow radix2 0). apply bpow_le. lia.
Qed.

Lemma frac_le a b (c : R) : 0 < b -> (IZR a <= c * IZR b)%R -> (IZR a / IZR b <= c)%R.
Proof.
  intros Hb H. assert (0 < IZR b)%R by (apply IZR_lt; lia).
  apply Rmult_le_reg_r with (IZR b); [auto|]. unfold Rdiv. rewrite Rmult_assoc, Rinv_l, Rmult_1_r by lra. auto.
Qed.

Lemma frac_big a b : 0 <= a <= 2 ^ 95 -> 0 < b -> (2 * (IZR a / IZR b) <= big)%R.
Proof.
  intros Ha Hb. assert (IZR a / IZR b <= IZR (2 ^ 95))%R.
  { apply frac_le; auto. rewrite <- mult_IZR. apply IZR_le. nia. }
  apply Rle_trans with (IZR (2 * 2 ^ 95)); [rewrite mult_IZR; lra|]. apply small_big. lia.
Qed.

(** ** alpha_n * q * x *)

Lemma scaled_rep a b q x : 0 <= a <= 2 ^ 31 -> 0 < b <= 2 ^ 31 -> 0 <= q <= 2 ^ 31 -> 0 <= x <= 2 ^ 31 ->
  exists g, rep (ieee_scaled (a, b) q x) g /\ near 6 g (IZR (a * q * x) / IZR b).
Proof.
  intros Ha Hb Hq Hx. unfold ieee_scaled, ieee_alpha. cbn [fst snd].
  assert (I : forall k, Z.abs k < 2 ^ 53 -> rep (of_int k) (IZR k)) by (intros; now apply of_int_rep).
  assert (Hb' : (0 < IZR b)%R) by (apply IZR_lt; lia).
  assert (Hq' : (0 <= IZR q)%R) by (apply IZR_le; lia). assert (Hx' : (0 <= IZR x)%R) by (apply IZR_le; lia).
  assert (P0 : forall n, 0 <= n -> (0 <= IZR n / IZR b)%R).
  { intros n Hn. apply Rmult_le_pos; [apply IZR_le; lia|left; now apply Rinv_0_lt_compat]. }
  pose proof (near_exact (IZR a / IZR b) (P0 a ltac:(lia))) as N0.
  assert (N1 : near 2 (rnd (IZR a / IZR b)) (IZR a / IZR b)) by (apply (near_rnd 0); [lia|exact N0|apply frac_normal; lia]).
  assert (R1 : rep (ddiv (of_int a) (of_int b)) (rnd (IZR a / IZR b))).
  { apply ddiv_rep; [apply I; lia|apply I; lia|lra|]. eapply near_big; [|exact N0|apply frac_big; lia]. lia. }
  assert (N2 : near 2 (rnd (IZR a / IZR b) * IZR q) (IZR (a * q) / IZR b)).
  { replace (IZR (a * q) / IZR b)%R with (IZR a / IZR b * IZR q)%R by (rewrite mult_IZR; field; lra). now apply near_mul. }
  assert (N3 : near 4 (rnd (rnd (IZR a / IZR b) * IZR q)) (IZR (a * q) / IZR b)).
  { apply (near_rnd 2); [lia|exact N2|apply frac_normal; nia]. }
  assert (R2 : rep (dmul (ddiv (of_int a) (of_int b)) (of_int q)) (rnd (rnd (IZR a / IZR b) * IZR q))).
  { apply dmul_rep; [exact R1|apply I; lia|]. eapply near_big; [|exact N2|apply frac_big; nia]. lia. }
  assert (N4 : near 4 (rnd (rnd (IZR a / IZR b) * IZR q) * IZR x) (IZR (a * q * x) / IZR b)).
  { replace (IZR (a * q * x) / IZR b)%R with (IZR (a * q) / IZR b * IZR x)%R by (rewrite (mult_IZR (a * q)); field; lra).
    now apply near_mul. }
  assert (B2 : 0 <= a * q <= 2 ^ 62) by nia. assert (B3 : 0 <= a * q * x <= 2 ^ 93) by (clear - B2 Hx; nia).
  exists (rnd (rnd (rnd (IZR a / IZR b) * IZR q) * IZR x)). split.
  - apply dmul_rep; [exact R2|apply I; lia|]. eapply near_big; [|exact N4|apply frac_big; lia]. lia.
  - apply (near_rnd 4); [lia|exact N4|apply frac_normal; lia].
Qed.

(** the int obtained from alpha_n * q * x: the exact quotient rounded down, or one less when the
    quotient is an integer *)
Lemma scaled_int a b q x : 0 <= a <= 2 ^ 31 -> 0 < b <= 2 ^ 17 -> 0 <= q <= 2 ^ 31 -> 0 <= x <= 2 ^ 31 ->
  a * q * x < b * 2 ^ 31 ->
  exists v, to_int (ieee_scaled (a, b) q x) = Some v /\ 0 <= v /\ b * v <= a * q * x <= b * (v + 1).
Proof.
  intros Ha Hb Hq Hx HB. destruct (scaled_rep a b q x) as (g & Rg & N); try lia.
  destruct (near_bounds 6 _ _ ltac:(lia) N) as (B1 & B2). destruct N as (R0 & _).
  set (n := a * q * x) in *. assert (Hn : 0 <= n) by (unfold n; nia).
  assert (Hb' : (0 < IZR b <= 131072)%R) by (split; [apply IZR_lt|apply IZR_le]; lia).
  set (r := (IZR n / IZR b)%R) in *.
  assert (Er : (r * IZR b = IZR n)%R) by (unfold r; field; lra).
  assert (g0 : (0 <= g)%R) by lra.
  pose proof (Zfloor_lb g) as F1. pose proof (Zfloor_ub g) as F2. set (v := Zfloor g) in *.
  assert (v0 : 0 <= v) by (unfold v; rewrite <- (Zfloor_IZR 0); now apply Zfloor_le).
  assert (r31 : (r < IZR (2 ^ 31))%R).
  { apply Rmult_lt_reg_r with (IZR b); [lra|]. rewrite Er, <- mult_IZR. apply IZR_lt. lia. }
  assert (E6 : (6 * (eps * r) * IZR b < 1)%R).
  { apply Rle_lt_trans with (6 * (eps * IZR (2 ^ 31)) * 131072)%R.
    - pose proof eps_pos. assert (eps * r <= eps * IZR (2 ^ 31))%R by nra.
      assert (0 <= eps * r)%R by nra. apply Rmult_le_compat; lra.
    - unfold eps. replace (6 * (bpow radix2 (-53) * IZR (2 ^ 31)) * 131072)%R with (6 * bpow radix2 (-5))%R.
      + change (bpow radix2 (-5)) with (/ 32)%R. lra.
      + change (IZR (2 ^ 31)) with (bpow radix2 31). change 131072%R with (bpow radix2 17).
        replace (6 * (bpow radix2 (-53) * bpow radix2 31) * bpow radix2 17)%R
          with (6 * (bpow radix2 (-53) * bpow radix2 31 * bpow radix2 17))%R by ring.
        rewrite <- !bpow_plus. reflexivity. }
  assert (U : b * v <= n).
  { apply Z.lt_succ_r. apply lt_IZR. rewrite succ_IZR, mult_IZR. nra. }
  assert (L : n <= b * (v + 1)).
  { apply Z.lt_succ_r. apply lt_IZR. rewrite succ_IZR, mult_IZR, plus_IZR. nra. }
  exists v. split; [|auto]. eapply to_int_floor; [exact Rg|exact g0|reflexivity|]. nia.
Qed.

(** ** The cut-offs *)

Lemma frac_pos a b : 0 <= a -> 0 < b -> (0 <= IZR a / IZR b)%R.
Proof.
  intros. apply Rmult_le_pos; [apply IZR_le; lia|left; apply Rinv_0_lt_compat, IZR_lt; lia].
Qed.

Lemma near_eq k x r r' : r = r' -> near k x r -> near k x r'.
Proof. now intros ->. Qed.

(** (2.0*D) / (1.0 + (D * ((2.0/k) - (1.0/k)))) *)
Lemma K_cut_rep D p mc : 0 < D < 2 ^ 31 -> 0 < p * mc <= 2 ^ 24 ->
  exists V, srep (ieee_K_cut D p mc) (rnd24 V) /\
    near 16 V (IZR (2 * D * (p * mc)) / IZR (p * mc + D)).
Proof.
  intros HD HP. unfold ieee_K_cut, ieee_cut. set (P := p * mc) in *.
  assert (I : forall k, Z.abs k < 2 ^ 53 -> rep (of_int k) (IZR k)) by (intros; now apply of_int_rep).
  assert (Hk : rep (double_of_single (single_of_int P)) (IZR P)).
  { apply double_of_single_rep. rewrite <- (rnd24_int P) by lia. apply single_of_int_rep. lia. }
  assert (P' : (1 <= IZR P <= 16777216)%R) by (split; apply IZR_le; lia).
  assert (D' : (1 <= IZR D)%R) by (apply IZR_le; lia).
  pose proof eps_pos as Ep. pose proof eps_small as Es.
  (* 2.0/k and 1.0/k *)
  assert (Q : forall c, 0 < c <= 2 -> rep (ddiv (of_int c) (double_of_single (single_of_int P))) (rnd (IZR c / IZR P)) /\
                                 near 2 (rnd (IZR c / IZR P)) (IZR c / IZR P)).
  { intros c Hc. pose proof (near_exact (IZR c / IZR P) (frac_pos c P ltac:(lia) ltac:(lia))) as N0. split.
    - apply ddiv_rep; [apply I; lia|exact Hk|lra|]. eapply near_big; [|exact N0|apply frac_big; lia]. lia.
    - apply (near_rnd 0); [lia|exact N0|apply frac_normal; lia]. }
  destruct (Q 1 ltac:(lia)) as (R1 & N1). destruct (Q 2 ltac:(lia)) as (R2 & N2). clear Q.
  set (u1 := rnd (IZR 1 / IZR P)) in *. set (u2 := rnd (IZR 2 / IZR P)) in *.
  assert (N3 : near 6 (u2 - u1) (IZR 1 / IZR P)).
  { split; [apply frac_pos; lia|]. destruct (near_bounds 2 _ _ ltac:(lia) N1) as (A & _).
    destruct (near_bounds 2 _ _ ltac:(lia) N2) as (B & _).
    replace (IZR 2 / IZR P)%R with (2 * (IZR 1 / IZR P))%R in B by (field; lra). apply Rabs_le. lra. }
  assert (R3 : rep (dsub (ddiv (of_int 2) (double_of_single (single_of_int P))) (ddiv (of_int 1) (double_of_single (single_of_int P))))
                   (rnd (u2 - u1))).
  { apply dsub_rep; auto. eapply near_big; [|exact N3|apply frac_big; lia]. lia. }
  assert (N4 : near 8 (rnd (u2 - u1)) (IZR 1 / IZR P)) by (apply (near_rnd 6); [lia|auto|apply frac_normal; lia]).
  set (w := rnd (u2 - u1)) in *.
  assert (N5 : near 8 (IZR D * w) (IZR D / IZR P)).
  { apply (near_eq _ _ (IZR 1 / IZR P * IZR D)); [field; lra|]. rewrite Rmult_comm. apply near_mul; [lra|auto]. }
  assert (R5 : rep (dmul (of_int D) (dsub (ddiv (of_int 2) (double_of_single (single_of_int P))) (ddiv (of_int 1) (double_of_single (single_of_int P)))))
                   (rnd (IZR D * w))).
  { apply dmul_rep; [apply I; lia|exact R3|]. eapply near_big; [|exact N5|apply frac_big; lia]. lia. }
  assert (N6 : near 10 (rnd (IZR D * w)) (IZR D / IZR P)) by (apply (near_rnd 8); [lia|auto|apply frac_normal; lia]).
  set (z := rnd (IZR D * w)) in *.
  assert (N7 : near 10 (1 + z) (IZR (P + D) / IZR P)).
  { split; [apply frac_pos; lia|]. destruct (near_bounds 10 _ _ ltac:(lia) N6) as (A & _). destruct N6 as (Z0 & _).
    replace (IZR (P + D) / IZR P)%R with (1 + IZR D / IZR P)%R by (rewrite plus_IZR; field; lra). apply Rabs_le. nra. }
  match goal with H : rep ?t z |- _ => assert (R7 : rep (dadd (of_int 1) t) (rnd (1 + z))) end.
  { apply dadd_rep; [apply I; lia|exact R5|]. eapply near_big; [|exact N7|apply frac_big; lia]. lia. }
  assert (N8 : near 12 (rnd (1 + z)) (IZR (P + D) / IZR P)) by (apply (near_rnd 10); [lia|auto|apply frac_normal; lia]).
  set (v := rnd (1 + z)) in *.
  set (W := (IZR (P + D) / IZR P)%R) in *.
  destruct (near_bounds 12 _ _ ltac:(lia) N8) as (A8 & A8').
  assert (PD' : (0 < IZR (P + D))%R) by (apply IZR_lt; lia).
  assert (W0 : (1 <= W)%R).
  { unfold W. replace (IZR (P + D) / IZR P)%R with (1 + IZR D / IZR P)%R by (rewrite plus_IZR; field; lra).
    pose proof (frac_pos D P ltac:(lia) ltac:(lia)). lra. }
  set (T := (IZR (2 * D * P) / IZR (P + D))%R).
  assert (ET : (T * W = IZR (2 * D))%R).
  { unfold T, W. rewrite (mult_IZR (2 * D)). field. split; lra. }
  assert (T0 : (0 <= T)%R) by (apply frac_pos; nia).
  assert (N9 : near 14 (IZR (2 * D) / v) T -> (exists V, srep (single_of_double (ddiv (dmul (of_int 2) (of_int D)) (dadd (of_int 1) (dmul (of_int D) (dsub (ddiv (of_int 2) (double_of_single (single_of_int P))) (ddiv (of_int 1) (double_of_single (single_of_int P)))))))) (rnd24 V) /\ near 16 V T)).
  { intros N9. exists (rnd (IZR (2 * D) / v)).
    assert (TB : (2 * T <= big)%R) by (apply frac_big; nia).
    assert (R9 : rep (ddiv (dmul (of_int 2) (of_int D)) (dadd (of_int 1) (dmul (of_int D) (dsub (ddiv (of_int 2) (double_of_single (single_of_int P))) (ddiv (of_int 1) (double_of_single (single_of_int P)))))))
       (rnd (IZR (2 * D) / v))).
    { apply ddiv_rep; [apply dmul_int; try (apply I); lia|exact R7|lra|]. eapply near_big; [|exact N9|auto]. lia. }
    assert (N10 : near 16 (rnd (IZR (2 * D) / v)) T) by (apply (near_rnd 14); [lia|auto|apply frac_normal; nia]).
    split; [|auto]. apply single_of_double_rep; [exact R9|]. eapply near_big; [|exact N10|auto]. lia. }
  apply N9. split; [auto|].
  assert (v0 : (0 < v)%R) by lra.
  assert (EW : (eps * W <= / 1000000 * W)%R) by nra.
  assert (V1 : (12 * W <= 14 * v)%R) by lra.
  replace (IZR (2 * D) / v - T)%R with (T * (W - v) * / v)%R.
  2:{ rewrite <- ET. field. lra. }
  rewrite !Rabs_mult, (Rabs_pos_eq T), (Rabs_pos_eq (/ v)) by (auto; left; now apply Rinv_0_lt_compat).
  assert (AW : (Rabs (W - v) <= 14 * eps * v)%R).
  { apply Rabs_le. nra. }
  apply Rmult_le_reg_r with v; [auto|]. rewrite Rmult_assoc, Rinv_l, Rmult_1_r by lra. nra.
Qed.

(** ** Comparisons *)

Lemma sleb_rep x y a b : srep x a -> srep y b -> Bleb x y = Rle_bool a b.
Proof. intros (F1 & <-) (F2 & <-). now apply Bleb_correct. Qed.

Lemma sint_rep k : Z.abs k <= 2 ^ 24 -> srep (single_of_int k) (IZR k).
Proof. intros H. rewrite <- (rnd24_int k) by lia. apply single_of_int_rep. lia. Qed.

(** a float is still reached from slightly below *)
Lemma rnd24_ge K z : 0 < K <= 2 ^ 24 -> (IZR K - bpow radix2 (-27) * IZR K < z)%R -> (IZR K <= rnd24 z)%R.
Proof.
  intros HK Hz. assert (HK' : (1 <= IZR K)%R) by (apply IZR_le; lia).
  pose proof (sint_format K ltac:(lia)) as FK.
  assert (FH : generic_format radix2 fexp32 (IZR K / 2)).
  { replace (IZR K / 2)%R with (dy K (-1)) by (unfold dy; change (bpow radix2 (-1)) with (/ 2)%R; field).
    destruct (Z.eq_dec K (2 ^ 24)) as [-> |E]; [|apply sdy_format; lia].
    replace (dy (2 ^ 24) (-1)) with (IZR (2 ^ 23)); [apply sint_format; lia|].
    unfold dy. change (2 ^ 24) with (2 ^ 23 * 2). rewrite mult_IZR. change (bpow radix2 (-1)) with (/ 2)%R. field. }
  apply round_N_ge_midp; auto with typeclass_instances.
  pose proof (pred_plus_ulp radix2 fexp32 (IZR K) ltac:(lra) FK) as PU.
  pose proof (pred_ge_gt radix2 fexp32 (IZR K / 2) (IZR K) FH FK ltac:(lra)) as PG.
  set (pr := pred radix2 fexp32 (IZR K)) in *.
  assert (U : (bpow radix2 (-24) * pr <= ulp radix2 fexp32 pr)%R).
  { rewrite ulp_neq_0 by lra. unfold cexp. pose proof (bpow_mag_gt radix2 pr) as M. rewrite Rabs_pos_eq in M by lra.
    apply Rle_trans with (bpow radix2 (-24) * bpow radix2 (mag radix2 pr))%R.
    - apply Rmult_le_compat_l; [apply bpow_ge_0|lra].
    - rewrite <- bpow_plus. apply bpow_le. unfold SpecFloat.fexp, SpecFloat.emin. lia. }
  assert (E27 : (bpow radix2 (-24) = 8 * bpow radix2 (-27))%R)
    by (change 8%R with (bpow radix2 3); rewrite <- bpow_plus; reflexivity).
  pose proof (bp_pos (-27)). rewrite E27 in U. nra.
Qed.

Lemma K_cut_le D p mc K : 0 < D < 2 ^ 31 -> 0 < p * mc <= 2 ^ 24 -> 0 <= K <= 2 ^ 24 ->
  K * (p * mc + D) <= 2 * D * (p * mc) -> Bleb (single_of_int K) (ieee_K_cut D p mc) = true.
Proof.
  intros HD HP HK H. destruct (K_cut_rep D p mc HD HP) as (V & RV & NV).
  rewrite (sleb_rep _ _ _ _ (sint_rep K ltac:(lia)) RV). apply Rle_bool_true.
  destruct (near_bounds 16 _ _ ltac:(lia) NV) as (B1 & B2). destruct NV as (T0 & _).
  set (T := (IZR (2 * D * (p * mc)) / IZR (p * mc + D))%R) in *.
  destruct (Z.eq_dec K 0) as [-> |K0].
  - rewrite <- (rnd24_int 0) by lia. apply rnd24_le. lra.
  - apply rnd24_ge; [lia|].
    assert (PD : (0 < IZR (p * mc + D))%R) by (apply IZR_lt; lia).
    assert (KT : (IZR K <= T)%R).
    { apply Rmult_le_reg_r with (IZR (p * mc + D)); [auto|]. unfold T, Rdiv. rewrite Rmult_assoc, Rinv_l, Rmult_1_r by lra.
      rewrite <- mult_IZR. now apply IZR_le. }
    assert (E : (bpow radix2 (-27) = 67108864 * eps)%R).
    { unfold eps. change 67108864%R with (bpow radix2 26). rewrite <- bpow_plus. reflexivity. }
    rewrite E. pose proof eps_pos. pose proof eps_small.
    assert (K1 : (1 <= IZR K)%R) by (apply IZR_le; lia).
    assert (T - 16 * (eps * T) >= IZR K - 16 * (eps * IZR K))%R by nra.
    assert (0 < eps * IZR K)%R by nra. lra.
Qed.

Lemma K_cut_gt D p mc K : 0 < D < 2 ^ 31 -> 0 < p * mc <= 2 ^ 24 -> 0 <= K <= 2 ^ 24 -> D * (p * mc) <= 2 ^ 22 ->
  2 * D * (p * mc) < K * (p * mc + D) -> Bleb (single_of_int K) (ieee_K_cut D p mc) = false.
Proof.
  intros HD HP HK HB H. destruct (K_cut_rep D p mc HD HP) as (V & RV & NV).
  rewrite (sleb_rep _ _ _ _ (sint_rep K ltac:(lia)) RV). apply Rle_bool_false.
  destruct (near_bounds 16 _ _ ltac:(lia) NV) as (B1 & B2). destruct NV as (T0 & _).
  set (T := (IZR (2 * D * (p * mc)) / IZR (p * mc + D))%R) in *.
  set (s := p * mc + D) in *. set (n := 2 * D * (p * mc)) in *.
  assert (PD : (1 <= IZR s <= 2 * 16777216 * 16777216)%R).
  { split; [apply IZR_le; lia|]. rewrite <- !mult_IZR. apply IZR_le. lia. }
  assert (ET : (T * IZR s = IZR n)%R) by (unfold T; field; lra).
  assert (N8 : (2 <= IZR n <= 8388608)%R) by (split; apply IZR_le; unfold n; nia).
  assert (KT : (IZR n + 1 <= IZR K * IZR s)%R).
  { rewrite <- mult_IZR, <- plus_IZR. apply IZR_le. lia. }
  pose proof eps_pos. pose proof eps_small.
  assert (V24 : (Rabs (rnd24 V - V) <= bpow radix2 (-24) * Rabs V)%R).
  { apply rnd24_error. rewrite Rabs_pos_eq by lra.
    assert (T1 : (/ IZR s <= T)%R).
    { apply Rmult_le_reg_r with (IZR s); [lra|]. rewrite Rinv_l, ET by lra. lra. }
    assert (S2 : (bpow radix2 (-60) <= / IZR s)%R).
    { replace (bpow radix2 (-60)) with (/ bpow radix2 60)%R by (rewrite <- bpow_opp; reflexivity). apply Rinv_le; [lra|].
      change (bpow radix2 60) with (IZR (2 ^ 60)). apply Rle_trans with (1 := proj2 PD). rewrite <- !mult_IZR. apply IZR_le. lia. }
    assert (S3 : (2 * bpow radix2 (-120) <= bpow radix2 (-60))%R).
    { change 2%R with (bpow radix2 1). rewrite <- bpow_plus. apply bpow_le. lia. }
    lra. }
  rewrite (Rabs_pos_eq V) in V24 by lra. apply Rabs_le_inv in V24.
  assert (E : (bpow radix2 (-24) = / 16777216)%R) by reflexivity. rewrite E in V24.
  apply Rmult_lt_reg_r with (IZR s); [lra|].
  apply Rle_lt_trans with (V * (1 + / 16777216) * IZR s)%R; [apply Rmult_le_compat_r; lra|].
  apply Rle_lt_trans with (T * (1 + 16 * eps) * (1 + / 16777216) * IZR s)%R.
  { apply Rmult_le_compat_r; [lra|]. apply Rmult_le_compat_r; [lra|]. lra. }
  replace (T * (1 + 16 * eps) * (1 + / 16777216) * IZR s)%R with ((T * IZR s) * ((1 + 16 * eps) * (1 + / 16777216)))%R by ring.
  rewrite ET. assert (E9 : (16 * eps <= / 100000000)%R).
  { unfold eps. change 16%R with (bpow radix2 4). rewrite <- bpow_plus. change (bpow radix2 (4 + -53)) with (/ IZR (2 ^ 49))%R.
    apply Rinv_le; [lra|]. apply IZR_le. lia. }
  apply Rlt_le_trans with (IZR n + 1)%R; [|lra]. nra.
Qed.

(** D / (1.0 + (D * ((1.0/m) - (1.0/m)))) is D as a float, when m is a non-zero number *)
Lemma D_cut_rep D p mc a b : 0 <= D < 2 ^ 31 -> 0 < a <= 2 ^ 31 -> 0 < b <= 2 ^ 31 -> 0 < p <= 2 ^ 31 -> 0 < mc <= 2 ^ 31 ->
  srep (ieee_D_cut D p mc (a, b)) (rnd24 (IZR D)).
Proof.
  intros HD Ha Hb Hp Hmc. unfold ieee_D_cut, ieee_cut.
  assert (I : forall k, Z.abs k < 2 ^ 53 -> rep (of_int k) (IZR k)) by (intros; now apply of_int_rep).
  destruct (scaled_rep a b p mc) as (g & Rg & Ng); try lia.
  destruct (near_bounds 6 _ _ ltac:(lia) Ng) as (_ & B).
  assert (B2 : 0 < a * p <= 2 ^ 62) by nia. assert (B3 : 0 < a * p * mc <= 2 ^ 93) by (clear - B2 Hmc; nia).
  assert (Hb' : (0 < IZR b)%R) by (apply IZR_lt; lia).
  assert (L : (bpow radix2 (-31) <= IZR (a * p * mc) / IZR b)%R).
  { replace (bpow radix2 (-31)) with (/ IZR (2 ^ 31))%R by reflexivity.
    apply Rle_trans with (/ IZR b)%R; [apply Rinv_le; [auto|apply IZR_le; lia]|].
    unfold Rdiv. rewrite <- (Rmult_1_l (/ IZR b)) at 1. apply Rmult_le_compat_r; [left; now apply Rinv_0_lt_compat|].
    apply IZR_le. lia. }
  assert (Rs : srep (single_of_double (ieee_scaled (a, b) p mc)) (rnd24 g)).
  { apply single_of_double_rep; [auto|]. eapply near_big; [|exact Ng|apply frac_big; lia]. lia. }
  set (m := single_of_double (ieee_scaled (a, b) p mc)) in *.
  assert (Hf : (bpow radix2 (-32) <= rnd24 g)%R).
  { replace (bpow radix2 (-32)) with (rnd24 (dy 1 (-32))).
    - apply rnd24_le. unfold dy. rewrite Rmult_1_l. apply Rle_trans with (2 := proj1 B).
      apply Rle_trans with (bpow radix2 (-31) / 2)%R; [|lra]. apply Req_le. unfold Rdiv.
      change (/ 2)%R with (bpow radix2 (-1)). rewrite <- bpow_plus. reflexivity.
    - rewrite rnd24_dy by lia. unfold dy. ring. }
  set (f := rnd24 g) in *. pose proof (bp_pos (-32)) as P32.
  apply double_of_single_rep in Rs.
  assert (Hx : (Rabs (1 / f) <= big)%R).
  { rewrite Rabs_pos_eq by (apply Rmult_le_pos; [lra|left; apply Rinv_0_lt_compat; lra]).
    apply Rle_trans with (bpow radix2 32); [|apply bpow_le; lia].
    apply Rmult_le_reg_r with f; [lra|]. unfold Rdiv. rewrite Rmult_assoc, Rinv_l by lra.
    apply Rle_trans with (bpow radix2 32 * bpow radix2 (-32))%R.
    - rewrite <- bpow_plus. cbn. lra.
    - apply Rmult_le_compat_l; [apply bpow_ge_0|auto]. }
  assert (R1 : rep (ddiv (of_int 1) (double_of_single m)) (rnd (1 / f))).
  { apply ddiv_rep; [apply I; lia|exact Rs|lra|exact Hx]. }
  assert (R2 : rep (dsub (ddiv (of_int 1) (double_of_single m)) (ddiv (of_int 1) (double_of_single m))) (IZR 0)).
  { pose proof (dsub_rep _ _ _ _ R1 R1) as E. replace (rnd (1 / f) - rnd (1 / f))%R with 0%R in E by ring.
    rewrite (rnd_int 0) in E by lia. apply E. rewrite Rabs_R0. apply bpow_ge_0. }
  assert (R3 : rep (dmul (of_int D) (dsub (ddiv (of_int 1) (double_of_single m)) (ddiv (of_int 1) (double_of_single m)))) (IZR (D * 0))).
  { apply dmul_int; [apply I; lia|exact R2|lia]. }
  rewrite Z.mul_0_r in R3. pose proof (dadd_int _ _ 1 0 (I 1 ltac:(lia)) R3 ltac:(lia)) as R4. change (1 + 0) with 1 in R4.
  pose proof (ddiv_rep _ _ _ _ (I D ltac:(lia)) R4 ltac:(lra)) as R5.
  replace (IZR D / 1)%R with (IZR D) in R5 by field. rewrite rnd_int in R5 by lia.
  specialize (R5 (IZR_big D ltac:(lia))). apply single_of_double_rep; [exact R5|]. apply IZR_big. lia.
Qed.

Lemma D_cut_cmp D E p mc a b : 0 <= D < 2 ^ 24 -> 0 <= E < 2 ^ 31 -> 0 < a <= 2 ^ 31 -> 0 < b <= 2 ^ 31 ->
  0 < p <= 2 ^ 31 -> 0 < mc <= 2 ^ 31 ->
  Bleb (single_of_int E) (ieee_D_cut D p mc (a, b)) = (E <=? D).
Proof.
  intros HD HE Ha Hb Hp Hmc.
  rewrite (sleb_rep _ _ _ _ (single_of_int_rep E ltac:(lia)) (D_cut_rep D p mc a b ltac:(lia) Ha Hb Hp Hmc)).
  destruct (Z.leb_spec E D) as [L|L].
  - apply Rle_bool_true. apply rnd24_le. now apply IZR_le.
  - apply Rle_bool_false. rewrite (rnd24_int D) by lia. apply Rlt_le_trans with (IZR (D + 1)); [apply IZR_lt; lia|].
    rewrite <- (rnd24_int (D + 1)) by lia. apply rnd24_le. apply IZR_le. lia.
Qed.

(** alpha_n = 0: the cut-off is not a number *)
Lemma D_cut_zero D E p mc b : 0 <= D < 2 ^ 31 -> 0 < b <= 2 ^ 31 -> 0 < p <= 2 ^ 31 -> 0 < mc <= 2 ^ 31 ->
  Bleb (single_of_int E) (ieee_D_cut D p mc (0, b)) = false.
Proof.
  intros HD Hb Hp Hmc. unfold ieee_D_cut, ieee_cut.
  destruct (scaled_rep 0 b p mc) as (g & Rg & Ng); try lia.
  assert (g0 : g = 0%R).
  { destruct (near_bounds 6 _ _ ltac:(lia) Ng) as (_ & B). replace (IZR (0 * p * mc) / IZR b)%R with 0%R in B by (cbn; unfold Rdiv; ring). lra. }
  subst g. destruct (single_of_double_rep _ _ Rg ltac:(rewrite Rabs_R0; apply bpow_ge_0)) as (F & V).
  rewrite round_0 in V by auto with typeclass_instances.
  set (m := single_of_double (ieee_scaled (0, b) p mc)) in *.
  assert (Z : exists s, m = B754_zero s).
  { destruct m as [s|s| |s mm e HH]; try discriminate; [eauto|exfalso].
    cbn in V. apply eq_0_F2R in V. destruct s; discriminate. }
  destruct Z as (s & ->). cbn [double_of_single].
  replace (dsub (ddiv (of_int 1) (B754_zero s)) (ddiv (of_int 1) (B754_zero s))) with (B754_nan : double).
  2:{ destruct s; vm_compute; reflexivity. }
  replace (dmul (of_int D) B754_nan) with (B754_nan : double) by (destruct (of_int D) as [| | |[] ? ? ?]; reflexivity).
  replace (dadd (of_int 1) B754_nan) with (B754_nan : double) by reflexivity.
  replace (ddiv (of_int D) B754_nan) with (B754_nan : double) by (destruct (of_int D) as [| | |[] ? ? ?]; reflexivity).
  cbn [single_of_double]. unfold Bleb, SpecFloat.SFleb. now destruct (single_of_int E).
Qed.

(** ** The schedule *)

(** K(k + D) <= 2Dk, with k = p*m_c *)
Definition k_small (D K k : Z) : bool := K * (k + D) <=? 2 * D * k.

Lemma first_exact D E K p mc a b :
  0 < D < 2 ^ 24 -> 0 <= E < 2 ^ 31 -> 0 <= K <= 2 ^ 24 -> 0 < a <= 2 ^ 31 -> 0 < b <= 2 ^ 31 ->
  0 < p <= 2 ^ 31 -> 0 < mc <= 2 ^ 31 -> p * mc <= 2 ^ 24 -> D * (p * mc) <= 2 ^ 22 ->
  ieee_first D E K p mc (a, b) = (E <=? D) && k_small D K (p * mc).
Proof.
  intros HD HE HK Ha Hb Hp Hmc HP HB. unfold ieee_first. rewrite D_cut_cmp by lia. f_equal.
  unfold k_small. destruct (Z.leb_spec (K * (p * mc + D)) (2 * D * (p * mc))) as [L|L].
  - apply K_cut_le; nia.
  - apply K_cut_gt; nia.
Qed.

Lemma first_zero D E K p mc b : 0 <= D < 2 ^ 31 -> 0 < b <= 2 ^ 31 -> 0 < p <= 2 ^ 31 -> 0 < mc <= 2 ^ 31 ->
  ieee_first D E K p mc (0, b) = false.
Proof. intros. unfold ieee_first. now rewrite D_cut_zero by auto. Qed.
