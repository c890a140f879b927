(** * Facts about the double-precision arithmetic. *)

From Coq Require Import ZArith Reals Bool Lia Lra.
From Flocq Require Import Core BinarySingleNaN Relative.
From Verif Require Import SpecTop ModelSizing ModelDouble.
Open Scope Z_scope.

Notation fexp64 := (SpecFloat.fexp 53 1024).
Notation rnd := (round radix2 fexp64 ZnearestE).

Global Instance valid64 : Valid_exp fexp64.
Proof. apply fexp_correct. exact prec53. Qed.

(** ** Which real number a double is *)

Definition rep (x : double) (r : R) : Prop := is_finite x = true /\ B2R x = r.

(** integers up to 2^53, and powers of 2, are doubles *)
Lemma int_format n : Z.abs n < 2 ^ 53 -> generic_format radix2 fexp64 (IZR n).
Proof.
  intros Hn. change fexp64 with (FLT_exp (-1074) 53). apply generic_format_FLT.
  exists (Float radix2 n 0); cbn [Fnum Fexp]; [|exact Hn|lia].
  unfold F2R. cbn. now rewrite Rmult_1_r.
Qed.

Lemma bpow_format e : -1074 <= e -> generic_format radix2 fexp64 (bpow radix2 e).
Proof.
  intros He. change fexp64 with (FLT_exp (-1074) 53). apply generic_format_FLT.
  exists (Float radix2 1 e); cbn [Fnum Fexp]; [|reflexivity|exact He].
  unfold F2R. cbn. now rewrite Rmult_1_l.
Qed.

Definition big : R := bpow radix2 100.

Lemma rnd_big r : (Rabs r <= big)%R -> (Rabs (rnd r) < bpow radix2 1024)%R.
Proof.
  intros H. apply Rle_lt_trans with big.
  - apply abs_round_le_generic; auto with typeclass_instances. apply bpow_format. lia.
  - apply bpow_lt. lia.
Qed.

Lemma of_int_rep n : Z.abs n < 2 ^ 53 -> rep (of_int n) (IZR n).
Proof.
  intros Hn. unfold of_int, rep.
  pose proof (binary_normalize_correct 53 1024 prec53 emax1024 mode_NE n 0 false) as H. cbv zeta in H.
  replace (F2R {| Fnum := n; Fexp := 0 |}) with (IZR n) in H by (unfold F2R; cbn; lra).
  cbn [round_mode] in H. rewrite (round_generic radix2 fexp64 ZnearestE (IZR n)) in H by (now apply int_format).
  rewrite Rlt_bool_true in H; [tauto|].
  apply Rlt_trans with (bpow radix2 53); [|apply bpow_lt; lia].
  rewrite <- abs_IZR. change (bpow radix2 53) with (IZR (2 ^ 53)). now apply IZR_lt.
Qed.

Lemma ddiv_rep x y a b : rep x a -> rep y b -> b <> 0%R -> (Rabs (a / b) <= big)%R -> rep (ddiv x y) (rnd (a / b)).
Proof.
  intros (F1 & <-) (F2 & <-) Hb H. unfold ddiv, rep.
  pose proof (Bdiv_correct 53 1024 prec53 emax1024 mode_NE x y Hb) as E. cbn [round_mode] in E.
  rewrite Rlt_bool_true in E by (now apply rnd_big). destruct E as (E1 & E2 & _). split; [congruence|auto].
Qed.

Lemma dmul_rep x y a b : rep x a -> rep y b -> (Rabs (a * b) <= big)%R -> rep (dmul x y) (rnd (a * b)).
Proof.
  intros (F1 & <-) (F2 & <-) H. unfold dmul, rep.
  pose proof (Bmult_correct 53 1024 prec53 emax1024 mode_NE x y) as E. cbn [round_mode] in E.
  rewrite Rlt_bool_true in E by (now apply rnd_big). destruct E as (E1 & E2 & _).
  split; [now rewrite E2, F1, F2|auto].
Qed.

Lemma dadd_rep x y a b : rep x a -> rep y b -> (Rabs (a + b) <= big)%R -> rep (dadd x y) (rnd (a + b)).
Proof.
  intros (F1 & <-) (F2 & <-) H. unfold dadd, rep.
  pose proof (Bplus_correct 53 1024 prec53 emax1024 mode_NE x y F1 F2) as E. cbn [round_mode] in E.
  rewrite Rlt_bool_true in E by (now apply rnd_big). destruct E as (E1 & E2 & _). auto.
Qed.

Lemma dsqrt_rep x a : rep x a -> (0 <= a)%R -> rep (dsqrt x) (rnd (sqrt a)).
Proof.
  intros (F1 & <-) Ha. unfold dsqrt, rep.
  destruct (Bsqrt_correct 53 1024 prec53 emax1024 mode_NE x) as (E1 & E2 & _). cbn [round_mode] in E1.
  split; [|auto]. rewrite E2. destruct x as [s|s| |s m e H]; try discriminate; [auto|].
  destruct s; [|auto]. exfalso. cbn in Ha.
  pose proof (F2R_lt_0 radix2 (Float radix2 (Z.neg m) e) ltac:(reflexivity)). cbn in *. lra.
Qed.

Lemma round_FIX0 (r : R) f {H : Valid_rnd f} : round radix2 (FIX_exp 0) f r = IZR (f r).
Proof.
  unfold round, scaled_mantissa, cexp, FIX_exp, F2R. cbn. now rewrite !Rmult_1_r.
Qed.

Lemma dceil_rep x a : rep x a -> rep (dceil x) (IZR (Zceil a)).
Proof.
  intros (F1 & <-). unfold dceil, rep.
  destruct (Bnearbyint_correct 53 1024 emax1024 mode_UP x) as (E1 & E2 & _).
  split; [congruence|]. rewrite E1. cbn [round_mode]. apply round_FIX0. auto with typeclass_instances.
Qed.

Lemma to_int_rep x a : rep x a -> - 2 ^ 31 <= Ztrunc a < 2 ^ 31 -> to_int x = Some (Ztrunc a).
Proof.
  intros (F1 & <-) H. unfold to_int. rewrite F1.
  assert (E : Btrunc x = Ztrunc (B2R x)).
  { apply eq_IZR. rewrite Btrunc_correct by exact emax1024. apply round_FIX0. auto with typeclass_instances. }
  rewrite E. destruct (Z.leb_spec (- 2 ^ 31) (Ztrunc (B2R x))); [|lia].
  destruct (Z.ltb_spec (Ztrunc (B2R x)) (2 ^ 31)); [reflexivity|lia].
Qed.

(** ** Relative error *)

Lemma rnd_error r : (bpow radix2 (-1000) <= Rabs r)%R -> (Rabs (rnd r - r) <= bpow radix2 (-53) * Rabs r)%R.
Proof.
  intros H. change fexp64 with (FLT_exp (-1074) 53).
  eapply Rle_trans; [apply relative_error_N_FLT; [lia|]|].
  - eapply Rle_trans; [|exact H]. apply bpow_le. lia.
  - apply Req_le. f_equal. change (/ 2)%R with (bpow radix2 (-1)). rewrite <- bpow_plus. reflexivity.
Qed.

Lemma rnd_int n : Z.abs n < 2 ^ 53 -> rnd (IZR n) = IZR n.
Proof. intros H. apply round_generic; auto with typeclass_instances. now apply int_format. Qed.

Lemma rnd_le a b : (a <= b)%R -> (rnd a <= rnd b)%R.
Proof. apply round_le; auto with typeclass_instances. Qed.

(** ** The ceiling division *)

Lemma ceil_div_real a b : 0 <= a -> 0 < b ->
  (IZR (ceil_div a b) - 1 + / IZR b <= IZR a / IZR b <= IZR (ceil_div a b))%R.
Proof.
  intros Ha Hb. unfold ceil_div. set (q := (a + b - 1) / b).
  pose proof (Z.div_mod (a + b - 1) b ltac:(lia)) as D. pose proof (Z.mod_pos_bound (a + b - 1) b Hb) as B.
  fold q in D.
  assert (H1 : a <= q * b) by lia. assert (H2 : (q - 1) * b + 1 <= a) by nia.
  apply IZR_le in H1, H2. rewrite mult_IZR in H1. rewrite plus_IZR, mult_IZR, minus_IZR in H2.
  assert (Hb' : (0 < IZR b)%R) by (apply IZR_lt; auto).
  split.
  - apply Rmult_le_reg_r with (IZR b); [auto|]. field_simplify; [|lra|lra]. lra.
  - apply Rmult_le_reg_r with (IZR b); [auto|]. field_simplify; [|lra]. lra.
Qed.

Lemma ceil_double_spec a b : 0 <= a < 2 ^ 31 -> 0 < b < 2 ^ 31 -> ceil_double a b = Some (ceil_div a b).
Proof.
  intros Ha Hb.
  assert (Hq : 0 <= ceil_div a b <= a).
  { unfold ceil_div. split; [apply Z.div_pos; lia|]. destruct (Z.eq_dec a 0) as [->|].
    - rewrite Z.div_small; lia.
    - apply Z.div_le_upper_bound; [lia|]. nia. }
  pose proof (ceil_div_real a b ltac:(lia) ltac:(lia)) as HR. set (q := ceil_div a b) in *.
  assert (Hb' : (0 < IZR b)%R) by (apply IZR_lt; lia).
  assert (Hb2 : (IZR b <= IZR (2 ^ 31))%R) by (apply IZR_le; lia).
  assert (Ha' : (0 <= IZR a)%R) by (apply IZR_le; lia).
  assert (Ha2 : (IZR a <= IZR (2 ^ 31))%R) by (apply IZR_le; lia).
  set (x := (IZR a / IZR b)%R) in *.
  assert (Hx0 : (0 <= x)%R).
  { unfold x, Rdiv. apply Rmult_le_pos; [auto|]. left. now apply Rinv_0_lt_compat. }
  assert (Hxb : (Rabs x <= big)%R).
  { rewrite Rabs_pos_eq by auto. apply Rle_trans with (IZR q); [lra|].
    apply Rle_trans with (IZR (2 ^ 31)); [apply IZR_le; lia|].
    change (IZR (2 ^ 31)) with (bpow radix2 31). apply bpow_le. lia. }
  assert (Hrep : rep (dceil (ddiv (of_int a) (of_int b))) (IZR (Zceil (rnd x)))).
  { apply dceil_rep. apply ddiv_rep; auto; try (apply of_int_rep; lia). lra. }
  assert (E : Zceil (rnd x) = q).
  { apply Zceil_imp. split.
    - destruct (Z.eq_dec a 0) as [E0|E0].
      + assert (x = 0)%R as -> by (unfold x; rewrite E0; unfold Rdiv; lra).
        rewrite round_0 by auto with typeclass_instances. apply IZR_lt. subst a. lia.
      + assert (Hxl : (/ IZR b <= x)%R).
        { unfold x, Rdiv. rewrite <- (Rmult_1_l (/ IZR b)) at 1. apply Rmult_le_compat_r.
          - left. now apply Rinv_0_lt_compat.
          - apply IZR_le. lia. }
        assert (Hib : (bpow radix2 (-31) <= / IZR b)%R).
        { change (bpow radix2 (-31)) with (/ IZR (2 ^ 31))%R. apply Rinv_le; auto. }
        pose proof (rnd_error x) as He. rewrite Rabs_pos_eq in He by auto.
        specialize (He ltac:(eapply Rle_trans; [apply (bpow_le radix2 (-1000) (-31)); lia|lra])).
        assert (Herr : (bpow radix2 (-53) * x < / IZR b)%R).
        { unfold x, Rdiv. rewrite <- Rmult_assoc. rewrite <- (Rmult_1_l (/ IZR b)) at 2.
          apply Rmult_lt_compat_r; [now apply Rinv_0_lt_compat|].
          apply Rle_lt_trans with (bpow radix2 (-53) * IZR (2 ^ 31))%R.
          - apply Rmult_le_compat_l; [apply bpow_ge_0|auto].
          - change (IZR (2 ^ 31)) with (bpow radix2 31). rewrite <- bpow_plus.
            change 1%R with (bpow radix2 0). apply bpow_lt. lia. }
        rewrite minus_IZR. apply Rabs_le_inv in He. lra.
    - rewrite <- (rnd_int q) by lia. apply rnd_le. lra. }
  unfold ceil_double. rewrite E in Hrep.
  rewrite (to_int_rep _ _ Hrep); rewrite Ztrunc_IZR; [reflexivity|lia].
Qed.

(** the model's ceiling division is the one the doubles compute *)
Lemma iceil_double a b : 0 <= a < 2 ^ 31 -> 0 < b < 2 ^ 31 -> iceil a b = ofopt (ceil_double a b).
Proof.
  intros Ha Hb. rewrite ceil_double_spec by auto. unfold iceil. destruct (Z.eqb_spec b 0); [lia|].
  cbn. f_equal. unfold ceil_div.
  pose proof (Z.div_mod (a + b - 1) b ltac:(lia)). pose proof (Z.mod_pos_bound (a + b - 1) b ltac:(lia)).
  pose proof (Z.div_mod (- a) b ltac:(lia)). pose proof (Z.mod_pos_bound (- a) b ltac:(lia)). nia.
Qed.
