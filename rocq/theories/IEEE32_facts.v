(** * Single precision: conversions, the scaled products, and the k_c bound. *)

From Coq Require Import ZArith Reals Bool Lia Lra.
From Flocq Require Import Core BinarySingleNaN Relative.
From Verif Require Import SpecTop ModelSizing ModelDouble ModelIEEE Double_facts IEEE_facts.
Open Scope Z_scope.

Notation fexp32 := (SpecFloat.fexp 24 128).
Notation rnd24 := (round radix2 fexp32 ZnearestE).

Global Instance valid32 : Valid_exp fexp32.
Proof. apply fexp_correct. exact prec24. Qed.

Global Instance monotone32 : Monotone_exp fexp32.
Proof. intros a b H. unfold SpecFloat.fexp, SpecFloat.emin. lia. Qed.

Definition srep (x : single) (r : R) : Prop := is_finite x = true /\ B2R x = r.

Lemma sdy_format m e : Z.abs m < 2 ^ 24 -> -149 <= e -> generic_format radix2 fexp32 (dy m e).
Proof.
  intros Hm He. change fexp32 with (FLT_exp (-149) 24). apply generic_format_FLT.
  exists (Float radix2 m e); cbn [Fnum Fexp]; [reflexivity|exact Hm|exact He].
Qed.

Lemma dy0 n : dy n 0 = IZR n.
Proof. unfold dy. cbn [bpow]. ring. Qed.

Lemma sint_format n : Z.abs n <= 2 ^ 24 -> generic_format radix2 fexp32 (IZR n).
Proof.
  intros H. destruct (Z.eq_dec (Z.abs n) (2 ^ 24)) as [E|E].
  - assert (Hn : n = 2 * (n / 2)).
    { destruct (Z.abs_eq_cases n (2 ^ 24) ltac:(lia)) as [-> | ->]; reflexivity. }
    rewrite Hn. replace (IZR (2 * (n / 2))) with (dy (n / 2) 1) by (unfold dy; rewrite mult_IZR; cbn; ring).
    apply sdy_format; lia.
  - rewrite <- dy0. apply sdy_format; lia.
Qed.

Lemma rnd24_int n : Z.abs n <= 2 ^ 24 -> rnd24 (IZR n) = IZR n.
Proof. intros. apply round_generic; auto with typeclass_instances. now apply sint_format. Qed.

Lemma rnd24_dy m e : Z.abs m < 2 ^ 24 -> -149 <= e -> rnd24 (dy m e) = dy m e.
Proof. intros. apply round_generic; auto with typeclass_instances. now apply sdy_format. Qed.

Lemma rnd24_le a b : (a <= b)%R -> (rnd24 a <= rnd24 b)%R.
Proof. apply round_le; auto with typeclass_instances. Qed.

Lemma rnd24_big r : (Rabs r <= big)%R -> (Rabs (rnd24 r) < bpow radix2 128)%R.
Proof.
  intros H. apply Rle_lt_trans with big.
  - apply abs_round_le_generic; auto with typeclass_instances.
    replace big with (dy 1 100) by (unfold dy, big; ring). apply sdy_format; lia.
  - apply bpow_lt. lia.
Qed.

Lemma rnd24_error r : (bpow radix2 (-120) <= Rabs r)%R -> (Rabs (rnd24 r - r) <= bpow radix2 (-24) * Rabs r)%R.
Proof.
  intros H. change fexp32 with (FLT_exp (-149) 24).
  eapply Rle_trans; [apply relative_error_N_FLT; [lia|]|].
  - eapply Rle_trans; [|exact H]. apply bpow_le. lia.
  - apply Req_le. f_equal. change (/ 2)%R with (bpow radix2 (-1)). rewrite <- bpow_plus. reflexivity.
Qed.

(** ** Conversions *)

Lemma single_of_int_rep n : Z.abs n < 2 ^ 100 -> srep (single_of_int n) (rnd24 (IZR n)).
Proof.
  intros Hn. unfold single_of_int, srep.
  pose proof (binary_normalize_correct 24 128 prec24 emax128 mode_NE n 0 false) as H. cbv zeta in H.
  replace (F2R {| Fnum := n; Fexp := 0 |}) with (IZR n) in H by (unfold F2R; cbn; lra).
  cbn [round_mode] in H. rewrite Rlt_bool_true in H; [tauto|]. apply rnd24_big. now apply IZR_big.
Qed.

Lemma single_of_double_rep x r : rep x r -> (Rabs r <= big)%R -> srep (single_of_double x) (rnd24 r).
Proof.
  intros (F & <-) Hb. unfold srep. destruct x as [s|s| |s m e B]; try discriminate; cbn [single_of_double].
  - split; [reflexivity|]. cbn. now rewrite round_0 by auto with typeclass_instances.
  - pose proof (binary_normalize_correct 24 128 prec24 emax128 mode_NE (cond_Zopp s (Zpos m)) e s) as H. cbv zeta in H.
    cbn [round_mode] in H. cbn [B2R] in *. rewrite Rlt_bool_true in H; [tauto|]. now apply rnd24_big.
Qed.

Lemma double_of_single_rep x r : srep x r -> rep (double_of_single x) r.
Proof.
  intros (F & <-). unfold rep. destruct x as [s|s| |s m e B]; try discriminate; cbn [double_of_single].
  - now split.
  - pose proof (binary_normalize_correct 53 1024 prec53 emax1024 mode_NE (cond_Zopp s (Zpos m)) e s) as H. cbv zeta in H.
    cbn [round_mode] in H. cbn [B2R].
    assert (M : Zpos m < 2 ^ 24 /\ -149 <= e <= 104).
    { clear H F. unfold SpecFloat.bounded in B. apply andb_prop in B. destruct B as (B1 & B2). apply Zle_bool_imp_le in B2.
      unfold SpecFloat.canonical_mantissa in B1. apply Zeq_bool_eq in B1.
      unfold SpecFloat.fexp, SpecFloat.emin in B1. rewrite Digits.Zpos_digits2_pos in B1.
      pose proof (Digits.Zdigits_correct radix2 (Zpos m)) as D. cbn [Z.abs] in D. change (radix_val radix2) with 2 in D.
      assert (Digits.Zdigits radix2 (Zpos m) <= 24) by lia.
      pose proof (Z.pow_le_mono_r 2 (Digits.Zdigits radix2 (Zpos m)) 24 ltac:(lia) ltac:(lia)). lia. }
    assert (R0 : rnd (F2R (Float radix2 (cond_Zopp s (Zpos m)) e)) = F2R (Float radix2 (cond_Zopp s (Zpos m)) e)).
    { unfold F2R. cbn [Fnum Fexp]. apply rnd_dyadic; [|lia]. destruct s; cbn; lia. }
    rewrite R0 in H. rewrite Rlt_bool_true in H; [tauto|].
    unfold F2R. cbn [Fnum Fexp]. rewrite Rabs_mult, <- abs_IZR, (Rabs_pos_eq (bpow radix2 e)) by apply bpow_ge_0.
    apply Rle_lt_trans with (bpow radix2 24 * bpow radix2 104)%R.
    + apply Rmult_le_compat; [apply IZR_le; lia|apply bpow_ge_0| |apply bpow_le; lia].
      change (bpow radix2 24) with (IZR (2 ^ 24)). apply IZR_le. destruct s; cbn; lia.
    + rewrite <- bpow_plus. apply bpow_lt. lia.
Qed.

Lemma sdiv_rep x y a b : srep x a -> srep y b -> b <> 0%R -> (Rabs (a / b) <= big)%R -> srep (sdiv x y) (rnd24 (a / b)).
Proof.
  intros (F1 & <-) (F2 & <-) Hb H. unfold sdiv, srep.
  pose proof (Bdiv_correct 24 128 prec24 emax128 mode_NE x y Hb) as E. cbn [round_mode] in E.
  rewrite Rlt_bool_true in E by (now apply rnd24_big). destruct E as (E1 & E2 & _). split; [congruence|auto].
Qed.

Lemma ssub_rep x y a b : srep x a -> srep y b -> (Rabs (a - b) <= big)%R -> srep (ssub x y) (rnd24 (a - b)).
Proof.
  intros (F1 & <-) (F2 & <-) H. unfold ssub, srep.
  pose proof (Bminus_correct 24 128 prec24 emax128 mode_NE x y F1 F2) as E. cbn [round_mode] in E.
  rewrite Rlt_bool_true in E by (now apply rnd24_big). destruct E as (E1 & E2 & _). auto.
Qed.

Lemma dsub_rep x y a b : rep x a -> rep y b -> (Rabs (a - b) <= big)%R -> rep (dsub x y) (rnd (a - b)).
Proof.
  intros (F1 & <-) (F2 & <-) H. unfold dsub, rep.
  pose proof (Bminus_correct 53 1024 prec53 emax1024 mode_NE x y F1 F2) as E. cbn [round_mode] in E.
  rewrite Rlt_bool_true in E by (now apply rnd_big). destruct E as (E1 & E2 & _). auto.
Qed.

(** ** The bound on k_c *)

Lemma kcmax_spec L1 mr nr n : 0 < mr -> 0 < nr -> 0 <= L1 < 2 ^ 24 -> 0 <= n ->
  4 * (n * (mr + nr) + mr * nr) <= L1 < 4 * ((n + 1) * (mr + nr) + mr * nr) ->
  ieee_kcmax L1 mr nr = Some n.
Proof.
  intros Hmr Hnr HL Hn (Hlo & Hhi). unfold ieee_kcmax, int_of_single.
  assert (I : forall k, Z.abs k < 2 ^ 24 -> srep (single_of_int k) (IZR k)).
  { intros k Hk. rewrite <- (rnd24_int k) by lia. apply single_of_int_rep. lia. }
  set (s := mr + nr) in *. set (d := mr * nr) in *. assert (Hd : 0 < d) by (unfold d; nia). assert (Hs : 0 < s) by (unfold s; lia).
  assert (Hds : s <= d + 1) by (unfold s, d; nia).
  assert (Hd2 : 4 * d <= L1) by nia.
  assert (H1 : srep (sdiv (single_of_int L1) (single_of_int 4)) (dy L1 (-2))).
  { pose proof (sdiv_rep _ _ _ _ (I L1 ltac:(lia)) (I 4 ltac:(lia))) as E.
    replace (IZR L1 / 4)%R with (dy L1 (-2)) in E by (unfold dy; change (bpow radix2 (-2)) with (/ 4)%R; field).
    rewrite rnd24_dy in E by lia. apply E; [lra|]. apply dy_big; lia. }
  assert (H2 : srep (ssub (sdiv (single_of_int L1) (single_of_int 4)) (single_of_int d)) (dy (L1 - 4 * d) (-2))).
  { pose proof (ssub_rep _ _ _ _ H1 (I d ltac:(lia))) as E.
    replace (dy L1 (-2) - IZR d)%R with (dy (L1 - 4 * d) (-2)) in E
      by (unfold dy; rewrite minus_IZR, mult_IZR; change (bpow radix2 (-2)) with (/ 4)%R; field).
    rewrite rnd24_dy in E by lia. apply E. apply dy_big; lia. }
  assert (Hs' : (0 < IZR s)%R) by (apply IZR_lt; lia).
  set (y := (dy (L1 - 4 * d) (-2) / IZR s)%R).
  assert (Ey : (y * (4 * IZR s) = IZR (L1 - 4 * d))%R).
  { unfold y, dy. change (bpow radix2 (-2)) with (/ 4)%R. field. lra. }
  assert (Hnum : (0 <= IZR (L1 - 4 * d) < bpow radix2 24)%R).
  { change (bpow radix2 24) with (IZR (2 ^ 24)). split; [apply IZR_le|apply IZR_lt]; lia. }
  assert (Hs1 : (1 <= IZR s)%R) by (apply IZR_le; lia).
  assert (y0 : (0 <= y)%R) by nra.
  assert (yb : (y <= bpow radix2 24)%R) by nra.
  assert (H3 : srep (sdiv (ssub (sdiv (single_of_int L1) (single_of_int 4)) (single_of_int d)) (single_of_int s)) (rnd24 y)).
  { apply sdiv_rep; [exact H2|apply I; lia|lra|]. fold y. rewrite Rabs_pos_eq by auto.
    apply Rle_trans with (1 := yb). apply bpow_le. lia. }
  assert (Hn24 : n < 2 ^ 24) by nia.
  assert (LO : (IZR n <= rnd24 y)%R).
  { rewrite <- (rnd24_int n) by lia. apply rnd24_le. assert (Q : 4 * (n * s) <= L1 - 4 * d) by lia.
    apply IZR_le in Q. rewrite !mult_IZR in Q. nra. }
  assert (HI : (rnd24 y < IZR n + 1)%R).
  { assert (Q : L1 - 4 * d + 1 <= 4 * ((n + 1) * s)) by lia. apply IZR_le in Q. rewrite plus_IZR, !mult_IZR, plus_IZR in Q.
    destruct (Z.eq_dec (L1 - 4 * d) 0) as [E0|E0].
    - assert (y = 0)%R as -> by (unfold y, dy; rewrite E0; unfold Rdiv; ring).
      rewrite round_0 by auto with typeclass_instances. assert (0 <= IZR n)%R by (apply IZR_le; lia). lra.
    - assert (O1 : (1 <= IZR (L1 - 4 * d))%R) by (apply IZR_le; lia).
      assert (S24 : (IZR s <= bpow radix2 24)%R) by (change (bpow radix2 24) with (IZR (2 ^ 24)); apply IZR_le; lia).
      assert (yl : (bpow radix2 (-120) <= y)%R).
      { apply Rmult_le_reg_r with (4 * IZR s)%R; [lra|]. rewrite Ey.
        apply Rle_trans with (bpow radix2 (-120) * (4 * bpow radix2 24))%R.
        - apply Rmult_le_compat_l; [apply bpow_ge_0|lra].
        - change 4%R with (bpow radix2 2). rewrite <- !bpow_plus. apply Rle_trans with (2 := O1).
          change 1%R with (bpow radix2 0). apply bpow_le. lia. }
      pose proof (rnd24_error y) as E. rewrite Rabs_pos_eq in E by auto. specialize (E yl). apply Rabs_le_inv in E.
      assert (G : (bpow radix2 (-24) * y * (4 * IZR s) < 1)%R).
      { rewrite Rmult_assoc, Ey. apply Rlt_le_trans with (bpow radix2 (-24) * bpow radix2 24)%R.
        - apply Rmult_lt_compat_l; [apply bpow_gt_0|lra].
        - rewrite <- bpow_plus. apply Rle_refl. }
      apply Rmult_lt_reg_r with (4 * IZR s)%R; [lra|]. nra. }
  eapply to_int_floor; [apply double_of_single_rep; exact H3| |apply Zfloor_imp; rewrite plus_IZR; split; [exact LO|exact HI]|lia].
  apply Rle_trans with (IZR n); [apply IZR_le; lia|auto].
Qed.

Lemma kcmax_greatest L1 mr nr : 0 < mr -> 0 < nr -> 4 * (mr * nr) <= L1 < 2 ^ 24 ->
  exists n, ieee_kcmax L1 mr nr = Some n /\ 0 <= n /\
    4 * (n * (mr + nr) + mr * nr) <= L1 < 4 * ((n + 1) * (mr + nr) + mr * nr).
Proof.
  intros Hmr Hnr HL. set (s := mr + nr). assert (0 < s) by (unfold s; lia). set (n := (L1 - 4 * (mr * nr)) / (4 * s)).
  assert (0 <= n) by (apply Z.div_pos; lia).
  pose proof (Z.div_mod (L1 - 4 * (mr * nr)) (4 * s) ltac:(lia)) as DM.
  pose proof (Z.mod_pos_bound (L1 - 4 * (mr * nr)) (4 * s) ltac:(lia)). fold n in DM.
  assert (B : 4 * (n * s + mr * nr) <= L1 < 4 * ((n + 1) * s + mr * nr)) by lia.
  exists n. split; [|auto]. apply kcmax_spec; auto. nia.
Qed.
