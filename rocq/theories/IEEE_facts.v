(** * What the floating-point expressions of the sizing code compute. *)

From Coq Require Import ZArith Reals Bool Lia Lra.
From Flocq Require Import Core BinarySingleNaN Relative.
From Verif Require Import SpecTop ModelSizing ModelDouble ModelIEEE Double_facts.
Open Scope Z_scope.

Global Instance monotone64 : Monotone_exp fexp64.
Proof. intros a b H. unfold SpecFloat.fexp, SpecFloat.emin. lia. Qed.

Lemma rnd_abs k r : -1000 <= k -> (Rabs r <= bpow radix2 k)%R -> (Rabs (rnd r - r) <= bpow radix2 (k - 53))%R.
Proof.
  intros Hk Hr. eapply Rle_trans; [apply error_le_half_ulp; auto with typeclass_instances|].
  replace (bpow radix2 (k - 53)) with (/ 2 * bpow radix2 (k + 1 - 53))%R.
  2:{ change (/ 2)%R with (bpow radix2 (-1)). rewrite <- bpow_plus. f_equal. lia. }
  apply Rmult_le_compat_l; [lra|].
  eapply Rle_trans; [apply ulp_le with (y := bpow radix2 k); auto with typeclass_instances|].
  - rewrite (Rabs_pos_eq (bpow radix2 k)); [auto|apply bpow_ge_0].
  - rewrite ulp_bpow. apply bpow_le. unfold SpecFloat.fexp, SpecFloat.emin. lia.
Qed.

Lemma bp_pos e : (0 < bpow radix2 e)%R.
Proof. apply bpow_gt_0. Qed.

(** integers, halves, … : m * 2^e *)
Lemma dyadic_format m e : Z.abs m < 2 ^ 53 -> -1074 <= e -> generic_format radix2 fexp64 (IZR m * bpow radix2 e).
Proof.
  intros Hm He. change fexp64 with (FLT_exp (-1074) 53). apply generic_format_FLT.
  exists (Float radix2 m e); cbn [Fnum Fexp]; [reflexivity|exact Hm|exact He].
Qed.

Lemma rnd_dyadic m e : Z.abs m < 2 ^ 53 -> -1074 <= e -> rnd (IZR m * bpow radix2 e) = (IZR m * bpow radix2 e)%R.
Proof. intros. apply round_generic; auto with typeclass_instances. now apply dyadic_format. Qed.

Lemma IZR_big m : Z.abs m < 2 ^ 100 -> (Rabs (IZR m) <= big)%R.
Proof.
  intros H. unfold big. change (bpow radix2 100) with (IZR (2 ^ 100)). rewrite <- abs_IZR. apply IZR_le. lia.
Qed.

(** exact products, sums and quotients by a power of 2 *)
Lemma dmul_int x y m n : rep x (IZR m) -> rep y (IZR n) -> Z.abs (m * n) < 2 ^ 53 -> rep (dmul x y) (IZR (m * n)).
Proof.
  intros Hx Hy H. pose proof (dmul_rep x y _ _ Hx Hy) as E. rewrite <- mult_IZR in E.
  rewrite rnd_int in E by auto. apply E. apply IZR_big. lia.
Qed.

Lemma dadd_int x y m n : rep x (IZR m) -> rep y (IZR n) -> Z.abs (m + n) < 2 ^ 53 -> rep (dadd x y) (IZR (m + n)).
Proof.
  intros Hx Hy H. pose proof (dadd_rep x y _ _ Hx Hy) as E. rewrite <- plus_IZR in E.
  rewrite rnd_int in E by auto. apply E. apply IZR_big. lia.
Qed.

(** n * 2^e *)
Definition dy (n e : Z) : R := (IZR n * bpow radix2 e)%R.

Lemma rnd_dy n e : Z.abs n < 2 ^ 53 -> -1074 <= e -> rnd (dy n e) = dy n e.
Proof. apply rnd_dyadic. Qed.

Lemma dy_big n e : Z.abs n < 2 ^ 53 -> -1000 <= e <= 0 -> (Rabs (dy n e) <= big)%R.
Proof.
  intros Hn He. unfold dy. rewrite Rabs_mult, (Rabs_pos_eq (bpow radix2 e)) by apply bpow_ge_0.
  apply Rle_trans with (Rabs (IZR n) * 1)%R.
  - apply Rmult_le_compat_l; [apply Rabs_pos|]. change 1%R with (bpow radix2 0). apply bpow_le. lia.
  - rewrite Rmult_1_r. apply IZR_big. lia.
Qed.

Lemma ddiv_pow2 x y m e k : 0 <= k < 50 -> -900 <= e <= 0 -> rep x (dy m e) -> rep y (IZR (2 ^ k)) -> Z.abs m < 2 ^ 53 ->
  rep (ddiv x y) (dy m (e - k)).
Proof.
  intros Hk He Hx Hy Hm.
  assert (E : (dy m e / IZR (2 ^ k) = dy m (e - k))%R).
  { unfold dy, Rdiv. change 2 with (radix_val radix2) at 1. rewrite IZR_Zpower by lia. rewrite <- bpow_opp.
    rewrite Rmult_assoc, <- bpow_plus. f_equal. }
  pose proof (ddiv_rep x y _ _ Hx Hy) as D. rewrite E in D. rewrite rnd_dy in D by lia. apply D; [|apply dy_big; lia].
  apply not_eq_sym, Rlt_not_eq, IZR_lt. apply Z.pow_pos_nonneg; lia.
Qed.

Lemma dmul_dy x y m n e : -1000 <= e <= 0 -> rep x (IZR m) -> rep y (dy n e) -> Z.abs (m * n) < 2 ^ 53 ->
  rep (dmul x y) (dy (m * n) e).
Proof.
  intros He Hx Hy H. pose proof (dmul_rep x y _ _ Hx Hy) as E.
  replace (IZR m * dy n e)%R with (dy (m * n) e) in E by (unfold dy; rewrite mult_IZR; ring).
  rewrite rnd_dy in E by lia. apply E. apply dy_big; lia.
Qed.

(** ** Square roots *)

Lemma rnd_sqrt_lo D T : 0 <= T < 2 ^ 53 -> (IZR T * IZR T <= D)%R -> (IZR T <= rnd (sqrt D))%R.
Proof.
  intros HT HD. rewrite <- (rnd_int T) at 1 by lia. apply rnd_le.
  rewrite <- (sqrt_square (IZR T)) by (apply IZR_le; lia). apply sqrt_le_1_alt. exact HD.
Qed.

(** a margin of [g] below T*T leaves one of g/(2T) - 2^-33 below T *)
Lemma rnd_sqrt_hi D T g : 0 < T <= 2 ^ 20 -> (0 <= D)%R -> (0 <= g)%R -> (D <= IZR T * IZR T - g)%R ->
  (rnd (sqrt D) <= IZR T - g / (2 * IZR T) + bpow radix2 (-33))%R.
Proof.
  intros HT HD Hg H. assert (HT' : (0 < IZR T)%R) by (apply IZR_lt; lia).
  assert (HT2 : (IZR T <= bpow radix2 20)%R) by (change (bpow radix2 20) with (IZR (2 ^ 20)); apply IZR_le; lia).
  set (u := (IZR T - g / (2 * IZR T))%R).
  assert (Hu : (0 <= u)%R).
  { unfold u. assert (g <= IZR T * IZR T)%R by lra. apply Rmult_le_reg_r with (2 * IZR T)%R; [lra|]. field_simplify; [|lra]. nra. }
  assert (S : (sqrt D <= u)%R).
  { rewrite <- (sqrt_square u) by auto. apply sqrt_le_1_alt. apply Rle_trans with (IZR T * IZR T - g)%R; [auto|].
    unfold u. apply Rle_trans with (IZR T * IZR T - g + (g / (2 * IZR T)) * (g / (2 * IZR T)))%R.
    - pose proof (Rle_0_sqr (g / (2 * IZR T))) as Q. unfold Rsqr in Q. lra.
    - apply Req_le. field. lra. }
  assert (Hle : (Rabs (sqrt D) <= bpow radix2 20)%R).
  { rewrite Rabs_pos_eq by apply sqrt_pos. assert (0 <= g / (2 * IZR T))%R.
    { unfold Rdiv. apply Rmult_le_pos; [auto|]. left. apply Rinv_0_lt_compat. lra. }
    unfold u in S. lra. }
  pose proof (rnd_abs 20 (sqrt D) ltac:(lia) Hle) as E. apply Rabs_le_inv in E. change (20 - 53) with (-33) in E. lra.
Qed.

(** (int)((-b + y)/h) *)
Lemma quad_floor y b n h : 0 <= b -> 0 <= n -> 0 < h <= 4 -> h * (n + 1) + b <= 2 ^ 20 ->
  (IZR (h * n + b) <= y <= IZR (h * (n + 1) + b) - bpow radix2 (-23))%R ->
  Zfloor (rnd (rnd (- IZR b + y) / IZR h)) = n /\
  (Rabs (- IZR b + y) <= big)%R /\ (Rabs (rnd (- IZR b + y) / IZR h) <= big)%R /\
  (0 <= rnd (rnd (- IZR b + y) / IZR h))%R.
Proof.
  intros Hb Hn Hh HT Hy.
  assert (Hb' : (0 <= IZR b)%R) by (apply IZR_le; lia).
  assert (Hn' : (0 <= IZR n)%R) by (apply IZR_le; lia).
  assert (Hh' : (1 <= IZR h <= 4)%R) by (split; apply IZR_le; lia).
  assert (HT' : (IZR (h * (n + 1) + b) <= bpow radix2 20)%R)
    by (change (bpow radix2 20) with (IZR (2 ^ 20)); apply IZR_le; lia).
  rewrite !plus_IZR, !mult_IZR in Hy. rewrite !plus_IZR, !mult_IZR in HT'. rewrite !plus_IZR in Hy.
  rewrite plus_IZR in HT'.
  set (x := (- IZR b + y)%R).
  assert (P23 : (bpow radix2 (-23) = 1024 * bpow radix2 (-33))%R)
    by (change 1024%R with (bpow radix2 10); rewrite <- bpow_plus; f_equal).
  pose proof (bp_pos (-33)) as P33.
  assert (Hx : (IZR h * IZR n <= x <= IZR h * (IZR n + 1) - bpow radix2 (-23))%R) by (unfold x; lra).
  assert (Hx0 : (0 <= x)%R) by nra.
  assert (E : (Rabs (rnd x - x) <= bpow radix2 (-33))%R).
  { apply (rnd_abs 20); [lia|]. rewrite Rabs_pos_eq by auto. lra. }
  apply Rabs_le_inv in E.
  assert (L : (IZR h * IZR n <= rnd x)%R).
  { rewrite <- mult_IZR, <- (rnd_int (h * n)) by nia. apply rnd_le. rewrite mult_IZR. lra. }
  set (z := (rnd x / IZR h)%R).
  assert (Hz : (IZR n <= z <= IZR n + 1 - 255 * bpow radix2 (-33))%R).
  { unfold z. split; (apply Rmult_le_reg_r with (IZR h); [lra|]); unfold Rdiv;
      rewrite Rmult_assoc, Rinv_l, Rmult_1_r by lra; [lra|]. nra. }
  assert (E2 : (Rabs (rnd z - z) <= bpow radix2 (-33))%R).
  { apply (rnd_abs 20); [lia|]. rewrite Rabs_pos_eq by lra. nra. }
  apply Rabs_le_inv in E2.
  assert (L2 : (IZR n <= rnd z)%R).
  { rewrite <- (rnd_int n) at 1 by nia. apply rnd_le. lra. }
  assert (B20 : (bpow radix2 20 <= big)%R) by (apply bpow_le; lia).
  assert (Hhn : (IZR n <= IZR h * IZR n)%R) by nra.
  fold x. fold z. repeat split.
  - apply Zfloor_imp. rewrite plus_IZR. lra.
  - rewrite Rabs_pos_eq by auto. lra.
  - rewrite Rabs_pos_eq by lra. lra.
  - lra.
Qed.

Lemma to_int_floor x r n : rep x r -> (0 <= r)%R -> Zfloor r = n -> n < 2 ^ 31 -> to_int x = Some n.
Proof.
  intros Hx Hr Hf Hn.
  assert (0 <= n) by (subst n; rewrite <- (Zfloor_IZR 0); now apply Zfloor_le).
  rewrite (to_int_rep x r Hx); rewrite Ztrunc_floor by auto; rewrite Hf; [reflexivity|lia].
Qed.

(** (int)((-b + sqrt(D))/h) *)
Lemma quad_int x y D b h n : rep x D -> rep y (IZR h) -> 0 <= b -> 0 <= n -> 0 < h <= 4 -> h * (n + 1) + b <= 2 ^ 20 ->
  (IZR (h * n + b) * IZR (h * n + b) <= D <= IZR (h * (n + 1) + b) * IZR (h * (n + 1) + b) - / 2)%R ->
  to_int (ddiv (dadd (of_int (- b)) (dsqrt x)) y) = Some n.
Proof.
  intros Hx Hy Hb Hn Hh HT0 HD. set (T := h * (n + 1) + b) in *. assert (HT : 0 < T <= 2 ^ 20) by (unfold T in *; nia).
  assert (D0 : (0 <= D)%R).
  { pose proof (Rle_0_sqr (IZR (h * n + b))) as Q. unfold Rsqr in Q. lra. }
  pose proof (dsqrt_rep _ _ Hx D0) as H4. set (w := rnd (sqrt D)) in *.
  assert (HF : Zfloor (rnd (rnd (- IZR b + w) / IZR h)) = n /\
    (Rabs (- IZR b + w) <= big)%R /\ (Rabs (rnd (- IZR b + w) / IZR h) <= big)%R /\
    (0 <= rnd (rnd (- IZR b + w) / IZR h))%R).
  { apply quad_floor; try lia. split.
    - apply rnd_sqrt_lo; [unfold T in *; nia|]. lra.
    - fold T. assert (HT' : (0 < IZR T <= bpow radix2 20)%R).
      { change (bpow radix2 20) with (IZR (2 ^ 20)). split; [apply IZR_lt|apply IZR_le]; lia. }
      pose proof (rnd_sqrt_hi D T (/ 2) HT D0 ltac:(lra) ltac:(lra)) as U. fold w in U.
      assert (G : (bpow radix2 (-22) <= / 2 / (2 * IZR T))%R).
      { replace (bpow radix2 (-22)) with (/ (4 * bpow radix2 20))%R.
        2:{ change 4%R with (bpow radix2 2). rewrite <- bpow_plus, <- bpow_opp. reflexivity. }
        replace (/ 2 / (2 * IZR T))%R with (/ (4 * IZR T))%R by (field; lra). apply Rinv_le; lra. }
      assert (P22 : (bpow radix2 (-22) = 2048 * bpow radix2 (-33))%R)
        by (change 2048%R with (bpow radix2 11); rewrite <- bpow_plus; f_equal).
      assert (P23 : (bpow radix2 (-23) = 1024 * bpow radix2 (-33))%R)
        by (change 1024%R with (bpow radix2 10); rewrite <- bpow_plus; f_equal).
      pose proof (bp_pos (-33)). lra. }
  destruct HF as (F1 & F2 & F3 & F4).
  assert (H5 : rep (dadd (of_int (- b)) (dsqrt x)) (rnd (- IZR b + w))).
  { rewrite <- opp_IZR. apply dadd_rep; [apply of_int_rep; unfold T in *; nia|exact H4|]. rewrite opp_IZR. exact F2. }
  assert (IZR h <> 0)%R by (apply not_eq_sym, Rlt_not_eq, IZR_lt; lia).
  eapply to_int_floor; [apply ddiv_rep; [exact H5|exact Hy|assumption|exact F3]|exact F4|exact F1|].
  unfold T in *. nia.
Qed.

Lemma of_int_dy n : Z.abs n < 2 ^ 53 -> rep (of_int n) (dy n 0).
Proof. intros H. unfold dy. cbn [bpow]. rewrite Rmult_1_r. now apply of_int_rep. Qed.

(** ** The L2 tile *)

Lemma mcL2_spec nr L2 n : 0 <= nr <= 2 ^ 14 -> 0 <= L2 < 2 ^ 31 -> 0 <= n ->
  8 * n * n + 16 * nr * n <= L2 < 8 * (n + 1) * (n + 1) + 16 * nr * (n + 1) ->
  ieee_mcL2 nr L2 = Some n.
Proof.
  intros Hnr HL Hn0 (Hlo & Hhi). unfold ieee_mcL2. set (b := 2 * nr).
  assert (Hn : n < 2 ^ 15) by nia.
  set (D2 := 2 * (b * b) + L2).
  assert (H1 : rep (ddiv (of_int L2) (of_int 8)) (dy L2 (-3))).
  { change 8 with (2 ^ 3). apply (ddiv_pow2 _ _ L2 0 3); try lia; [apply of_int_dy|apply of_int_rep]; lia. }
  assert (H2 : rep (dmul (of_int 4) (ddiv (of_int L2) (of_int 8))) (dy (4 * L2) (-3))).
  { apply dmul_dy; try lia; [apply of_int_rep; lia|exact H1]. }
  assert (E2 : dy (4 * L2) (-3) = (IZR L2 / 2)%R).
  { unfold dy. rewrite mult_IZR. change (bpow radix2 (-3)) with (/ 8)%R. field. }
  rewrite E2 in H2.
  assert (ED : (IZR (b * b) + IZR L2 / 2 = dy D2 (-1))%R).
  { unfold dy, D2. rewrite plus_IZR, !mult_IZR. change (bpow radix2 (-1)) with (/ 2)%R. field. }
  assert (HD2 : 0 <= D2 < 2 ^ 50) by (unfold D2, b; nia).
  assert (H3 : rep (dadd (of_int (b * b)) (dmul (of_int 4) (ddiv (of_int L2) (of_int 8)))) (dy D2 (-1))).
  { rewrite <- ED. pose proof (dadd_rep _ _ _ _ (of_int_rep (b * b) ltac:(unfold b; nia)) H2) as R0.
    rewrite ED in *. rewrite rnd_dy in R0 by lia. apply R0. apply dy_big; lia. }
  eapply quad_int; [exact H3|apply of_int_rep; lia|unfold b; lia|lia|lia|unfold b; lia|].
  assert (Q1 : 2 * ((2 * n + b) * (2 * n + b)) <= D2) by (unfold D2, b in *; nia).
  assert (Q2 : D2 <= 2 * ((2 * (n + 1) + b) * (2 * (n + 1) + b)) - 1) by (unfold D2, b in *; nia).
  apply IZR_le in Q1, Q2. rewrite mult_IZR, mult_IZR in Q1. rewrite minus_IZR, mult_IZR, mult_IZR in Q2.
  unfold dy. change (bpow radix2 (-1)) with (/ 2)%R. lra.
Qed.

Lemma mcL2_greatest nr L2 : 0 <= nr <= 2 ^ 14 -> 0 <= L2 < 2 ^ 31 ->
  exists n, ieee_mcL2 nr L2 = Some n /\ 0 <= n /\
    8 * n * n + 16 * nr * n <= L2 < 8 * (n + 1) * (n + 1) + 16 * nr * (n + 1).
Proof.
  intros Hnr HL. pose proof (Z.div_pos L2 2 ltac:(lia) ltac:(lia)). set (b := 2 * nr). set (X := b * b + L2 / 2).
  pose proof (Z.sqrt_spec X ltac:(unfold X, b; nia)) as HS. cbv zeta in HS. set (s := Z.sqrt X) in *.
  assert (Hb : b <= s). { apply Z.sqrt_le_square; unfold X, b; nia. }
  set (n := (s - b) / 2).
  pose proof (Z.div_mod (s - b) 2 ltac:(lia)) as DM. pose proof (Z.mod_pos_bound (s - b) 2 ltac:(lia)). fold n in DM.
  assert (0 <= n) by lia. assert (0 <= s) by apply Z.sqrt_nonneg.
  assert (B : 8 * n * n + 16 * nr * n <= L2 < 8 * (n + 1) * (n + 1) + 16 * nr * (n + 1)).
  { pose proof (Z.div_mod L2 2 ltac:(lia)). pose proof (Z.mod_pos_bound L2 2 ltac:(lia)).
    assert (0 <= b) by (unfold b; lia). assert (L1 : 2 * n + b <= s) by lia. assert (L3 : s + 1 <= 2 * (n + 1) + b) by lia.
    assert (Q1 : (2 * n + b) * (2 * n + b) <= X)
      by (apply Z.le_trans with (s * s); [apply Z.mul_le_mono_nonneg; lia|lia]).
    assert (Q2 : X < (2 * (n + 1) + b) * (2 * (n + 1) + b))
      by (apply Z.lt_le_trans with (Z.succ s * Z.succ s); [lia|apply Z.mul_le_mono_nonneg; lia]).
    unfold X, b in Q1, Q2. split; nia. }
  exists n. split; [|auto]. now apply mcL2_spec.
Qed.

(** ** The two-dimensional tile *)

Lemma mc2d_spec nr L2 n : 0 <= nr <= 2 ^ 14 -> 0 <= L2 < 2 ^ 31 -> 0 <= n ->
  8 * n * n + 4 * nr * n <= L2 < 8 * (n + 1) * (n + 1) + 4 * nr * (n + 1) ->
  ieee_mc2d nr L2 = Some n.
Proof.
  intros Hnr HL Hn0 (Hlo & Hhi). unfold ieee_mc2d.
  assert (Hn : n < 2 ^ 15) by nia.
  assert (I : forall k, Z.abs k < 2 ^ 53 -> rep (of_int k) (IZR k)) by (intros; now apply of_int_rep).
  assert (H1 : rep (ddiv (of_int L2) (of_int 4)) (dy L2 (-2))).
  { change 4 with (2 ^ 2). apply (ddiv_pow2 _ _ L2 0 2); try lia; [apply of_int_dy|apply of_int_rep]; lia. }
  assert (H2 : rep (dmul (dmul (of_int 4) (of_int 2)) (ddiv (of_int L2) (of_int 4))) (IZR (2 * L2))).
  { replace (IZR (2 * L2)) with (dy (4 * 2 * L2) (-2)).
    2:{ unfold dy. rewrite !mult_IZR. change (bpow radix2 (-2)) with (/ 4)%R. field. }
    apply dmul_dy; [lia| |exact H1|lia]. apply dmul_int; try (apply I); lia. }
  assert (H3 : rep (dmul (dmul (of_int 1) (of_int nr)) (of_int nr)) (IZR (1 * nr * nr))).
  { apply dmul_int; [apply dmul_int|apply I|]; try (apply I); nia. }
  eapply quad_int; [eapply dadd_int; [exact H3|exact H2|nia]|apply (dmul_int _ _ 2 2); try (apply I); lia|lia|lia|lia|lia|].
  change (2 * 2) with 4.
  assert (Q1 : (4 * n + nr) * (4 * n + nr) <= 1 * nr * nr + 2 * L2) by nia.
  assert (Q2 : 1 * nr * nr + 2 * L2 <= (4 * (n + 1) + nr) * (4 * (n + 1) + nr) - 1) by nia.
  apply IZR_le in Q1, Q2. rewrite mult_IZR in Q1. rewrite minus_IZR, mult_IZR in Q2. lra.
Qed.

Lemma mc2d_greatest nr L2 : 0 <= nr <= 2 ^ 14 -> 0 <= L2 < 2 ^ 31 ->
  exists n, ieee_mc2d nr L2 = Some n /\ 0 <= n /\
    8 * n * n + 4 * nr * n <= L2 < 8 * (n + 1) * (n + 1) + 4 * nr * (n + 1).
Proof.
  intros Hnr HL. set (X := nr * nr + 2 * L2).
  pose proof (Z.sqrt_spec X ltac:(unfold X; nia)) as HS. cbv zeta in HS. set (s := Z.sqrt X) in *.
  assert (Hb : nr <= s). { apply Z.sqrt_le_square; unfold X; nia. }
  set (n := (s - nr) / 4).
  pose proof (Z.div_mod (s - nr) 4 ltac:(lia)) as DM. pose proof (Z.mod_pos_bound (s - nr) 4 ltac:(lia)). fold n in DM.
  assert (0 <= n) by lia. assert (0 <= s) by apply Z.sqrt_nonneg.
  assert (B : 8 * n * n + 4 * nr * n <= L2 < 8 * (n + 1) * (n + 1) + 4 * nr * (n + 1)).
  { assert (L1 : 4 * n + nr <= s) by lia. assert (L3 : s + 1 <= 4 * (n + 1) + nr) by lia.
    assert (Q1 : (4 * n + nr) * (4 * n + nr) <= X)
      by (apply Z.le_trans with (s * s); [apply Z.mul_le_mono_nonneg; lia|lia]).
    assert (Q2 : X < (4 * (n + 1) + nr) * (4 * (n + 1) + nr))
      by (apply Z.lt_le_trans with (Z.succ s * Z.succ s); [lia|apply Z.mul_le_mono_nonneg; lia]).
    unfold X in Q1, Q2. split; nia. }
  exists n. split; [|auto]. now apply mc2d_spec.
Qed.

(** ** The L3 tile *)

Lemma mcL3_spec L3 t n : 0 < t <= 2 ^ 10 -> 0 <= L3 < 2 ^ 31 -> 0 <= n ->
  8 * (t * (t + 2)) * (n * n) <= L3 < 8 * (t * (t + 2)) * ((n + 1) * (n + 1)) ->
  ieee_mcL3 L3 t = Some n.
Proof.
  intros Ht HL Hn0 (Hlo & Hhi). unfold ieee_mcL3. set (d := t * (t + 2)) in *.
  assert (Hd : 3 <= d <= 2 ^ 21) by (unfold d; nia).
  assert (Hn : n < 2 ^ 14) by nia.
  assert (I : forall k, Z.abs k < 2 ^ 53 -> rep (of_int k) (IZR k)) by (intros; now apply of_int_rep).
  assert (H1 : rep (ddiv (of_int L3) (of_int 8)) (dy L3 (-3))).
  { change 8 with (2 ^ 3). apply (ddiv_pow2 _ _ L3 0 3); try lia; [apply of_int_dy|apply of_int_rep]; lia. }
  assert (H2 : rep (dmul (of_int t) (dadd (of_int 2) (dmul (of_int 1) (of_int t)))) (IZR d)).
  { replace d with (t * (2 + 1 * t)) by (unfold d; ring).
    apply dmul_int; [apply I; lia|apply dadd_int; [apply I; lia| |lia]|nia]. apply dmul_int; try (apply I); lia. }
  assert (Hd' : (3 <= IZR d)%R) by (apply IZR_le; lia).
  set (Q := (dy L3 (-3) / IZR d)%R).
  assert (EQ : (Q * (8 * IZR d) = IZR L3)%R).
  { unfold Q, dy. change (bpow radix2 (-3)) with (/ 8)%R. field. lra. }
  assert (HL' : (0 <= IZR L3 <= bpow radix2 31)%R).
  { change (bpow radix2 31) with (IZR (2 ^ 31)). split; apply IZR_le; lia. }
  assert (Q0 : (0 <= Q)%R) by nra.
  assert (QB : (Q <= bpow radix2 31)%R) by nra.
  assert (H3 : rep (ddiv (ddiv (of_int L3) (of_int 8)) (dmul (of_int t) (dadd (of_int 2) (dmul (of_int 1) (of_int t)))))
                   (rnd Q)).
  { apply ddiv_rep; [exact H1|exact H2|lra|]. fold Q. rewrite Rabs_pos_eq by auto.
    apply Rle_trans with (1 := QB). apply bpow_le. lia. }
  assert (RQ0 : (0 <= rnd Q)%R).
  { rewrite <- (rnd_int 0) by lia. now apply rnd_le. }
  pose proof (dsqrt_rep _ _ H3 RQ0) as H4.
  assert (LO : (IZR n <= rnd (sqrt (rnd Q)))%R).
  { apply rnd_sqrt_lo; [lia|]. rewrite <- mult_IZR, <- (rnd_int (n * n)) by nia. apply rnd_le.
    apply IZR_le in Hlo. rewrite !mult_IZR in Hlo. rewrite mult_IZR. nra. }
  assert (HI : (rnd (sqrt (rnd Q)) < IZR n + 1)%R).
  { assert (Hhi' : L3 + 1 <= 8 * d * ((n + 1) * (n + 1))) by lia. apply IZR_le in Hhi'.
    rewrite plus_IZR, mult_IZR, (mult_IZR 8), (mult_IZR (n + 1)) in Hhi'.
    set (g := (/ (8 * IZR d) - bpow radix2 (-53) * Q)%R).
    assert (Gg : (/ (16 * IZR d) <= g)%R).
    { unfold g. assert (bpow radix2 (-53) * Q <= / (16 * IZR d))%R; [|replace (/ (8 * IZR d))%R with (2 * / (16 * IZR d))%R by (field; lra); lra].
      apply Rmult_le_reg_r with (16 * IZR d)%R; [lra|]. rewrite Rinv_l by lra.
      replace (bpow radix2 (-53) * Q * (16 * IZR d))%R with (bpow radix2 (-53) * (2 * (Q * (8 * IZR d))))%R by ring.
      rewrite EQ. apply Rle_trans with (bpow radix2 (-53) * (2 * bpow radix2 31))%R.
      - apply Rmult_le_compat_l; [apply bpow_ge_0|lra].
      - change 2%R with (bpow radix2 1). rewrite <- !bpow_plus. change 1%R with (bpow radix2 0). apply bpow_le. lia. }
    assert (Gpos : (0 < / (16 * IZR d))%R) by (apply Rinv_0_lt_compat; lra).
    assert (UQ : (rnd Q <= IZR (n + 1) * IZR (n + 1) - g)%R).
    { assert (Q <= IZR (n + 1) * IZR (n + 1) - / (8 * IZR d))%R.
      { apply Rmult_le_reg_r with (8 * IZR d)%R; [lra|]. rewrite EQ, Rmult_minus_distr_r, Rinv_l by lra. lra. }
      destruct (Rle_lt_dec (bpow radix2 (-1000)) Q) as [L|L].
      - pose proof (rnd_error Q) as E. rewrite Rabs_pos_eq in E by auto. specialize (E L). apply Rabs_le_inv in E.
        unfold g. lra.
      - assert (L3 = 0) as E0.
        { assert (L' : (IZR L3 < 1)%R).
          { rewrite <- EQ. assert (IZR d <= bpow radix2 21)%R by (change (bpow radix2 21) with (IZR (2 ^ 21)); apply IZR_le; lia).
            apply Rle_lt_trans with (bpow radix2 (-1000) * (8 * bpow radix2 21))%R.
            - apply Rmult_le_compat; try lra.
            - change 8%R with (bpow radix2 3). rewrite <- !bpow_plus. change 1%R with (bpow radix2 0). apply bpow_lt. lia. }
          apply lt_IZR in L'. lia. }
        assert (Q = 0)%R as EQ0 by (unfold Q, dy; rewrite E0; unfold Rdiv; ring).
        assert (ER : rnd Q = Q) by (rewrite EQ0; apply (rnd_int 0); lia).
        pose proof (Rmult_le_pos _ _ (bpow_ge_0 radix2 (-53)) Q0). unfold g. lra. }
    pose proof (rnd_sqrt_hi (rnd Q) (n + 1) g ltac:(lia) RQ0 ltac:(lra) UQ) as U. rewrite plus_IZR in U.
    assert (Hn' : (0 <= IZR n)%R) by (apply IZR_le; lia).
    assert (bpow radix2 (-33) < g / (2 * (IZR n + 1)))%R; [|lra].
    apply Rlt_le_trans with (/ (16 * IZR d) / (2 * (IZR n + 1)))%R.
    2:{ unfold Rdiv. apply Rmult_le_compat_r; [left; apply Rinv_0_lt_compat; lra|auto]. }
    replace (/ (16 * IZR d) / (2 * (IZR n + 1)))%R with (/ (32 * IZR (d * (n + 1))))%R
      by (rewrite mult_IZR, plus_IZR; field; lra).
    assert (B : d * (n + 1) < 134217728) by nia.
    apply IZR_lt in B. assert (0 < IZR (d * (n + 1)))%R by (apply IZR_lt; nia).
    change (bpow radix2 (-33)) with (/ IZR (2 ^ 33))%R. apply Rinv_lt; [lra|].
    change (2 ^ 33) with 8589934592. lra. }
  eapply to_int_floor; [exact H4| |apply Zfloor_imp; rewrite plus_IZR; split; [exact LO|exact HI]|lia].
  apply Rle_trans with (IZR n); [apply IZR_le; lia|auto].
Qed.

Lemma mcL3_greatest L3 t : 0 < t <= 2 ^ 10 -> 0 <= L3 < 2 ^ 31 ->
  exists n, ieee_mcL3 L3 t = Some n /\ 0 <= n /\
    8 * (t * (t + 2)) * (n * n) <= L3 < 8 * (t * (t + 2)) * ((n + 1) * (n + 1)).
Proof.
  intros Ht HL. set (d := t * (t + 2)). assert (0 < d) by (unfold d; nia). set (X := L3 / (8 * d)).
  assert (X0 : 0 <= X) by (apply Z.div_pos; lia).
  pose proof (Z.sqrt_spec X X0) as HS. cbv zeta in HS. pose proof (Z.sqrt_nonneg X). set (n := Z.sqrt X) in *.
  pose proof (Z.div_mod L3 (8 * d) ltac:(lia)) as DM. pose proof (Z.mod_pos_bound L3 (8 * d) ltac:(lia)). fold X in DM.
  assert (B : 8 * d * (n * n) <= L3 < 8 * d * ((n + 1) * (n + 1))) by (split; nia).
  exists n. split; [|auto]. apply mcL3_spec; auto.
Qed.
