(** * Normally distributed numbers. *)

From Coq Require Import ZArith Reals List Bool Lia Lra.
From Flocq Require Import Core BinarySingleNaN.
From Verif Require Import Lang Lang_facts Spec SpecTop SpecTouch SpecTests ModelSizing ModelKernel ModelPack ModelUtil ModelDouble ModelIEEE ModelSingle ModelTests
     ModelTune SpecTune ModelNormal SpecNormal SpecSingle
     Double_facts IEEE_facts IEEE32_facts Single_facts Tests_facts Tune_facts.
Import ListNotations.
Open Scope Z_scope.

Lemma pow_ineq x n : (0 <= 1 + x)%R -> ((1 + x) ^ n <= exp (INR n * x))%R.
Proof.
  intros H. induction n as [|n IH]; [cbn [pow INR]; rewrite Rmult_0_l, exp_0; lra|].
  rewrite S_INR, Rmult_plus_distr_r, Rmult_1_l, exp_plus. cbn [pow]. rewrite Rmult_comm.
  apply Rmult_le_compat; [apply pow_le; lra|lra|exact IH|].
  destruct (Req_dec x 0) as [-> |N]; [rewrite exp_0; lra|]. left. now apply exp_ineq1.
Qed.

(** 0.6 <= ln 2 <= 47/64 *)
Lemma ln2_le : (ln 2 <= 47 / 64)%R.
Proof.
  rewrite <- (ln_exp (47 / 64)). apply Rlt_le. apply ln_increasing; [lra|].
  pose proof (pow_ineq (47 / 512) 8 ltac:(lra)) as H. cbn [INR] in H.
  replace ((1 + 1 + 1 + 1 + 1 + 1 + 1 + 1) * (47 / 512))%R with (47 / 64)%R in H by lra. lra.
Qed.

Lemma ln2_ge : (6 / 10 <= ln 2)%R.
Proof.
  rewrite <- (ln_exp (6 / 10)). apply Rlt_le. apply ln_increasing; [apply exp_pos|].
  pose proof (pow_ineq (- (75 / 1000)) 8 ltac:(lra)) as H. cbn [INR] in H.
  replace ((1 + 1 + 1 + 1 + 1 + 1 + 1 + 1) * - (75 / 1000))%R with (- (6 / 10))%R in H by lra.
  rewrite exp_Ropp in H. pose proof (exp_pos (6 / 10)) as P.
  apply Rmult_le_compat_r with (r := exp (6 / 10)) in H; [|lra]. rewrite Rinv_l in H by lra.
  assert (L : (53 / 100 <= (1 + - (75 / 1000)) ^ 8)%R) by (cbn [pow]; lra).
  apply Rmult_le_compat_r with (r := exp (6 / 10)) in L; [|lra]. lra.
Qed.

Lemma rand_gen_ge r : 0 <= r <= RAND_MAX -> (bpow radix2 (-32) <= B2R (rand_gen r) <= 1)%R.
Proof.
  intros H. destruct (rand_int r H) as (a & b & Ha & Hb & Hab & Hb1). pose proof b40 as E40. pose proof b31 as E31.
  apply double_of_single_rep in Ha. apply double_of_single_rep in Hb.
  pose proof (dadd_rep _ _ _ _ Ha (of_int_rep 1 ltac:(lia)) ltac:(apply (unit_abs _ (bpow radix2 33)); cbn; lra)) as A1.
  pose proof (dadd_rep _ _ _ _ Hb (of_int_rep 1 ltac:(lia)) ltac:(apply (unit_abs _ (bpow radix2 33)); cbn; lra)) as B1.
  assert (Q1 : (1 <= rnd (a + 1) <= rnd (b + 1))%R).
  { split; [apply (rnd_between 1 4294967296); [lia|lia|lra]|apply rnd_le; lra]. }
  assert (Q2 : (rnd (b + 1) <= bpow radix2 32)%R).
  { replace (bpow radix2 32) with (IZR 4294967296) by (cbn; lra). apply (rnd_between 0 4294967296); [lia|lia|lra]. }
  set (x := rnd (a + 1)) in *. set (y := rnd (b + 1)) in *.
  assert (Q3 : (bpow radix2 (-32) <= x / y <= 1)%R).
  { split.
    - apply Rmult_le_reg_r with y; [lra|]. unfold Rdiv. rewrite Rmult_assoc, Rinv_l by lra.
      apply Rle_trans with (bpow radix2 (-32) * bpow radix2 32)%R; [apply Rmult_le_compat_l; [apply bpow_ge_0|exact Q2]|].
      rewrite <- bpow_plus. cbn. lra.
    - apply Rmult_le_reg_r with y; [lra|]. unfold Rdiv. rewrite Rmult_assoc, Rinv_l by lra. lra. }
  pose proof (bpow_gt_0 radix2 (-32)) as P32.
  pose proof (ddiv_rep _ _ _ _ A1 B1 ltac:(lra) ltac:(apply (unit_abs _ 1); lra)) as D.
  assert (Q4 : (bpow radix2 (-32) <= rnd (x / y) <= 1)%R).
  { split.
    - replace (bpow radix2 (-32)) with (dy 1 (-32)) in * by (unfold dy; ring). rewrite <- (rnd_dy 1 (-32)) by lia. apply rnd_le. lra.
    - apply (rnd_between 0 1); [lia|lia|lra]. }
  destruct (single_of_double_rep _ _ D ltac:(apply (unit_abs _ 1); lra)) as (F & V).
  unfold rand_gen. rewrite V. split.
  - rewrite <- (rnd24_pow (-32)) by lia. apply rnd24_le. lra.
  - apply (rnd24_between 0 1); [lia|lia|lra].
Qed.

Lemma ln_bpow e : ln (bpow radix2 e) = (IZR e * ln 2)%R.
Proof. rewrite bpow_exp, ln_exp. reflexivity. Qed.

Lemma ln_rand r : 0 <= r <= RAND_MAX -> (-(47 / 2) <= ln (B2R (rand_gen r)))%R.
Proof.
  intros H. destruct (rand_gen_ge r H) as (L & _). pose proof (bpow_gt_0 radix2 (-32)) as P.
  apply Rle_trans with (ln (bpow radix2 (-32))).
  - rewrite ln_bpow. pose proof ln2_le. lra.
  - destruct (Rle_lt_or_eq_dec _ _ L) as [L'|<-]; [left; now apply ln_increasing|lra].
Qed.

Section Bounds.

Variables fcos flog : R -> R.
Hypothesis LM : libm fcos flog.

Theorem normal_range r1 r2 : 0 <= r1 <= RAND_MAX -> 0 <= r2 <= RAND_MAX ->
  exists x, normal_random fcos flog r1 r2 = Some x /\ (-7 <= x <= 7)%R.
Proof.
  intros H1 H2. destruct LM as (LC & LL). destruct (rand_gen_ge r1 H1) as (V1 & V2).
  pose proof (bpow_gt_0 radix2 (-32)) as P. destruct (LL (B2R (rand_gen r1)) ltac:(lra)) as (L1 & L2).
  pose proof (ln_rand r1 H1) as LR. apply Rabs_le_inv in L2.
  unfold normal_random. set (x := to_double (-2 * flog (B2R (rand_gen r1)))).
  assert (X : (0 <= x <= 49)%R) by (apply (rnd_between 0 49); [lia|lia|lra]).
  destruct (Rlt_dec x 0) as [B|_]; [lra|]. eexists. split; [reflexivity|].
  assert (Q : (0 <= to_double (sqrt x) <= 7)%R).
  { apply (rnd_between 0 7); [lia|lia|]. split; [apply sqrt_pos|].
    rewrite <- (sqrt_square 7) by lra. apply sqrt_le_1_alt. lra. }
  specialize (LC (to_double (to_double (2 * M_PI) * B2R (rand_gen r2)))).
  set (k := fcos _) in *. set (s := to_double (sqrt x)) in *.
  apply (rnd24_between (-7) 7); [lia|lia|]. apply (rnd_between (-7) 7); [lia|lia|].
  split; nra.
Qed.

Theorem step_range r1 r2 : 0 <= r1 <= RAND_MAX -> 0 <= r2 <= RAND_MAX ->
  exists x d, normal_random fcos flog r1 r2 = Some x /\ random_step fcos flog r1 r2 = Some d /\ -7 <= d <= 7 /\
    (x < 0 -> IZR d <= x < IZR d + 1)%R /\ (0 <= x -> IZR d - 1 < x <= IZR d)%R.
Proof.
  intros H1 H2. destruct (normal_range r1 r2 H1 H2) as (x & E & B). unfold random_step. rewrite E.
  destruct (Rlt_dec x 0) as [L|L].
  - exists x, (Zfloor x). split; [auto|split; [auto|]]. pose proof (Zfloor_lb x). pose proof (Zfloor_ub x).
    split; [|split; [intros; lra|lra]]. split.
    + apply Zfloor_lub. lra.
    + apply Z.lt_le_incl. apply lt_IZR. lra.
  - exists x, (Zceil x). split; [auto|split; [auto|]]. pose proof (Zceil_ub x). pose proof (Zceil_lb x).
    split; [|split; [lra|intros; split; lra]]. split.
    + apply Z.lt_le_incl. apply lt_IZR. lra.
    + apply Zceil_glb. lra.
Qed.

Lemma turn_range rd i : random_numbers rd ->
  exists dm dk dn, turn_steps fcos flog rd i = Some (dm, dk, dn) /\ -7 <= dm <= 7 /\ -7 <= dk <= 7 /\ -7 <= dn <= 7.
Proof.
  intros HR. unfold turn_steps.
  destruct (step_range _ _ (HR (6 * i)%nat) (HR (6 * i + 1)%nat)) as (? & dm & _ & E1 & B1 & _).
  destruct (step_range _ _ (HR (6 * i + 2)%nat) (HR (6 * i + 3)%nat)) as (? & dk & _ & E2 & B2 & _).
  destruct (step_range _ _ (HR (6 * i + 4)%nat) (HR (6 * i + 5)%nat)) as (? & dn & _ & E3 & B3 & _).
  rewrite E1, E2, E3. exists dm, dk, dn. auto.
Qed.

Theorem steps_drawn rd : random_numbers rd -> exists steps, drawn fcos flog rd steps.
Proof.
  intros HR. exists (fun i => match turn_steps fcos flog rd i with Some d => d | None => (0, 0, 0) end).
  intros i. destruct (turn_range rd i HR) as (dm & dk & dn & -> & _). reflexivity.
Qed.

Lemma clamped_near lo hi x d : clamped lo hi (x + 0) = x -> Z.abs (clamped lo hi (x + d) - x) <= Z.abs d.
Proof. unfold clamped. lia. Qed.

Lemma clamped_fix lo hi x : clamped lo hi (clamped lo hi x + 0) = clamped lo hi x.
Proof. unfold clamped. lia. Qed.

Theorem proposals_near M K N pm pn c rd v cand curr steps v' r :
  tunable M K N pm pn c -> random_numbers rd -> drawn fcos flog rd steps ->
  inside M K N pm pn c curr -> Z.of_nat (length v) < all_points M K N ->
  gives M K N pm pn c v cand curr steps v' r ->
  inside M K N pm pn c r /\
  Z.abs (cd_m_c r - cd_m_c curr) <= 210 /\ Z.abs (cd_k_c r - cd_k_c curr) <= 140 /\ Z.abs (cd_n_c r - cd_n_c curr) <= 896.
Proof.
  intros T HR HD HI L (fuel & E).
  destruct (loop_inv M K N pm pn c T _ _ _ _ _ _ _ _ L E) as ((j & J & _) & _).
  destruct (turn_range rd j HR) as (dm & dk & dn & ET & B1 & B2 & B3).
  pose proof (HD j) as EJ. rewrite ET in EJ. injection EJ as EJ. rewrite <- EJ in J.
  unfold inside, moved, tile_of in HI, J |- *. injection HI as I1 I2 I3. injection J as J1 J2 J3.
  rewrite J1, J2, J3. split; [now rewrite !clamped_fix|].
  split; [|split].
  - eapply Z.le_trans; [exact (clamped_near _ _ _ (30 * dm) I1)|lia].
  - eapply Z.le_trans; [exact (clamped_near _ _ _ (20 * dk) I2)|lia].
  - eapply Z.le_trans; [exact (clamped_near _ _ _ (128 * dn) I3)|lia].
Qed.

(** a call that can only propose sizes tried already *)
Theorem near_hangs M K N pm pn c rd v cand curr steps :
  tunable M K N pm pn c -> random_numbers rd -> drawn fcos flog rd steps ->
  (forall dm dk dn, -7 <= dm <= 7 -> -7 <= dk <= 7 -> -7 <= dn <= 7 -> In (moved M K N pm pn c curr (dm, dk, dn)) v) ->
  Z.of_nat (length v) < all_points M K N ->
  hangs M K N pm pn c v cand curr steps.
Proof.
  intros T HR HD HV L. apply call_hangs; [exact T|]. split; [exact L|]. intros i.
  destruct (turn_range rd i HR) as (dm & dk & dn & ET & B1 & B2 & B3).
  pose proof (HD i) as EI. rewrite ET in EI. injection EI as EI. rewrite <- EI. auto.
Qed.

End Bounds.

Definition box7 : list Z := map (fun i => Z.of_nat i - 7) (seq 0 15).

Lemma box7_in d : -7 <= d <= 7 -> In d box7.
Proof. intros H. apply in_map_iff. exists (Z.to_nat (d + 7)). split; [lia|]. apply in_seq. lia. Qed.

Lemma nodup_le {A} (dec : forall x y : A, {x = y} + {x <> y}) l : (length (nodup dec l) <= length l)%nat.
Proof. apply NoDup_incl_length; [apply NoDup_nodup|]. intros x Hx. now apply nodup_In in Hx. Qed.

(** so a search at one point is stuck after 15^3 calls *)
Theorem stuck M K N pm pn c curr : tunable M K N pm pn c -> 3375 < all_points M K N ->
  exists v, NoDup v /\ Z.of_nat (length v) <= 3375 /\ (forall t, In t v -> exists d, t = moved M K N pm pn c curr d) /\
    forall fcos flog rd cand steps, libm fcos flog -> random_numbers rd -> drawn fcos flog rd steps ->
      hangs M K N pm pn c v cand curr steps.
Proof.
  intros T L. set (l := map (moved M K N pm pn c curr) (list_prod (list_prod box7 box7) box7)).
  assert (LL : Z.of_nat (length l) = 3375).
  { unfold l. rewrite map_length, !prod_length. unfold box7. rewrite map_length, seq_length. reflexivity. }
  pose proof (nodup_le tile_dec l) as LE. exists (nodup tile_dec l). split; [apply NoDup_nodup|]. split; [lia|]. split.
  - intros t Ht. apply nodup_In in Ht. apply in_map_iff in Ht. destruct Ht as (d & <- & _). eauto.
  - intros fcos flog rd cand steps LM HR HD. apply (near_hangs fcos flog LM _ _ _ _ _ _ rd); auto; [|lia].
    intros dm dk dn B1 B2 B3. apply nodup_In. apply in_map. repeat apply in_prod; now apply box7_in.
Qed.

Theorem gaussian_ok S (draw : Z -> elt S) b r c m : 0 <= r * c -> at_least m b (r * c) ->
  pok (pseq (rand_gaussian S draw (b, 0) r c)) m (fun _ m' => fills draw m m' b (r * c) (fun i => i)).
Proof. exact (rand_init_ok S draw b (fun i => i) r c m). Qed.

(** ** The exact functions *)

Theorem exact_libm : libm cos ln.
Proof.
  split; [intros; apply COS_bound|]. intros v (H1 & H2). split.
  - rewrite <- ln_1. destruct (Rle_lt_or_eq_dec _ _ H2) as [L|<-]; [left; now apply ln_increasing|lra].
  - unfold Rminus. rewrite Rplus_opp_r, Rabs_R0. lra.
Qed.

Lemma rand_gen_0 : B2R (rand_gen 0) = bpow radix2 (-31).
Proof.
  rewrite <- SF2R_B2SF. replace (B2SF (rand_gen 0)) with (SpecFloat.S754_finite false 8388608 (-54)) by (vm_compute; reflexivity).
  unfold SF2R, F2R. cbn [cond_Zopp Fnum Fexp]. replace (IZR 8388608) with (bpow radix2 23) by (cbn; lra).
  now rewrite <- bpow_plus.
Qed.

Lemma cos_small x : (0 <= x <= 1 / 100)%R -> (999 / 1000 <= cos x <= 1)%R.
Proof.
  intros H. split; [|apply COS_bound]. destruct (pre_cos_bound x 0 ltac:(lra) ltac:(lra)) as (L & _).
  unfold cos_approx, cos_term in L. cbn in L. nra.
Qed.

(** 7 is reached *)
Theorem seven : random_step cos ln 0 0 = Some 7.
Proof.
  destruct (step_range cos ln exact_libm 0 0 ltac:(unfold RAND_MAX; lia) ltac:(unfold RAND_MAX; lia)) as (x & d & E & Ed & B & D1 & D2).
  rewrite Ed. f_equal. cut (6 < x)%R.
  { intros L. specialize (D2 ltac:(lra)). assert (6 < d) by (apply lt_IZR; lra). lia. }
  unfold normal_random in E. rewrite rand_gen_0, ln_bpow in E.
  set (y := to_double (-2 * (IZR (-31) * ln 2))) in E.
  assert (Y : (37 <= y)%R).
  { unfold y. apply (rnd_between 37 60); [lia|lia|]. pose proof ln2_ge. pose proof ln2_le. lra. }
  destruct (Rlt_dec y 0) as [N|_]; [discriminate|]. injection E as <-.
  assert (S : (97 / 16 <= to_double (sqrt y))%R).
  { replace (97 / 16)%R with (dy 97 (-4)) by (unfold dy; cbn; lra). rewrite <- (rnd_dy 97 (-4)) by lia.
    apply rnd_le. replace (dy 97 (-4)) with (97 / 16)%R by (unfold dy; cbn; lra).
    rewrite <- (sqrt_square (97 / 16)) by lra. apply sqrt_le_1_alt. lra. }
  assert (A : (0 <= to_double (to_double (2 * M_PI) * bpow radix2 (-31)) <= 1 / 100)%R).
  { assert (A1 : (0 <= to_double (2 * M_PI) <= 7)%R) by (apply (rnd_between 0 7); [lia|lia|unfold M_PI; lra]).
    split.
    - apply (rnd_between 0 1); [lia|lia|]. cbn. lra.
    - apply Rle_trans with (dy 1 (-7)); [|unfold dy; cbn; lra]. rewrite <- (rnd_dy 1 (-7)) by lia.
      apply rnd_le. unfold dy. cbn. lra. }
  pose proof (cos_small _ A) as C. set (k := cos _) in *. set (s := to_double (sqrt y)) in *.
  assert (Q : (dy 385 (-6) <= k * s)%R) by (unfold dy; cbn; nra).
  apply Rlt_le_trans with (dy 385 (-6)); [unfold dy; cbn; lra|].
  rewrite <- (rnd24_dy 385 (-6)) by lia. apply rnd24_le. rewrite <- (rnd_dy 385 (-6)) by lia. now apply rnd_le.
Qed.

Lemma rand_gen_1 : B2R (rand_gen RAND_MAX) = 1%R.
Proof.
  rewrite <- SF2R_B2SF. replace (B2SF (rand_gen RAND_MAX)) with (SpecFloat.S754_finite false 8388608 (-23)) by (vm_compute; reflexivity).
  unfold SF2R, F2R. cbn [cond_Zopp Fnum Fexp]. replace (IZR 8388608) with (bpow radix2 23) by (cbn; lra).
  now rewrite <- bpow_plus.
Qed.

(** the largest result of rand() gives no step *)
Theorem no_step fcos flog r2 : flog 1%R = 0%R -> random_step fcos flog RAND_MAX r2 = Some 0.
Proof.
  intros H. unfold random_step, normal_random. rewrite rand_gen_1, H, Rmult_0_r.
  assert (Z : to_double 0 = 0%R) by (apply round_0; auto with typeclass_instances). rewrite Z.
  destruct (Rlt_dec 0 0) as [N|_]; [lra|]. rewrite sqrt_0, Z, Rmult_0_r, Z.
  replace (to_single 0) with 0%R by (symmetry; apply round_0; auto with typeclass_instances).
  destruct (Rlt_dec 0 0) as [N|_]; [lra|]. now rewrite (Zceil_IZR 0).
Qed.

(** a logarithm above 0 would give NaN *)
Theorem bad_log fcos flog r1 r2 : (1 <= flog (B2R (rand_gen r1)))%R -> random_step fcos flog r1 r2 = None.
Proof.
  intros H. unfold random_step, normal_random.
  assert (X : (to_double (-2 * flog (B2R (rand_gen r1))) <= -2)%R).
  { pose proof (rnd_int (-2) ltac:(lia)) as E. rewrite <- E at 2. apply rnd_le. lra. }
  destruct (Rlt_dec _ 0) as [_|N]; [reflexivity|]. lra.
Qed.
