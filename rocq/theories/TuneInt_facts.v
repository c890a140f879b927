(** * get_candidate with 32-bit ints. *)

From Coq Require Import ZArith Reals List Bool Lia.
From Verif Require Import Lang ModelSizing ModelUtil ModelInt ModelTune SpecTune Tune_facts ModelTuneInt SpecTuneInt
     ModelTests ModelNormal SpecNormal Normal_facts.
Import ListNotations.
Open Scope Z_scope.

Lemma in_int_true z : -2147483648 <= z <= INT_MAX -> in_int z = true.
Proof. unfold INT_MAX. intros H. unfold in_int. apply andb_true_iff. split; [apply Z.leb_le|apply Z.ltb_lt]; lia. Qed.

Lemma in_int_false z : INT_MAX < z -> in_int z = false.
Proof. unfold INT_MAX. intros H. unfold in_int. apply andb_false_iff. right. apply Z.ltb_ge. lia. Qed.

Lemma quot_range D s : 0 <= D <= INT_MAX -> 0 < s -> 0 <= Z.quot D s <= D.
Proof. intros H Hs. rewrite Z.quot_div_nonneg by lia. split; [apply Z.div_pos; lia|apply Z.div_le_upper_bound; nia]. Qed.

Lemma steps_32 D s : 0 <= D <= INT_MAX -> 2 <= s -> steps_in32 D s = CRet (steps_in D s).
Proof.
  intros H Hs. pose proof (quot_range D s H ltac:(lia)) as Q.
  assert (Q2 : Z.quot D s + 1 <= INT_MAX).
  { rewrite Z.quot_div_nonneg by lia. assert (D / s <= D / 2) by (apply Z.div_le_compat_l; lia).
    pose proof (Z.div_mod D 2 ltac:(lia)). pose proof (Z.mod_pos_bound D 2 ltac:(lia)). unfold INT_MAX in *. lia. }
  unfold steps_in32, cint. cbn [isafe ival andb]. rewrite (proj2 (Z.eqb_neq s 0)) by lia.
  rewrite !in_int_true by (unfold INT_MAX in *; lia). cbn [negb andb cbind]. unfold truthy, steps_in.
  now destruct (Z.rem D s =? 0).
Qed.

Lemma largest_32 D g r : 0 <= D <= INT_MAX -> 0 < g -> 0 < r -> share D g r <= INT_MAX ->
  largest32 D g r = CRet (share D g r).
Proof.
  intros H Hg Hr S. pose proof (quot_range D g H Hg) as Q. pose proof (share_eq D g r ltac:(lia) Hg Hr) as E.
  pose proof (Z.rem_bound_pos (Z.quot D g) r ltac:(lia) Hr) as R.
  assert (Q2 : 0 <= Z.quot (Z.quot D g) r <= INT_MAX).
  { pose proof (quot_range (Z.quot D g) r ltac:(lia) Hr). lia. }
  unfold largest32, cint. cbn [isafe ival andb]. rewrite (proj2 (Z.eqb_neq g 0)), (proj2 (Z.eqb_neq r 0)) by lia.
  rewrite !in_int_true by (unfold INT_MAX in *; lia). cbn [negb andb]. now rewrite E.
Qed.

Lemma largest_over D g r : 0 <= D <= INT_MAX -> 0 < g -> 0 < r -> INT_MAX < share D g r -> largest32 D g r = CUB.
Proof.
  intros H Hg Hr S. pose proof (share_eq D g r ltac:(lia) Hg Hr) as E.
  unfold largest32, cint. cbn [isafe ival]. rewrite E, (in_int_false (share D g r)) by lia. now rewrite andb_false_r.
Qed.

Lemma points_pos D s : 0 <= D -> 0 < s -> 0 <= steps_in D s.
Proof.
  intros H Hs. unfold steps_in. rewrite Z.quot_div_nonneg by lia. pose proof (Z.div_pos D s ltac:(lia) ltac:(lia)).
  destruct (_ =? _); lia.
Qed.

Lemma all_one M K : 0 <= M -> 0 <= K -> all_points M K 1 = steps_in M 30 * steps_in K 20.
Proof. intros. rewrite <- max_cand_all by lia. unfold max_cand. replace (steps_in 1 128) with 1 by reflexivity. lia. Qed.

Lemma max_32 M K N : 0 <= M <= INT_MAX -> 0 <= K <= INT_MAX -> 0 <= N <= INT_MAX -> countable M K N ->
  max_cand32 M K N = CRet (all_points M K N).
Proof.
  intros HM HK HN (C1 & C2). rewrite all_one in C1 by lia. rewrite <- max_cand_all in * by lia. unfold max_cand in *.
  pose proof (points_pos M 30 ltac:(lia) ltac:(lia)). pose proof (points_pos K 20 ltac:(lia) ltac:(lia)).
  pose proof (points_pos N 128 ltac:(lia) ltac:(lia)).
  unfold max_cand32. rewrite !steps_32 by lia. cbn [cbind]. unfold cint. cbn [isafe ival andb].
  set (a := steps_in M 30) in *. set (b := steps_in K 20) in *. set (d := steps_in N 128) in *.
  assert (0 <= a * b) by nia. assert (0 <= a * b * d) by nia.
  rewrite !in_int_true by (unfold INT_MAX in *; lia). reflexivity.
Qed.

Lemma max_over M K N : 0 <= M <= INT_MAX -> 0 <= K <= INT_MAX -> 0 <= N <= INT_MAX -> ~ countable M K N ->
  max_cand32 M K N = CUB.
Proof.
  intros HM HK HN C. unfold countable in C. rewrite all_one in C by lia. rewrite <- max_cand_all in C by lia. unfold max_cand in C.
  unfold max_cand32. rewrite !steps_32 by lia. cbn [cbind]. unfold cint. cbn [isafe ival andb].
  set (a := steps_in M 30) in *. set (b := steps_in K 20) in *. set (d := steps_in N 128) in *.
  destruct (Z.le_gt_cases (a * b) INT_MAX) as [L|L].
  - rewrite (in_int_false (a * b * d)) by lia. now rewrite andb_false_r.
  - rewrite (in_int_false (a * b)) by lia. reflexivity.
Qed.

Lemma step_32 cur d s : -1000 <= d * s <= 1000 -> 0 <= cur <= INT_MAX -> cur + d * s <= INT_MAX ->
  step32 cur d s = CRet (cur + d * s).
Proof.
  intros H1 H2 H3. unfold step32, cint. cbn [isafe ival andb]. rewrite in_int_true by (unfold INT_MAX in *; lia).
  cbn [cbind isafe ival andb]. rewrite in_int_true by (unfold INT_MAX in *; lia). reflexivity.
Qed.

Theorem candidate_32 fuel M K N pm pn c v cand curr steps :
  tunable M K N pm pn c -> room M K N pm pn c -> countable M K N -> inside M K N pm pn c curr -> small_steps steps ->
  get_candidate32 fuel M K N pm pn c v cand curr steps = CRet (candidate_loop fuel M K N pm pn c v cand curr steps 0).
Proof.
  intros T R C HI HS. pose proof T as (T1 & T2 & T3 & T4 & T5 & T6 & T7). destruct R as (R1 & R2 & R3 & R4 & R5).
  unfold get_candidate32. rewrite !largest_32 by lia. cbn [cbind]. rewrite max_32 by (try exact C; unfold INT_MAX in *; lia).
  cbn [cbind].
  assert (AP : 0 <= all_points M K N).
  { rewrite <- max_cand_all by lia. unfold max_cand.
    pose proof (points_pos M 30 ltac:(lia) ltac:(lia)). pose proof (points_pos K 20 ltac:(lia) ltac:(lia)).
    pose proof (points_pos N 128 ltac:(lia) ltac:(lia)). nia. }
  assert (S1 : 0 < share M pm (mr c)).
  { unfold share. pose proof (Z.div_pos (M / pm) (mr c) ltac:(apply Z.div_pos; lia) ltac:(lia)). nia. }
  assert (S2 : 0 < share N pn (nr c)).
  { unfold share. pose proof (Z.div_pos (N / pn) (nr c) ltac:(apply Z.div_pos; lia) ltac:(lia)). nia. }
  unfold inside, moved, tile_of in HI. injection HI as I1 I2 I3.
  assert (B1 : 0 <= cd_m_c curr <= INT_MAX - 210) by (rewrite <- I1; unfold clamped; lia).
  assert (B2 : 0 <= cd_k_c curr <= INT_MAX - 140) by (rewrite <- I2; unfold clamped; lia).
  assert (B3 : 0 <= cd_n_c curr <= INT_MAX - 896) by (rewrite <- I3; unfold clamped; lia).
  generalize 0%nat as i. revert v. induction fuel as [|fuel IH]; intros v i; [reflexivity|].
  cbn [loop32 candidate_loop]. rewrite max_cand_all by lia. rewrite Z.mod_small by (destruct C; unfold INT_MAX in *; lia).
  destruct (_ <? _); [|reflexivity]. pose proof (HS i) as HSi. destruct (steps i) as ((dm & dk) & dn).
  destruct HSi as (D1 & D2 & D3).
  rewrite !step_32 by (unfold INT_MAX in *; lia). cbn [cbind]. unfold get_candidate. cbv zeta. rewrite !share_eq by lia.
  destruct (existsb _ v); [apply IH|reflexivity].
Qed.

Theorem candidate_over fuel M K N pm pn c v cand curr steps :
  tunable M K N pm pn c -> room M K N pm pn c -> ~ countable M K N ->
  get_candidate32 fuel M K N pm pn c v cand curr steps = CUB.
Proof.
  intros T R C. pose proof T as (T1 & T2 & T3 & T4 & T5 & T6 & T7). destruct R as (R1 & R2 & R3 & R4 & R5).
  unfold get_candidate32. rewrite !largest_32 by lia. cbn [cbind]. rewrite max_over by (try exact C; unfold INT_MAX in *; lia).
  reflexivity.
Qed.

Theorem candidate_no_room fuel M K N pm pn c v cand curr steps :
  tunable M K N pm pn c -> M <= INT_MAX -> N <= INT_MAX -> INT_MAX < share M pm (mr c) \/ INT_MAX < share N pn (nr c) ->
  get_candidate32 fuel M K N pm pn c v cand curr steps = CUB.
Proof.
  intros T HM HN H. destruct T as (T1 & T2 & T3 & T4 & T5 & T6 & T7). unfold get_candidate32.
  destruct (Z.le_gt_cases (share M pm (mr c)) INT_MAX) as [L|L]; [|now rewrite largest_over by lia].
  rewrite largest_32 by lia. cbn [cbind]. now rewrite largest_over by lia.
Qed.

(** the steps of C80 *)
Theorem drawn_small fcos flog rd steps : libm fcos flog -> random_numbers rd -> drawn fcos flog rd steps -> small_steps steps.
Proof.
  intros L HR HD i. destruct (turn_range fcos flog L rd i HR) as (dm & dk & dn & ET & B).
  pose proof (HD i) as EI. rewrite ET in EI. injection EI as <-. exact B.
Qed.
