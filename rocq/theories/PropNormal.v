(** * The normally distributed numbers and the steps of the autotuner.

    ModelNormal.v is normalRandom, rand_gaussian and get_random_step, with cos and log of the C
    library as arguments; SpecNormal.v says what is asked of them. *)

From Coq Require Import ZArith Reals List Lia Lra.
From Verif Require Import Lang Spec SpecTop SpecTouch SpecSingle SpecTests ModelSizing ModelKernel ModelUtil ModelTests ModelTune SpecTune
     ModelNormal SpecNormal Witness Tests_facts Normal_facts.
Import ListNotations.
Open Scope Z_scope.

(** C80.  normalRandom returns a number between -7 and 7, never NaN or infinite, whatever rand()
    returns. *)
Theorem C80_normal :
  forall fcos flog r1 r2, libm fcos flog -> 0 <= r1 <= RAND_MAX -> 0 <= r2 <= RAND_MAX ->
  exists x, normal_random fcos flog r1 r2 = Some x /\ (-7 <= x <= 7)%R.
Proof. intros fcos flog r1 r2 L. exact (normal_range fcos flog L r1 r2). Qed.
Print Assumptions C80_normal.

(** rand_gaussian sets exactly the r*c elements, element i to the result of the i-th call. *)
Theorem C80_gaussian :
  forall S (draw : Z -> elt S) b r c m, 0 <= r * c -> at_least m b (r * c) ->
  always (pseq (rand_gaussian S draw (b, 0) r c)) m (fun _ m' => fills draw m m' b (r * c) (fun i => i)).
Proof. intros. apply Mult_facts.pok_always. now apply gaussian_ok. Qed.
Print Assumptions C80_gaussian.

(** A step of the autotuner is such a number made whole, away from zero: at most 7 steps down or
    up, and none only if the number is 0. *)
Theorem C80_step :
  forall fcos flog r1 r2, libm fcos flog -> 0 <= r1 <= RAND_MAX -> 0 <= r2 <= RAND_MAX ->
  exists x d, normal_random fcos flog r1 r2 = Some x /\ random_step fcos flog r1 r2 = Some d /\ -7 <= d <= 7 /\
    (x < 0 -> IZR d <= x < IZR d + 1)%R /\ (0 <= x -> IZR d - 1 < x <= IZR d)%R.
Proof. intros fcos flog r1 r2 L. exact (step_range fcos flog L r1 r2). Qed.
Print Assumptions C80_step.

(** With the exact functions 7 is reached, when rand() returns 0 twice. *)
Theorem C80_seven : libm cos ln /\ random_step cos ln 0 0 = Some 7.
Proof. exact (conj exact_libm seven). Qed.
Print Assumptions C80_seven.

(** There is no step when the first result of rand() is the largest, the logarithm of 1 being 0. *)
Theorem C80_none :
  forall fcos flog r2, flog 1%R = 0%R -> random_step fcos flog RAND_MAX r2 = Some 0.
Proof. exact no_step. Qed.
Print Assumptions C80_none.

(** That log is not positive is needed: otherwise the step is undefined, a NaN made an int. *)
Theorem C80_bad_log :
  forall fcos flog r1 r2, (1 <= flog (val (rand_gen r1)))%R -> random_step fcos flog r1 r2 = None.
Proof. exact bad_log. Qed.
Print Assumptions C80_bad_log.

(** All steps are defined ... *)
Theorem C80_drawn :
  forall fcos flog rnd, libm fcos flog -> random_numbers rnd -> exists steps, drawn fcos flog rnd steps.
Proof. intros fcos flog rnd L. exact (steps_drawn fcos flog L rnd). Qed.
Print Assumptions C80_drawn.

(** ... and from sizes in range get_candidate proposes sizes in range that differ from them by at
    most 210 rows, 140 of K and 896 columns. *)
Theorem C80_near :
  forall fcos flog M K N pm pn c rnd v cand curr steps v' r, libm fcos flog ->
  tunable M K N pm pn c -> random_numbers rnd -> drawn fcos flog rnd steps ->
  inside M K N pm pn c curr -> Z.of_nat (length v) < all_points M K N ->
  gives M K N pm pn c v cand curr steps v' r ->
  inside M K N pm pn c r /\
  Z.abs (cd_m_c r - cd_m_c curr) <= 210 /\ Z.abs (cd_k_c r - cd_k_c curr) <= 140 /\ Z.abs (cd_n_c r - cd_n_c curr) <= 896.
Proof. intros fcos flog M K N pm pn c rnd v cand curr steps v' r L. exact (proposals_near fcos flog L M K N pm pn c rnd v cand curr steps v' r). Qed.
Print Assumptions C80_near.

(** So a search that stays at one point has at most 15^3 = 3375 sizes to propose; when there are
    more points it does not return once these are tried, whatever rand() returns and even with one
    core, where the sizes of the whole matrix are in range. *)
Theorem C80_returns_refuted :
  forall M K N pm pn c curr, tunable M K N pm pn c -> 3375 < all_points M K N ->
  exists v, NoDup v /\ Z.of_nat (length v) <= 3375 /\ (forall t, In t v -> exists d, t = moved M K N pm pn c curr d) /\
    forall fcos flog rnd cand steps, libm fcos flog -> random_numbers rnd -> drawn fcos flog rnd steps ->
      hangs M K N pm pn c v cand curr steps.
Proof. exact stuck. Qed.
Print Assumptions C80_returns_refuted.

(** A first call with rand() always 0: seven steps up in each direction. *)
Example C80_applies :
  let curr := CD 48 40 160 KMN in
  tunable 960 960 2048 1 1 wctx /\ random_numbers (fun _ : nat => 0) /\ drawn cos ln (fun _ => 0) (fun _ => (7, 7, 7)) /\
  inside 960 960 2048 1 1 wctx curr /\ all_points 960 960 2048 = 24576 /\
  gives 960 960 2048 1 1 wctx [] curr curr (fun _ => (7, 7, 7)) [(258, 180, 1056)] (CD 258 180 1056 KMN).
Proof.
  cbv zeta. split; [repeat split; discriminate|]. split; [intros i; unfold RAND_MAX; lia|].
  split; [intros i; unfold turn_steps; now rewrite seven|]. split; [reflexivity|]. split; [reflexivity|].
  exists 1%nat. reflexivity.
Qed.
