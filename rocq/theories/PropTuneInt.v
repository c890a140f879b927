(** * get_candidate with 32-bit ints.

    ModelTuneInt.v is the function with the int expressions of the code; SpecTuneInt.v says which
    sizes are small enough. *)

From Coq Require Import ZArith Reals List Lia.
From Verif Require Import Lang ModelSizing ModelUtil ModelInt ModelTune SpecTune ModelNormal SpecNormal ModelTuneInt SpecTuneInt
     Witness TuneInt_facts.
Import ListNotations.
Open Scope Z_scope.

(** C82.  If the number of points and the largest sizes plus seven steps are ints, no int overflows
    in get_candidate, whatever rand() returns: it does what it does with unbounded ints (C63,
    C80), for any number of turns of its loop. *)
Theorem C82_no_overflow :
  forall fcos flog rnd fuel M K N pm pn c v cand curr steps,
  libm fcos flog -> random_numbers rnd -> drawn fcos flog rnd steps ->
  tunable M K N pm pn c -> room M K N pm pn c -> countable M K N -> inside M K N pm pn c curr ->
  get_candidate32 fuel M K N pm pn c v cand curr steps = CRet (candidate_loop fuel M K N pm pn c v cand curr steps 0).
Proof.
  intros fcos flog rnd fuel M K N pm pn c v cand curr steps L HR HD T R C HI.
  exact (candidate_32 fuel M K N pm pn c v cand curr steps T R C HI (drawn_small fcos flog rnd steps L HR HD)).
Qed.
Print Assumptions C82_no_overflow.

(** If the number of points is not an int every call is undefined, before any random number is
    drawn ... *)
Theorem C82_points_overflow_refuted :
  forall fuel M K N pm pn c v cand curr steps,
  tunable M K N pm pn c -> room M K N pm pn c -> ~ countable M K N ->
  get_candidate32 fuel M K N pm pn c v cand curr steps = CUB.
Proof. exact candidate_over. Qed.
Print Assumptions C82_points_overflow_refuted.

(** ... and also if a largest size is not. *)
Theorem C82_sizes_overflow_refuted :
  forall fuel M K N pm pn c v cand curr steps,
  tunable M K N pm pn c -> M <= INT_MAX -> N <= INT_MAX -> INT_MAX < share M pm (mr c) \/ INT_MAX < share N pn (nr c) ->
  get_candidate32 fuel M K N pm pn c v cand curr steps = CUB.
Proof. exact candidate_no_room. Qed.
Print Assumptions C82_sizes_overflow_refuted.

(** Square matrices of 20000 are small enough, of 60000 not; one core with almost as many rows as
    fit in an int has no room. *)
Example C82_applies :
  (tunable 20000 20000 20000 4 1 wctx /\ room 20000 20000 20000 4 1 wctx /\ countable 20000 20000 20000 /\
   inside 20000 20000 20000 4 1 wctx (CD 48 40 160 KMN)) /\
  (tunable 60000 60000 60000 4 1 wctx /\ room 60000 60000 60000 4 1 wctx /\ ~ countable 60000 60000 60000) /\
  (tunable 2147483647 1 1 1 1 wctx /\ INT_MAX < share 2147483647 1 (mr wctx)).
Proof.
  unfold tunable, room, countable. repeat split; try (vm_compute; congruence). intros (_ & H). now vm_compute in H.
Qed.
