(** * Specification: the C library and the steps of the autotuner. *)

From Coq Require Import ZArith Reals List.
From Verif Require Import Lang ModelSizing ModelUtil ModelTune SpecTune ModelTests ModelNormal.
Open Scope Z_scope.

(** What is asked of cos and log: a cosine is between -1 and 1, and the logarithm of a number up to
    1 is not positive and wrong by at most 1 (a real library is wrong by less than 2^-40). *)
Definition libm (fcos flog : R -> R) : Prop :=
  (forall x, -1 <= fcos x <= 1)%R /\
  (forall v, 0 < v <= 1 -> flog v <= 0 /\ Rabs (flog v - ln v) <= 1)%R.

(** results of rand() *)
Definition random_numbers {I : Type} (rnd : I -> Z) : Prop := forall i, 0 <= rnd i <= RAND_MAX.

(** The steps get_candidate takes with these random numbers. *)
Definition drawn fcos flog (rnd : nat -> Z) (steps : nat -> Z * Z * Z) : Prop :=
  forall i, turn_steps fcos flog rnd i = Some (steps i).

(** The current sizes are in the range of the autotuner: a move by nothing leaves them alone. *)
Definition inside M K N pm pn c (d : cache_dims) : Prop :=
  moved M K N pm pn c d (0, 0, 0) = tile_of d.
