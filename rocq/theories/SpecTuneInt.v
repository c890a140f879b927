(** * Specification: sizes for which the autotuner's ints are large enough. *)

From Coq Require Import ZArith List.
From Verif Require Import Lang ModelSizing ModelUtil ModelTune SpecTune.
Open Scope Z_scope.

Definition INT_MAX : Z := 2147483647.

(** Room for seven steps above the largest sizes. *)
Definition room M K N pm pn c : Prop :=
  M <= INT_MAX /\ N <= INT_MAX /\
  share M pm (mr c) <= INT_MAX - 210 /\ K <= INT_MAX - 140 /\ share N pn (nr c) <= INT_MAX - 896.

(** The number of points is an int, and so is the number for a matrix of one column. *)
Definition countable M K N : Prop := all_points M K 1 <= INT_MAX /\ all_points M K N <= INT_MAX.

(** Steps as get_candidate takes them (C80). *)
Definition small_steps (steps : nat -> Z * Z * Z) : Prop :=
  forall i, let '(dm, dk, dn) := steps i in -7 <= dm <= 7 /\ -7 <= dk <= 7 /\ -7 <= dn <= 7.
