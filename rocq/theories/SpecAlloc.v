(** * Running out of memory: specification. *)

From Coq Require Import ZArith Bool.
From Verif Require Import Lang.
Open Scope Z_scope.

(** Every execution of [P] from [m] ends the process by exit, and there is one. *)
Definition always_exits {V R} (P : prog V R) (m : mem V) : Prop :=
  (exists o, pexec P m o) /\ forall o, pexec P m o -> o = Exited.

(** Among the objects in [fl] there are only copies of A or B. *)
Definition only_copies (fl : buf -> bool) : Prop :=
  forall b, fl b = true -> b = BufBp \/ exists i, b = BufAp i.
