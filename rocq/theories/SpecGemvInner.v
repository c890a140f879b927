(** * Sums of integers, and what the row-major kernel leaves in C.  Specification only. *)

From Coq Require Import ZArith List Bool.
From Verif Require Import Lang Spec SpecTop SpecSmall Witness.
Open Scope Z_scope.

(** f 0 + .. + f (n - 1) *)
Fixpoint nsum (f : Z -> Z) (n : nat) : Z :=
  match n with O => 0 | Datatypes.S n => nsum f n + f (Z.of_nat n) end.
Definition zsum (f : Z -> Z) (n : Z) : Z := nsum f (Z.to_nat n).

(** Eight rows of k elements, consecutive rows K apart; 64 elements of B; eight of C. *)
Definition inner_operands (m : mem Z) (k K : Z) (A : Z -> Z -> Z) (B C : Z -> Z) : Prop :=
  row_stored m BufA 0 K 8 k A /\
  (forall j, 0 <= j < 64 -> cell m BufB j (B j)) /\
  (forall i, 0 <= i < 8 -> cell m BufC i (C i)).

(** In every execution the program ends, C has become D, and nothing else has changed. *)
Definition leaves_in_C {R} (P : prog Z R) (m : mem Z) (D : Z -> Z) : Prop :=
  always P m (fun _ m' =>
    live m' = live m /\
    (forall i, 0 <= i < 8 -> dat m' BufC i = Some (D i)) /\
    (forall b i, ~ (b = BufC /\ 0 <= i < 8) -> dat m' b i = dat m b i)).
