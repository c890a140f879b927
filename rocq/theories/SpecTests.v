(** * Random matrices and the tests.  Specification only. *)

From Coq Require Import ZArith.
From Verif Require Import Lang SpecTop.
Open Scope Z_scope.

(** The first n elements of object b are [elem (rnd 0)], [elem (rnd 1)], ... and nothing else
    has changed. *)
Definition fills {V} (elem : Z -> V) (m m' : mem V) (b : buf) (n : Z) (rnd : Z -> Z) : Prop :=
  (forall b, live m' b = live m b) /\ (forall i, 0 <= i < n -> dat m' b i = Some (elem (rnd i))) /\
  (forall b' i, ~ (b' = b /\ 0 <= i < n) -> dat m' b' i = dat m b' i).

(** Neither the operands nor an object of the library exist yet. *)
Definition nothing_yet {V} (m : mem V) : Prop :=
  live m BufA = None /\ live m BufB = None /\ live m BufC = None /\ forall b, own b -> live m b = None.

(** x*x added n times to 0 *)
Definition times (S : scalar) (x : elt S) (n : nat) : elt S := Nat.iter n (fun a => fma S x x a) (zero S).
