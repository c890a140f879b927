(** * What the matrix-vector example compares.  Specification only. *)

From Coq Require Import ZArith List Bool.
From Verif Require Import Lang Spec SpecTop.
Open Scope Z_scope.

(** How many of the first [n] elements of [b] and of [b'] are far apart. *)
Definition far_pairs {V} (far : V -> V -> bool) (m : mem V) (b b' : buf) (n : Z) : Z :=
  Z.of_nat (length (filter (fun i => match dat m b i, dat m b' i with
                                     | Some u, Some v => far u v
                                     | _, _ => false
                                     end) (zrange 0 n))).
