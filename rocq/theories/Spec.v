(** * Specifications, independent of the model of the code.

    Matrices in memory, dot products, and what "C = A*B" means for a caller. *)

From Coq Require Import ZArith List Bool Permutation.
From Verif Require Import Lang.
Import ListNotations.
Open Scope Z_scope.

(** The integers lo, lo+1, .., lo+n-1. *)
Definition zrange (lo n : Z) : list Z := zseq (Z.to_nat n) lo 1.

(** acc + a(k1)*b(k1) + a(k2)*b(k2) + ..., accumulated in the order of the list, one
    fused multiply-add per term. *)
Definition dot (S : scalar) (a b : Z -> S) (ks : list Z) (acc : S) : S :=
  fold_left (fun acc k => fma S (a k) (b k) acc) ks acc.

(** The rows x cols row-major matrix [f] is stored in object [b]. *)
Definition holds {V} (m : mem V) (b : buf) (rows cols : Z) (f : Z -> Z -> V) : Prop :=
  forall i j, 0 <= i < rows -> 0 <= j < cols -> dat m b (i * cols + j) = Some (f i j).
