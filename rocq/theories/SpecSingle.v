(** * Accuracy of a sum of products.  Specification only. *)

From Coq Require Import ZArith Reals List.
From Flocq Require Import BinarySingleNaN.
From Verif Require Import Spec ModelIEEE.
Open Scope R_scope.

(** The real number a finite float stands for *)
Definition val (x : single) : R := B2R x.
Definition finite (x : single) : Prop := is_finite x = true.

(** f 0 + ... + f (K-1) *)
Definition sumR (K : Z) (f : Z -> R) : R := fold_right (fun k acc => f k + acc) 0 (zrange 0 K).

(** Element (i,j) of A*B in real arithmetic, and the sum of the absolute values of its terms *)
Definition exact (A B : Z -> Z -> single) (K i j : Z) : R := sumR K (fun k => val (A i k) * val (B k j)).
Definition mass (A B : Z -> Z -> single) (K i j : Z) : R := sumR K (fun k => Rabs (val (A i k) * val (B k j))).

(** All elements of a matrix are finite *)
Definition all_finite (rows cols : Z) (A : Z -> Z -> single) : Prop :=
  forall i j, (0 <= i < rows)%Z -> (0 <= j < cols)%Z -> finite (A i j).

(** The classical bound for a sum of K products: the relative error of each operation is at most
    2^-24, and each operation may lose 2^-150 by underflow. *)
Definition grow (K : Z) : R := (1 + / 2 ^ 24) ^ Z.to_nat K.
Definition accurate (K : Z) (x : single) (s m : R) : Prop :=
  Rabs (val x - s) <= (grow K - 1) * m + IZR K * grow K * / 2 ^ 150.

(** K products with absolute values summing to m cannot overflow, whatever the order *)
Definition no_overflow (K : Z) (m : R) : Prop :=
  grow K * m + IZR K * grow K * / 2 ^ 150 < 2 ^ 128.

(** The float x is the integer n *)
Definition is_int (x : single) (n : Z) : Prop := finite x /\ val x = IZR n.

(** Sum over k < K of |A[i][k]*B[k][j]| *)
Definition massZ (A B : Z -> Z -> Z) (K i j : Z) : Z :=
  fold_right (fun k acc => Z.abs (A i k * B k j) + acc)%Z 0%Z (zrange 0 K).
Definition exactZ (A B : Z -> Z -> Z) (K i j : Z) : Z :=
  fold_right (fun k acc => A i k * B k j + acc)%Z 0%Z (zrange 0 K).
