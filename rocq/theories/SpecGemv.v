(** * Matrix times vector.  Specification only. *)

From Coq Require Import ZArith List Bool.
From Verif Require Import Lang Spec SpecTop SpecSmall.
Open Scope Z_scope.

(** An M x K matrix stored by columns, a vector of K and a vector of M elements. *)
Definition gemv_operands {V} (m : mem V) (M K : Z) (A : Z -> Z -> V) (B C : Z -> V) : Prop :=
  col_stored m BufA 0 M M K A /\
  (forall k, 0 <= k < K -> cell m BufB k (B k)) /\
  (forall i, 0 <= i < M -> cell m BufC i (C i)).

(** In every execution the program ends, element i of C has become
    C i + A i 0 * B 0 + .. + A i (K-1) * B (K-1), added in this order, and nothing else changed. *)
Definition adds_product {R} (S : scalar) (P : prog (elt S) R) (m : mem (elt S)) (M K : Z)
    (A : Z -> Z -> elt S) (B C : Z -> elt S) : Prop :=
  always P m (fun _ m' =>
    live m' = live m /\
    (forall i, 0 <= i < M -> dat m' BufC i = Some (dot S (A i) B (zrange 0 K) (C i))) /\
    (forall b i, ~ (b = BufC /\ 0 <= i < M) -> dat m' b i = dat m b i)).

(** Tile sizes given by the user that the code can work with, or none given: then [raw], the size
    computed from the cache, is not negative and rounding it to a multiple of 64 suits m_r. *)
Definition usable_tiles (raw M p m_r : Z) (user : option (Z * Z)) : Prop :=
  match user with
  | Some (m_c, k_c) => 0 < m_c /\ (m_r | m_c) /\ 0 < k_c
  | None => 0 <= raw /\ ((m_r | 64) \/ M < 64 * p)
  end.
