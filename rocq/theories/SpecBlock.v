(** * Where a packed block keeps its elements.

    Specification only. *)

From Coq Require Import ZArith.
From Verif Require Import Lang Spec SpecTop.
Open Scope Z_scope.

(** A block of A is cut into panels of [r] rows, a block of B into panels of [r] columns; a panel of
    depth [d] keeps, for each step k of the depth, its r elements side by side.  [i] is the row
    (column) in the block. *)
Definition panel_slot (r d i k : Z) : Z := i / r * (r * d) + k * r + i mod r.

(** A block of C of [mc] rows: panels of n_r columns, each a stack of m_r x n_r tiles stored by rows. *)
Definition tile_slot (mr nr mc i j : Z) : Z :=
  j / nr * (mc * nr) + i / mr * (mr * nr) + i mod mr * nr + j mod nr.

(** [P] fills the [rows] x [cols] slots from element [o] of [dst] on, element (i,j) at
    [o + slot i j] with value [v i j], and changes nothing else. *)
Definition fills {V} (P : prog V unit) (m : mem V) (dst : buf) (o rows cols : Z) (slot : Z -> Z -> Z)
           (v : Z -> Z -> V) : Prop :=
  always P m (fun _ m' =>
    (forall i j, 0 <= i < rows -> 0 <= j < cols -> dat m' dst (o + slot i j) = Some (v i j)) /\
    (forall b, live m' b = live m b) /\
    (forall b x, ~ (b = dst /\ o <= x < o + rows * cols) -> dat m' b x = dat m b x)).

(** [P] copies the slots back to the block of the M x N matrix in [dst] whose first element is (r0,c0),
    as far as the block lies in the matrix, and changes nothing else. *)
Definition copies_back {V} (P : prog V unit) (m : mem V) (dst : buf) (M N r0 c0 rows cols : Z)
           (v : Z -> Z -> V) : Prop :=
  always P m (fun _ m' =>
    (forall i j, 0 <= i < M -> 0 <= j < N ->
       dat m' dst (i * N + j) =
       if ((r0 <=? i) && (i <? r0 + rows) && (c0 <=? j) && (j <? c0 + cols))%bool
       then Some (v (i - r0) (j - c0)) else dat m dst (i * N + j)) /\
    (forall b, live m' b = live m b) /\
    (forall b x, ~ (b = dst /\ 0 <= x < M * N) -> dat m' b x = dat m b x)).
