(** * Tiles in memory, and compressed tiles.  Specification only. *)

From Coq Require Import ZArith List Bool Permutation.
From Verif Require Import Lang Spec SpecTop.
Open Scope Z_scope.

(** Element [i] of object [b] exists and has the value [v]. *)
Definition cell {V} (m : mem V) (b : buf) (i : Z) (v : V) : Prop :=
  exists bi, live m b = Some bi /\ 0 <= i < blen bi /\ dat m b i = Some v.

(** A rows x k tile stored by columns from offset [o] of [b], consecutive columns [ld] apart. *)
Definition col_stored {V} (m : mem V) (b : buf) (o ld rows k : Z) (f : Z -> Z -> V) : Prop :=
  forall r kk, 0 <= r < rows -> 0 <= kk < k -> cell m b (o + kk * ld + r) (f r kk).

(** A rows x cols tile stored by rows, consecutive rows [ld] apart. *)
Definition row_stored {V} (m : mem V) (b : buf) (o ld rows cols : Z) (f : Z -> Z -> V) : Prop :=
  forall r s, 0 <= r < rows -> 0 <= s < cols -> cell m b (o + r * ld + s) (f r s).

(** In every execution, program P turns the tile of C into [R] and changes nothing else. *)
Definition turns_tile_into {V} (P : prog V unit) (m : mem V) (c : buf) (co ldc rows cols : Z)
           (R : Z -> Z -> V) : Prop :=
  always P m (fun _ m' =>
    (forall r s, 0 <= r < rows -> 0 <= s < cols -> dat m' c (co + r * ldc + s) = Some (R r s)) /\
    (forall b, live m' b = live m b) /\
    (forall b x, ~ (b = c /\ exists r s, 0 <= r < rows /\ 0 <= s < cols /\ x = co + r * ldc + s) ->
       dat m' b x = dat m b x)).

(** ** Compressed tiles *)

(** The columns of a tile of A are listed in some order; [cols t] are the nonzeros of the t-th
    column listed, each with its row.  [nonzeros cols k] are those of the first k columns. *)
Definition nonzeros {V} (cols : Z -> list (Z * V)) (k : Z) : list (Z * V) :=
  flat_map cols (zrange 0 k).

(** The four arrays that describe the tile to the sparse kernels: nnz_outer the number of nonzeros
    of each listed column, k_inds which column of A it is, loc_m and the object [a] the rows and
    the values of all nonzeros one after the other. *)
Record compressed {V} (m : mem V) (a : buf) (ao : Z) (nnz_outer k_inds loc_m : Z -> option Z)
       (rows k : Z) (cols : Z -> list (Z * V)) (kind : Z -> Z) : Prop := Compressed {
  cp_nnz : forall t, 0 <= t < k -> nnz_outer t = Some (Z.of_nat (length (cols t)));
  cp_kind : forall t, 0 <= t < k -> k_inds t = Some (kind t);
  cp_nz : forall q i v, nth_error (nonzeros cols k) q = Some (i, v) ->
            loc_m (Z.of_nat q) = Some i /\ cell m a (ao + Z.of_nat q) v;
  cp_row : forall t i v, 0 <= t < k -> In (i, v) (cols t) -> 0 <= i < rows }.

(** Columns without nonzeros are listed last. *)
Definition empty_last {V} (cols : Z -> list (Z * V)) (k : Z) : Prop :=
  forall t t', 0 <= t <= t' -> t' < k -> cols t = nil -> cols t' = nil.

(** The nonzeros of row r times column s of B, added to acc in the order listed. *)
Definition sparse_dot (S : scalar) (cols : Z -> list (Z * S)) (kind : Z -> Z) (B : Z -> Z -> S)
           (r s : Z) (ts : list Z) (acc : S) : S :=
  fold_left (fun acc t =>
    fold_left (fun acc e => if fst e =? r then fma S (snd e) (B (kind t) s) acc else acc)
              (cols t) acc) ts acc.

(** The list describes the rows x k matrix A: every column once, and of each column exactly the
    listed elements are not zero. *)
Definition describes (S : scalar) (cols : Z -> list (Z * S)) (kind : Z -> Z) (rows k : Z)
           (A : Z -> Z -> S) : Prop :=
  Permutation (map kind (zrange 0 k)) (zrange 0 k) /\
  forall t, 0 <= t < k ->
    NoDup (map fst (cols t)) /\
    (forall i v, In (i, v) (cols t) -> A i (kind t) = v) /\
    (forall i, 0 <= i < rows -> ~ In i (map fst (cols t)) -> A i (kind t) = zero S).

(** The columns the sparse kernels use, and in which order: groups of four up to the first group that
    begins with an empty column, then the last k mod 4 columns. *)
Fixpoint while_nonempty {V} (cols : Z -> list (Z * V)) (groups : list Z) : list Z :=
  match groups with
  | nil => nil
  | cons g gs => match cols (4 * g) with nil => nil | _ => cons g (while_nonempty cols gs) end
  end.
Definition columns_used {V} (cols : Z -> list (Z * V)) (k : Z) : list Z :=
  flat_map (fun g => cons (4 * g) (cons (4 * g + 1) (cons (4 * g + 2) (cons (4 * g + 3) nil))))
    (while_nonempty cols (zrange 0 (k / 4))) ++ zrange (4 * (k / 4)) (k mod 4).

(** The nonzeros are taken from the list one after the other, as many for a column as it has; so
    the i-th nonzero listed is used for the column [nth i (column_of_nonzero cols k)]. *)
Definition column_of_nonzero {V} (cols : Z -> list (Z * V)) (k : Z) : list Z :=
  flat_map (fun t => repeat t (length (cols t))) (columns_used cols k).
Definition sparse_used (S : scalar) (cols : Z -> list (Z * S)) (kind : Z -> Z) (B : Z -> Z -> S)
           (r s k : Z) (acc : S) : S :=
  fold_left (fun acc te => if fst (snd te) =? r then fma S (snd (snd te)) (B (kind (fst te)) s) acc else acc)
    (combine (column_of_nonzero cols k) (nonzeros cols k)) acc.

(** No column with nonzeros is skipped: after a group that begins with an empty column all
    columns of the groups are empty. *)
Definition none_skipped {V} (cols : Z -> list (Z * V)) (k : Z) : Prop :=
  forall g u, 0 <= g < k / 4 -> cols (4 * g) = nil -> 4 * g <= u < 4 * (k / 4) -> cols u = nil.
