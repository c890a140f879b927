(** * Specification: tiles of transpose_mat. *)

From Coq Require Import ZArith.
Open Scope Z_scope.

(** A tile argument rounded down to a multiple of 8, but at least 8. *)
Definition tile_of (t : Z) : Z := Z.max 8 (8 * (t / 8)).

(** The first row of the last 8 x 8 block of the last tile, for a matrix of K rows: it may lie below
    the matrix. *)
Definition last_block (K t : Z) : Z := (K - 1) / tile_of t * tile_of t + tile_of t - 8.
