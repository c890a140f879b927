(** * The search loop of the autotuner, src/autotune_sa.cpp.

    Definitions only.  get_candidate keeps the sizes already tried in the global set
    visited_params (line 9), which lives across calls; its random numbers are an argument here,
    an infinite sequence of triples of steps (one triple per turn of the loop: lines 57-59), so
    that a theorem holds for every behaviour of rand().  Simplifications: the set is a list
    without repetitions; the int arithmetic of max_cand is exact; the printf calls are left out. *)

From Coq Require Import ZArith List Bool.
From Verif Require Import Lang ModelSizing ModelUtil.
Import ListNotations.
Open Scope Z_scope.

Definition tile : Set := Z * Z * Z.

(** equality of std::tuple<int,int,int> *)
Definition tile_eqb (a b : tile) : bool :=
  let '(m, k, n) := a in let '(m', k', n') := b in (m =? m') && (k =? k') && (n =? n').

(** lines 48-50: (D % step) ? (D / step) + 1 : (D / step) *)
Definition steps_in (D step : Z) : Z := if Z.rem D step =? 0 then Z.quot D step else Z.quot D step + 1.

(** lines 48-50: max_cand *)
Definition max_cand (M K N : Z) : Z := steps_in M 30 * steps_in K 20 * steps_in N 128.

(** lines 53-81: the loop, at most [fuel] turns of it, from the [i]-th triple of random numbers.
    [None]: not finished yet.  Otherwise the set afterwards and what *cand holds. *)
Fixpoint candidate_loop (fuel : nat) (M K N pm pn : Z) (c : cntx) (visited : list tile) (cand curr : cache_dims)
    (steps : nat -> Z * Z * Z) (i : nat) : option (list tile * cache_dims) :=
  match fuel with
  | O => None
  | S f =>
    if Z.of_nat (length visited) <? max_cand M K N then
      let '(dm, dk, dn) := steps i in
      let '(mcu, kcu, ncu) := get_candidate M K N pm pn c (cd_m_c curr) (cd_k_c curr) (cd_n_c curr) dm dk dn in
      if existsb (tile_eqb (mcu, kcu, ncu)) visited
      then candidate_loop f M K N pm pn c visited cand curr steps (S i)
      else Some ((mcu, kcu, ncu) :: visited, CD mcu kcu ncu (cd_sch curr))
    else Some (visited, cand)
  end.
