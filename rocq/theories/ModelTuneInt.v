(** * get_candidate with 32-bit ints, src/autotune_sa.cpp.

    Definitions only.  ModelTune.v once more, with the int expressions as they stand in the code
    and an intermediate result outside the range of int undefined (ModelInt.v).  The set is a
    list as in ModelTune.v; the random numbers (before the multiplication by the step) are an
    argument. *)

From Coq Require Import ZArith List Bool.
From Verif Require Import Lang ModelSizing ModelUtil ModelInt ModelTune.
Import ListNotations.
Open Scope Z_scope.

(** lines 48-50: (D % step) ? (D / step) + 1 : (D / step) *)
Definition steps_in32 (D step : Z) : comp Z :=
  do r <- cint (D rem step);
  if truthy r then cint ((D / step) + 1) else cint (D / step).

(** lines 48-50 *)
Definition max_cand32 (M K N : Z) : comp Z :=
  do a <- steps_in32 M 30;
  do b <- steps_in32 K 20;
  do d <- steps_in32 N 128;
  cint (a * b * d).

(** lines 42 and 45: (M / pm) + (mr - ((M / pm) % mr)) *)
Definition largest32 (D g r : Z) : comp Z := cint ((D / g) + (r - ((D / g) rem r))).

(** lines 28-32 and 57-59: curr->m_c + get_random_step(mc_step), with the multiplication of line 31 *)
Definition step32 (cur d step : Z) : comp Z :=
  do s <- cint (d * step);
  cint (cur + s).

(** lines 53-81.  The comparison of size() with the int max_cand is one of size_t; max_cand is not
    negative here. *)
Fixpoint loop32 (fuel : nat) (max_cand mc_max kc_max nc_max : Z) (c : cntx) (visited : list tile) (cand curr : cache_dims)
    (steps : nat -> Z * Z * Z) (i : nat) : comp (option (list tile * cache_dims)) :=
  match fuel with
  | O => CRet None
  | S f =>
    if Z.of_nat (length visited) <? max_cand mod 2 ^ 64 then
      let '(dm, dk, dn) := steps i in
      do mcu <- step32 (cd_m_c curr) dm 30;
      do kcu <- step32 (cd_k_c curr) dk 20;
      do ncu <- step32 (cd_n_c curr) dn 128;
      let mcu := clamp_val_int mcu (mr c) mc_max in
      let kcu := clamp_val_int kcu 20 kc_max in
      let ncu := clamp_val_int ncu (nr c) nc_max in
      if existsb (tile_eqb (mcu, kcu, ncu)) visited
      then loop32 f max_cand mc_max kc_max nc_max c visited cand curr steps (S i)
      else CRet (Some ((mcu, kcu, ncu) :: visited, CD mcu kcu ncu (cd_sch curr)))
    else CRet (Some (visited, cand))
  end.

(** lines 36-83 *)
Definition get_candidate32 (fuel : nat) (M K N pm pn : Z) (c : cntx) (visited : list tile) (cand curr : cache_dims)
    (steps : nat -> Z * Z * Z) : comp (option (list tile * cache_dims)) :=
  do mc_max <- largest32 M pm (mr c);
  do nc_max <- largest32 N pn (nr c);
  do mx <- max_cand32 M K N;
  loop32 fuel mx mc_max K nc_max c visited cand curr steps 0.
