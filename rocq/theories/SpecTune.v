(** * Specification: searches by the autotuner.

    A search is a sequence of calls of get_candidate; between two calls the program may move to
    any point, and the random numbers are arbitrary. *)

From Coq Require Import ZArith List.
From Verif Require Import Lang ModelSizing ModelUtil ModelTune.
Import ListNotations.
Open Scope Z_scope.

(** The call finishes, leaving the set [v'] and the candidate [r]. *)
Definition gives M K N pm pn c v cand curr steps v' r : Prop :=
  exists fuel, candidate_loop fuel M K N pm pn c v cand curr steps 0 = Some (v', r).

(** The call never returns. *)
Definition hangs M K N pm pn c v cand curr steps : Prop :=
  forall fuel, candidate_loop fuel M K N pm pn c v cand curr steps 0 = None.

Definition tile_of (d : cache_dims) : tile := (cd_m_c d, cd_k_c d, cd_n_c d).

(** [search from v outs]: starting with nothing tried, calls made at points in [from] have left the
    set [v] and stored [outs] in *cand, latest first. *)
Inductive search M K N pm pn c (from : cache_dims -> Prop) : list tile -> list cache_dims -> Prop :=
  | Fresh : search M K N pm pn c from [] []
  | Call v outs cand curr steps v' r :
      search M K N pm pn c from v outs -> from curr -> gives M K N pm pn c v cand curr steps v' r ->
      search M K N pm pn c from v' (r :: outs).

(** Sizes, a register tile and a grid of cores a user can give. *)
Definition tunable (M K N pm pn : Z) (c : cntx) : Prop :=
  0 <= M /\ 0 <= K /\ 0 <= N /\ 0 < pm /\ 0 < pn /\ 0 < mr c /\ 0 < nr c.

(** The steps of 30 rows, 20 of K and 128 columns it takes to cover the whole matrix. *)
Definition all_points (M K N : Z) : Z := ((M + 29) / 30) * ((K + 19) / 20) * ((N + 127) / 128).

(** The share of one of [g] cores of [D] rows (columns), made up to the next whole number of register
    tiles of [r]. *)
Definition share (D g r : Z) : Z := (D / g / r + 1) * r.

Definition clamped (lo hi z : Z) : Z := Z.min hi (Z.max lo z).

(** The sizes [d] steps away from those of [curr], brought into the range from one register tile (20
    in K) to the share of one core. *)
Definition moved M K N pm pn c (curr : cache_dims) (d : Z * Z * Z) : tile :=
  let '(dm, dk, dn) := d in
  (clamped (mr c) (share M pm (mr c)) (cd_m_c curr + 30 * dm),
   clamped 20 K (cd_k_c curr + 20 * dk),
   clamped (nr c) (share N pn (nr c)) (cd_n_c curr + 128 * dn)).

(** [L] lists the different sizes that can be proposed at [curr], over all random numbers. *)
Definition proposals_at M K N pm pn c (curr : cache_dims) (L : list tile) : Prop :=
  NoDup L /\ forall t, In t L <-> exists d, t = moved M K N pm pn c curr d.

(** So many values between [lo] and [hi], these included, are reached from [cur] in steps of [step]
    when what lies outside is brought back to [lo] or [hi]: the two ends and the numbers strictly
    between them that differ from [cur] by a multiple of [step]. *)
Definition places (cur lo hi step : Z) : Z :=
  if lo <? hi then 2 + ((hi - 1 - cur) / step - (lo - cur) / step) else 1.
