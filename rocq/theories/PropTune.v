(** * The search loop of the autotuner.

    ModelTune.v is the loop with its set of sizes already tried; SpecTune.v says what a search is.
    All random numbers are allowed. *)

From Coq Require Import ZArith List Bool.
From Verif Require Import Lang ModelSizing ModelUtil ModelTune SpecTune Witness Tune_facts.
Import ListNotations.
Open Scope Z_scope.

(** C63.  A call that returns either finds all_points sizes tried already and changes nothing, or
    stores sizes a whole number of steps from the current ones that were never tried, keeps the
    schedule of the current point, and records the sizes. *)
Theorem C63_call :
  forall M K N pm pn c v cand curr steps v' r, tunable M K N pm pn c ->
  gives M K N pm pn c v cand curr steps v' r ->
  (all_points M K N <= Z.of_nat (length v) /\ v' = v /\ r = cand) \/
  (Z.of_nat (length v) < all_points M K N /\ ~ In (tile_of r) v /\ v' = tile_of r :: v /\ cd_sch r = cd_sch curr /\
   exists d, tile_of r = moved M K N pm pn c curr d).
Proof. intros M K N pm pn c v cand curr steps v' r T. exact (call_result M K N pm pn c T v cand curr steps v' r). Qed.
Print Assumptions C63_call.

(** In no search, whatever points it moves to, are the same sizes proposed twice in the first
    all_points calls ... *)
Theorem C63_never_twice :
  forall M K N pm pn c from v outs, tunable M K N pm pn c ->
  search M K N pm pn c from v outs -> Z.of_nat (length outs) <= all_points M K N ->
  NoDup (map tile_of outs).
Proof. intros M K N pm pn c from v outs T. exact (search_distinct M K N pm pn c T from v outs). Qed.
Print Assumptions C63_never_twice.

(** ... and afterwards every call returns at once and leaves the candidate as it was. *)
Theorem C63_afterwards :
  forall M K N pm pn c from v outs cand curr steps, tunable M K N pm pn c ->
  search M K N pm pn c from v outs -> all_points M K N <= Z.of_nat (length outs) ->
  gives M K N pm pn c v cand curr steps v cand /\
  (forall v' r, gives M K N pm pn c v cand curr steps v' r -> v' = v /\ r = cand).
Proof. intros M K N pm pn c from v outs cand curr steps T. exact (search_over M K N pm pn c T from v outs cand curr steps). Qed.
Print Assumptions C63_afterwards.

(** Exactly when a call returns, and when it does not: it waits for random numbers that lead to
    sizes not tried yet. *)
Theorem C63_returns :
  forall M K N pm pn c v cand curr steps, tunable M K N pm pn c ->
  ((exists v' r, gives M K N pm pn c v cand curr steps v' r) <->
   (all_points M K N <= Z.of_nat (length v) \/ exists i, ~ In (moved M K N pm pn c curr (steps i)) v)).
Proof. intros M K N pm pn c v cand curr steps T. exact (call_returns M K N pm pn c T v cand curr steps). Qed.
Print Assumptions C63_returns.

Theorem C63_hangs :
  forall M K N pm pn c v cand curr steps, tunable M K N pm pn c ->
  (hangs M K N pm pn c v cand curr steps <->
   (Z.of_nat (length v) < all_points M K N /\ forall i, In (moved M K N pm pn c curr (steps i)) v)).
Proof. intros M K N pm pn c v cand curr steps T. exact (call_hangs M K N pm pn c T v cand curr steps). Qed.
Print Assumptions C63_hangs.

(** all_points counts steps of the whole matrix, the proposals are clamped to the share of one core:
    if a point has fewer proposals than all_points, a search that stays there hangs, whatever the
    random numbers, at the call after the last of them and not before. *)
Theorem C63_one_point :
  forall M K N pm pn c curr L v outs, tunable M K N pm pn c ->
  proposals_at M K N pm pn c curr L -> Z.of_nat (length L) < all_points M K N ->
  search M K N pm pn c (eq curr) v outs ->
  (length outs <= length L)%nat /\
  (length outs = length L -> forall cand steps, hangs M K N pm pn c v cand curr steps) /\
  ((length outs < length L)%nat -> exists d, forall cand steps, (exists i, steps i = d) ->
     exists v' r, gives M K N pm pn c v cand curr steps v' r).
Proof. intros M K N pm pn c curr L v outs T. exact (search_one M K N pm pn c T curr L v outs). Qed.
Print Assumptions C63_one_point.

(** Such a search exists, so the claim that get_candidate always returns is false for all these
    sizes ... *)
Theorem C63_always_returns_refuted :
  forall M K N pm pn c curr L, tunable M K N pm pn c ->
  proposals_at M K N pm pn c curr L -> Z.of_nat (length L) < all_points M K N ->
  exists v outs, search M K N pm pn c (eq curr) v outs /\ length outs = length L /\
    forall cand steps, hangs M K N pm pn c v cand curr steps.
Proof. intros M K N pm pn c curr L T. exact (search_one_ends M K N pm pn c T curr L). Qed.
Print Assumptions C63_always_returns_refuted.

(** ... and this is the number of proposals of a point. *)
Theorem C63_proposals :
  forall M K N pm pn c curr,
  exists L, proposals_at M K N pm pn c curr L /\
    Z.of_nat (length L) =
      places (cd_m_c curr) (mr c) (share M pm (mr c)) 30 * places (cd_k_c curr) 20 K 20 *
      places (cd_n_c curr) (nr c) (share N pn (nr c)) 128.
Proof. exact proposals_exist. Qed.
Print Assumptions C63_proposals.

(** A search of two calls on a 960 x 20 by 20 x 1024 product; with eight cores this point has
    60 proposals, and the loop waits for 256. *)
Example C63_applies :
  let curr := CD 48 20 160 KMN in
  tunable 960 20 1024 8 1 wctx /\
  (exists v outs, search 960 20 1024 8 1 wctx (eq curr) v outs /\
     map tile_of outs = [(18, 20, 16); (78, 20, 288)] /\ NoDup (map tile_of outs)) /\
  all_points 960 20 1024 = 256 /\
  places 48 (mr wctx) (share 960 8 (mr wctx)) 30 * places 20 20 20 20 *
  places 160 (nr wctx) (share 1024 1 (nr wctx)) 128 = 60 /\
  exists v outs, search 960 20 1024 8 1 wctx (eq curr) v outs /\ length outs = 60%nat /\
    forall cand steps, hangs 960 20 1024 8 1 wctx v cand curr steps.
Proof.
  cbv zeta. assert (T : tunable 960 20 1024 8 1 wctx) by (repeat split; discriminate).
  split; [exact T|]. split; [|split; [reflexivity|split; [reflexivity|]]].
  - exists [(18, 20, 16); (78, 20, 288)], [CD 18 20 16 KMN; CD 78 20 288 KMN]. split; [|split; [reflexivity|]].
    + eapply (Call _ _ _ _ _ _ _ _ _ (CD 48 20 160 KMN) (CD 48 20 160 KMN) (fun i => match i with O => (1, 1, 1) | S _ => (-1, 3, -2) end)).
      * eapply (Call _ _ _ _ _ _ _ _ _ (CD 48 20 160 KMN) (CD 48 20 160 KMN) (fun _ => (1, 1, 1))).
        -- apply Fresh.
        -- reflexivity.
        -- exists 2%nat. reflexivity.
      * reflexivity.
      * exists 5%nat. reflexivity.
    + apply (NoDup_cons _ (l := [(78, 20, 288)])); [|repeat constructor; intros []]. intros [E|[]]. discriminate E.
  - destruct (proposals_exist 960 20 1024 8 1 wctx (CD 48 20 160 KMN)) as (L & HL & B).
    change (Z.of_nat (length L) = Z.of_nat 60) in B. apply Nat2Z.inj in B.
    destruct (search_one_ends 960 20 1024 8 1 wctx T (CD 48 20 160 KMN) L HL) as (v & outs & H & E & G).
    + rewrite B. reflexivity.
    + exists v, outs. split; [exact H|split; [congruence|exact G]].
Qed.
