(** * The hash function of the autotuner and the set of sizes tried.

    ModelHash.v is the hash function and the set as a hash table; SpecHash.v says what a table
    holds. *)

From Coq Require Import ZArith List Bool Lia.
From Verif Require Import Lang ModelSizing ModelUtil ModelTune SpecTune SpecNormal ModelHash SpecHash Witness Hash_facts.
Import ListNotations.
Open Scope Z_scope.

(** C81.  The hash of all sizes is a number of 64 bits, and sizes that differ in n_c only have
    different hashes. *)
Theorem C81_hash :
  (forall t, 0 <= hash_tile t < 2 ^ 64) /\
  (forall m k n n', is_int n -> is_int n' -> hash_tile (m, k, n) = hash_tile (m, k, n') -> n = n').
Proof. exact (conj hash_range hash_last). Qed.
Print Assumptions C81_hash.

(** Not all different sizes have different hashes: two in the range of the search for 6 x 16
    register tiles that have the same. *)
Theorem C81_distinct_refuted :
  exists d d', tile_of d <> tile_of d' /\ hash_tile (tile_of d) = hash_tile (tile_of d') /\
    inside 960 960 2048 1 1 wctx d /\ inside 960 960 2048 1 1 wctx d'.
Proof.
  exists (CD 12 380 1088 KMN), (CD 18 20 16 KMN). split; [discriminate|]. repeat split; reflexivity.
Qed.
Print Assumptions C81_distinct_refuted.

(** This does no harm.  With this hash function, as with any other, and whenever the table changes
    its number of buckets, it holds exactly the sizes put into it, and counts them. *)
Theorem C81_table :
  forall hash grow t l, (forall t, 0 < grow t) -> filled hash grow t l ->
  (forall x, tb_count hash t x = true <-> In x l) /\ tb_size t = Z.of_nat (length l) /\ NoDup l.
Proof. intros hash grow t l G H. exact (conj (fun x => count_in hash grow G t l x H) (size_len hash grow G t l H)). Qed.
Print Assumptions C81_table.

(** Every call of get_candidate with the table does what it does with the set (C63). *)
Theorem C81_candidate :
  forall hash grow M K N pm pn c fuel t l cand curr steps i, (forall t, 0 < grow t) -> filled hash grow t l ->
  agree hash grow (candidate_loop fuel M K N pm pn c l cand curr steps i)
                  (table_loop hash grow fuel M K N pm pn c t cand curr steps i).
Proof. intros hash grow M K N pm pn c fuel t l cand curr steps i G. exact (loops_agree hash grow G M K N pm pn c fuel t l cand curr steps i). Qed.
Print Assumptions C81_candidate.

(** A table with two sizes of the same hash, and a call that proposes the second one although the
    first has been tried. *)
Example C81_applies :
  let grow := fun t => 2 * Z.abs (tb_size t) + 1 in
  let t1 := tb_insert hash_tile grow (tb_empty 1) (12, 380, 1088) in
  let t2 := tb_insert hash_tile grow t1 (18, 20, 16) in
  (forall t, 0 < grow t) /\ filled hash_tile grow t2 [(18, 20, 16); (12, 380, 1088)] /\
  tb_count hash_tile t2 (12, 380, 1088) = true /\ tb_count hash_tile t2 (18, 20, 16) = true /\
  tb_count hash_tile t2 (18, 20, 32) = false /\ tb_size t2 = 2 /\ tb_n t2 = 5 /\
  table_loop hash_tile grow 1 960 960 2048 1 1 wctx t1 (CD 0 0 0 KMN) (CD 48 40 144 KMN) (fun _ => (-1, -1, -1)) 0 =
    Some (t2, CD 18 20 16 KMN).
Proof.
  cbv zeta. split; [intros; lia|]. split.
  - apply FInsert; [apply FInsert; [apply FEmpty; lia|intros []]|]. intros [E|[]]. discriminate E.
  - repeat split; reflexivity.
Qed.
