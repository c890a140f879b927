(** * The hash function of include/autotune.h and the set of sizes as a hash table.

    Definitions only.  size_t has 64 bits and std::hash<int> is the conversion to size_t, as in
    libstdc++.  std::unordered_set itself is not part of the code; the table below is what the
    standard says of it: elements in the bucket of their hash, a search within one bucket, and a
    new number of buckets after any insertion ([grow]; libstdc++ doubles them now and then). *)

From Coq Require Import ZArith List Bool.
From Verif Require Import Lang ModelSizing ModelUtil ModelTune.
Import ListNotations.
Open Scope Z_scope.

(** arithmetic of size_t *)
Definition u64 (z : Z) : Z := z mod 2 ^ 64.

(** include/autotune.h:29-37: seed ^= hash(v) + 0x9e3779b9 + (seed<<6) + (seed>>2) *)
Definition hash_combine (seed v : Z) : Z :=
  Z.lxor seed (u64 (u64 (u64 (u64 v + 2654435769) + u64 (Z.shiftl seed 6)) + Z.shiftr seed 2)).

(** include/autotune.h:40-75: the components in order, the first one first *)
Definition hash_tile (t : tile) : Z :=
  let '(m, k, n) := t in hash_combine (hash_combine (hash_combine 0 m) k) n.

(** a table: number of buckets, the buckets, number of elements *)
Record table : Type := Tab { tb_n : Z; tb_chain : Z -> list tile; tb_size : Z }.

Section Table.

Variables (hash : tile -> Z) (grow : table -> Z).

(** visited_params, src/autotune_sa.cpp:9; [n] buckets *)
Definition tb_empty (n : Z) : table := Tab n (fun _ => []) 0.

(** visited_params.count(param), src/autotune_sa.cpp:69 *)
Definition tb_count (t : table) (x : tile) : bool :=
  existsb (tile_eqb x) (tb_chain t (hash x mod tb_n t)).

(** all elements *)
Definition tb_elements (t : table) : list tile := flat_map (fun i => tb_chain t (Z.of_nat i)) (seq 0 (Z.to_nat (tb_n t))).

(** the elements in [n] buckets *)
Definition tb_rehash (t : table) (n : Z) : table :=
  Tab n (fun i => filter (fun x => hash x mod n =? i) (tb_elements t)) (tb_size t).

(** visited_params.insert(param), src/autotune_sa.cpp:73, of an element not in the set *)
Definition tb_insert (t : table) (x : tile) : table :=
  let b := hash x mod tb_n t in
  let t' := Tab (tb_n t) (fun i => if i =? b then x :: tb_chain t i else tb_chain t i) (tb_size t + 1) in
  tb_rehash t' (grow t').

(** src/autotune_sa.cpp:53-81, as [candidate_loop] (ModelTune.v) with the table *)
Fixpoint table_loop (fuel : nat) (M K N pm pn : Z) (c : cntx) (visited : table) (cand curr : cache_dims)
    (steps : nat -> Z * Z * Z) (i : nat) : option (table * cache_dims) :=
  match fuel with
  | O => None
  | S f =>
    if tb_size visited <? max_cand M K N then
      let '(dm, dk, dn) := steps i in
      let '(mcu, kcu, ncu) := get_candidate M K N pm pn c (cd_m_c curr) (cd_k_c curr) (cd_n_c curr) dm dk dn in
      if tb_count visited (mcu, kcu, ncu)
      then table_loop f M K N pm pn c visited cand curr steps (S i)
      else Some (tb_insert visited (mcu, kcu, ncu), CD mcu kcu ncu (cd_sch curr))
    else Some (visited, cand)
  end.

End Table.
