(** * Specification: what a hash table holds. *)

From Coq Require Import ZArith List.
From Verif Require Import Lang ModelSizing ModelUtil ModelTune ModelHash.
Import ListNotations.
Open Scope Z_scope.

Definition is_int (z : Z) : Prop := -2147483648 <= z <= 2147483647.

(** [filled hash grow t l]: the table was empty and the different sizes [l], latest first, were put
    into it. *)
Inductive filled (hash : tile -> Z) (grow : table -> Z) : table -> list tile -> Prop :=
  | FEmpty n : 0 < n -> filled hash grow (tb_empty n) []
  | FInsert t l x : filled hash grow t l -> ~ In x l -> filled hash grow (tb_insert hash grow t x) (x :: l).

(** Two results of a call: both do not finish in the given number of turns, or both leave the same
    candidate and the same set. *)
Definition agree hash grow (a : option (list tile * cache_dims)) (b : option (table * cache_dims)) : Prop :=
  match a, b with
  | None, None => True
  | Some (l, r), Some (t, r') => r = r' /\ filled hash grow t l
  | _, _ => False
  end.
