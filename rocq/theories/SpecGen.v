(** * The constants the library finds in the generated header.  Specification only. *)

From Coq Require Import ZArith List Bool.
From Verif Require Import Lang ModelSizing SpecSmall ModelGen.
Open Scope Z_scope.

(** Factors may be exchanged. *)
Definition commutes (S : scalar) : Prop := forall a b c : S, fma S a b c = fma S b a c.

(** What a library compiled with header [h] for target [t] is built from. *)
Definition built_for (t : target) (h : header) : arch :=
  Arch (h_mr_fact h) (h_nr_fact h) (h_mr_min h) (h_nr_min h) (h_rows h) (h_cols h) (b_align t).

(** Object [b] is suitable for the vector loads of target [t] from offset [o]. *)
Definition b_aligned {V} (t : target) (m : mem V) (b : buf) (o : Z) : Prop :=
  b_align t = 1 \/ exists bi, live m b = Some bi /\ b64 bi = true /\ (b_align t | o).
