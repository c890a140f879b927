(** * Factors of the fused multiply-add of float may be exchanged. *)

From Coq Require Import ZArith Bool Lia.
From Flocq Require Import Core BinarySingleNaN Operations.
From Verif Require Import Lang ModelSingle ModelIEEE SpecGen.

Lemma Fmult_comm beta (x y : float beta) : Operations.Fmult x y = Operations.Fmult y x.
Proof. destruct x, y. cbn. f_equal; lia. Qed.

Lemma single_commutes : commutes Single.
Proof.
  intros a b c. cbn [fma Single]. unfold Bfma.
  destruct a as [sa|sa| |sa ma ea ba], b as [sb|sb| |sb mb eb bb]; try reflexivity; try (destruct c; reflexivity).
  all: unfold Bfma_szero; cbn [Bsign]; rewrite ?(xorb_comm sb sa).
  all: try reflexivity.
  all: destruct c; try reflexivity.
  all: cbv zeta; rewrite (Fmult_comm radix2 {| Fnum := SpecFloat.cond_Zopp sb (Z.pos mb); Fexp := eb |}); reflexivity.
Qed.
