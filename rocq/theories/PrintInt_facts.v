(** * print_mat with 32-bit ints. *)

From Coq Require Import ZArith List String Lia.
From Verif Require Import Lang Spec SpecSmall SpecPrint ModelSizing ModelKernel ModelInt ModelPrint ModelPrintInt
     Print_facts Int_facts UtilInt_facts.
Import ListNotations.
Open Scope Z_scope.

Section PrintInt.
Context {V : Type}.

Lemma out_for_ext n (f g : Z -> comp (list (piece V))) : (forall j, 0 <= j < n -> f j = g j) -> out_for n f = out_for n g.
Proof.
  intros H. unfold out_for.
  assert (G : forall k i, 0 <= i -> i + Z.of_nat k <= Z.max 0 n -> out_iter k i f = out_iter k i g).
  { induction k as [|k IH]; intros i Hi Hk; [reflexivity|]. cbn [out_iter]. rewrite H by lia. now rewrite IH by lia. }
  apply G; lia.
Qed.

Theorem print_mat_32 (m : mem V) arr r c : r * c <= 2 ^ 31 -> print_mat32 m arr r c = print_mat m arr r c.
Proof.
  intros L. unfold print_mat32, print_mat. f_equal. apply out_for_ext. intros i Hi. f_equal.
  apply out_for_ext. intros j Hj. unfold cint. rewrite (index_safe i c j r) by lia. reflexivity.
Qed.

Theorem print_mat_over (m : mem V) arr r c : 0 < r -> 0 < c -> 2 ^ 31 < r * c -> print_mat32 m arr r c = CUB.
Proof.
  intros Hr Hc L. unfold print_mat32.
  assert (X : forall i j, (do x <- cint (IxAdd (IxMul i c) j); do v <- elem m arr x; CRet [Show v; Say " "])%comp <> CExit).
  { intros i j. unfold cint. destruct (isafe _); [|discriminate]. cbn [cbind]. apply bind_exit; [apply elem_exit|discriminate]. }
  rewrite (out_for_ub _ _ (r - 1)); [reflexivity| |lia|].
  - intros i. apply bind_exit; [apply out_for_exit; auto|discriminate].
  - rewrite (out_for_ub _ _ (c - 1)); [reflexivity|auto|lia|].
    unfold cint. now rewrite index_over by nia.
Qed.
End PrintInt.
