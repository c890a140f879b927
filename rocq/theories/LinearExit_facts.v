(** * The PyTorch layer refuses tensors with too few dimensions. *)

From Coq Require Import ZArith List Bool Lia.
From Verif Require Import Lang Spec SpecAlloc SpecLinear ModelSizing ModelKernel ModelPack ModelSched ModelTop ModelUtil ModelLinear Linear_facts.
Import ListNotations.
Open Scope Z_scope.

Local Transparent pbind palloc.

Lemma exit_exits {V R} (m : mem V) : always_exits (PExit : prog V R) m.
Proof. split; [exists Exited; constructor|]. intros o H. inversion H; reflexivity. Qed.

Lemma forward_dimensions S add F (nz : elt S -> bool) one junk l2 l3 (X W : tensor S) bias m :
  (length (sizes X) < 2)%nat \/ sizes W = [] ->
  always_exits (linear_forward S add F nz one junk l2 l3 X W bias) m.
Proof.
  intros H. unfold linear_forward, size.
  destruct (sizes X) as [|a [|b l]]; cbn [nth_error lift pbind]; [apply exit_exits| |].
  - destruct (sizes W); cbn [nth_error lift pbind]; apply exit_exits.
  - destruct H as [H|H]; [cbn in H; lia|]. rewrite H. cbn [nth_error lift pbind]. apply exit_exits.
Qed.

Lemma backward_dimensions S add F (nz : elt S -> bool) one junk l2 l3 (G X W : tensor S) bias m :
  nothing m -> (length (sizes G) < 2)%nat \/ (length (sizes W) < 2)%nat ->
  always_exits (linear_backward S add F nz one junk l2 l3 G X W bias) m.
Proof.
  intros H0 H. unfold linear_backward, palloc. cbn [pbind].
  match goal with |- always_exits (PAlloc _ _ _ _ ?k) _ => enough (E : k = PExit) end.
  { rewrite E. split; [exists Exited; constructor; [lia|apply H0|constructor]|].
    intros o Ho. inversion Ho; subst.
    - match goal with K : pexec PExit _ _ |- _ => inversion K; reflexivity end.
    - match goal with K : _ \/ _ |- _ => destruct K as [K|K]; [lia|exfalso; apply K, H0] end. }
  unfold size. destruct (sizes G) as [|a [|b l]]; cbn [nth_error lift pbind]; [reflexivity| |].
  - destruct (sizes W) as [|? [|? ?]]; cbn [nth_error lift pbind]; reflexivity.
  - destruct H as [H|H]; [cbn in H; lia|]. destruct (sizes W) as [|? [|? ?]]; cbn in H; try lia; reflexivity.
Qed.
