(** * print_mat with 32-bit ints. *)

From Coq Require Import ZArith List String Lia.
From Verif Require Import Lang Spec SpecSmall SpecPrint SpecTuneInt ModelSizing ModelKernel ModelPrint ModelPrintInt PropPrint PrintInt_facts.
Import ListNotations.
Open Scope list_scope.
Open Scope Z_scope.

(** C83.  print_mat prints the rows (C78) if the last index is an int ... *)
Theorem C83_print_mat :
  forall V (m : mem V) b o r c (f : Z -> Z -> V), r * c - 1 <= INT_MAX ->
  (forall i j, 0 <= i < r -> 0 <= j < c -> cell m b (o + (i * c + j)) (f i j)) ->
  print_mat32 m (b, o) r c = CRet (lines_text r c f ++ [Say nl2]).
Proof. unfold INT_MAX. intros V m b o r c f L H. rewrite print_mat_32 by lia. now apply C78_mat. Qed.
Print Assumptions C83_print_mat.

(** ... and is undefined if it is not. *)
Theorem C83_print_mat_index_refuted :
  forall V (m : mem V) arr r c, 0 < r -> 0 < c -> INT_MAX < r * c - 1 -> print_mat32 m arr r c = CUB.
Proof. unfold INT_MAX. intros. apply print_mat_over; lia. Qed.
Print Assumptions C83_print_mat_index_refuted.

(** The 2 x 3 matrix of C78. *)
Example C83_print_mat_applies :
  print_mat32 pmem (BufA, 5) 2 3 = print_mat pmem (BufA, 5) 2 3 /\ print_mat pmem (BufA, 5) 2 3 <> CUB /\
  INT_MAX < 46341 * 46341 - 1.
Proof. split; [vm_compute; reflexivity|]. split; [vm_compute; discriminate|vm_compute; reflexivity]. Qed.
