(** * The row-major kernel of the matrix-vector example (examples/cake_gemv.cpp:206-270). *)

From Coq Require Import ZArith List Bool Lia.
From Verif Require Import Lang Spec SpecTop SpecSmall SpecTouch SpecGemvInner Witness ModelSizing ModelKernel
     ModelGemvInner GemvInner_facts.
Import ListNotations.
Open Scope Z_scope.

Notation one_call m k K :=
  (ppar_for 0 1 1 (fun _ => cake_sgemv_haswell_inner_1x64x1 Zs Z.add (BufA, 0) (BufB, 0) (BufC, 0) m k K)).

(** C76.  With eight rows of k = 64 * u > 0 elements, any distance K between the rows, the kernel
    leaves in element i of C the sum of all eight elements of C and of the products of all rows
    up to row i, each taken with the first 64 elements of B repeated.  Nothing else changes.
    (Arithmetic is exact here: the code adds the lanes in another order.) *)
Theorem C76_leaves :
  forall u K A B C m,
  0 < u ->
  inner_operands m (64 * u) K A B C ->
  leaves_in_C (one_call 8 (64 * u) K) m
    (fun i => zsum C 8 + zsum (fun r => zsum (fun j => A r j * B (j mod 64)) (64 * u)) (i + 1)).
Proof. intros u K A B C m Hu H. exact (inner_leaves u K A B C Hu m H). Qed.
Print Assumptions C76_leaves.

(** So with 64 columns it adds A * B to C exactly when each element of C was the sum of all
    elements of C and of the products of the rows above it. *)
Theorem C76_right_iff :
  forall K A B C m,
  inner_operands m 64 K A B C ->
  leaves_in_C (one_call 8 64 K) m (fun i => C i + zsum (fun j => A i j * B j) 64) <->
  forall i, 0 <= i < 8 -> zsum C 8 + zsum (fun r => zsum (fun j => A r j * B j) 64) i = C i.
Proof. exact inner_right_iff. Qed.
Print Assumptions C76_right_iff.

(** From C = 0: exactly when the products of the first seven rows are all zero. *)
Theorem C76_from_zero :
  forall K A B C m,
  inner_operands m 64 K A B C -> (forall i, 0 <= i < 8 -> C i = 0) ->
  leaves_in_C (one_call 8 64 K) m (fun i => zsum (fun j => A i j * B j) 64) <->
  forall i, 0 <= i < 7 -> zsum (fun j => A i j * B j) 64 = 0.
Proof. exact inner_from_zero. Qed.
Print Assumptions C76_from_zero.

(** Every other number of rows, and nothing to sum, whatever the memory holds: every execution is
    undefined. *)
Theorem C76_rows_refuted :
  forall S add m k K mem0,
  ~ (m = 8 /\ 0 < k) ->
  always_undefined (ppar_for 0 1 1 (fun _ =>
    cake_sgemv_haswell_inner_1x64x1 S add (BufA, 0) (BufB, 0) (BufC, 0) m k K)) mem0.
Proof. exact inner_undefined. Qed.
Print Assumptions C76_rows_refuted.

(** Rows of 64 elements 70 apart, [f] in every element of row i; B all ones; C zero. *)
Definition imem (f : Z -> Z) : mem Z :=
  Mem (fun b => match b with
                | BufA => Some (BInfo 560 false) | BufB => Some (BInfo 64 false)
                | BufC => Some (BInfo 8 false) | _ => None end)
      (fun b i => match b with BufA => Some (f (i / 70)) | BufB => Some 1 | BufC => Some 0 | _ => None end).

Lemma imem_operands f : inner_operands (imem f) 64 70 (fun i _ => f i) (fun _ => 1) (fun _ => 0).
Proof.
  split; [|split].
  - intros r j Hr Hj. exists (BInfo 560 false). cbn -[Z.add Z.mul Z.div]. repeat split; try lia. f_equal. f_equal.
    rewrite Z.add_0_l, Z.add_comm, Z.div_add, Z.div_small; lia.
  - intros j Hj. exists (BInfo 64 false). cbn. repeat split; lia.
  - intros i Hi. exists (BInfo 8 false). cbn. repeat split; lia.
Qed.

(** All ones: element i of C ends as 64 * (i + 1) and not as 64.  Only the last row not zero: right. *)
Example C76_applies :
  leaves_in_C (one_call 8 64 70) (imem (fun _ => 1)) (fun i => 64 * (i + 1)) /\
  ~ leaves_in_C (one_call 8 64 70) (imem (fun _ => 1)) (fun _ => 64) /\
  leaves_in_C (one_call 8 64 70) (imem (fun i => if i =? 7 then 5 else 0)) (fun i => if i =? 7 then 320 else 0) /\
  always_undefined (one_call 6 64 70) (imem (fun _ => 1)).
Proof.
  pose proof (imem_operands (fun _ => 1)) as O1.
  assert (E8 : forall i, 0 <= i < 8 -> i = 0 \/ i = 1 \/ i = 2 \/ i = 3 \/ i = 4 \/ i = 5 \/ i = 6 \/ i = 7) by lia.
  split; [|split; [|split]].
  - eapply leaves_ext; [exact (inner_64 _ _ _ _ _ O1)|].
    intros i Hi. destruct (E8 i Hi) as [->|[->|[->|[->|[->|[->|[->| ->]]]]]]]; reflexivity.
  - intros H. assert (P : leaves_in_C (one_call 8 64 70) (imem (fun _ => 1)) (fun i => zsum (fun j => 1 * 1) 64)) by exact H.
    pose proof (proj1 (C76_from_zero 70 _ _ _ _ O1 ltac:(auto)) P 0 ltac:(lia)) as Q. discriminate Q.
  - eapply leaves_ext; [exact (inner_64 _ _ _ _ _ (imem_operands (fun i => if i =? 7 then 5 else 0)))|].
    intros i Hi. destruct (E8 i Hi) as [->|[->|[->|[->|[->|[->|[->| ->]]]]]]]; reflexivity.
  - apply C76_rows_refuted. lia.
Qed.
