(** * Properties of the other multiplication functions when the accumulators are refused. *)

From Coq Require Import ZArith List Bool Lia.
From Verif Require Import Lang Spec SpecTop SpecOnline SpecTouch SpecAny ModelAlloc ModelSizing ModelKernel ModelPack ModelSched ModelTop Exec
     Exec_facts Witness Witness_facts Refute_facts Grid_call_facts WitnessAny AllocMore_facts.
Import ListNotations.
Open Scope Z_scope.

(** C65, the functions that pack as they go.  They too request the accumulators of the cores by
    calloc and do not look at the answer.  Only accumulators are refused (fl), and the first of
    them is; the caller owns no object of that name.  Then every call of positive sizes is
    undefined in every execution: it neither ends by exit(1) nor returns. *)
Theorem C65_no_accumulator_online :
  forall S so F ar q M N K p c mcu kcu ncu (m0 : mem (elt S)) fl,
  legal F ar KMN c M N K p mcu kcu ncu -> 0 < M -> 0 < N -> 0 < K ->
  (forall b, fl b = true -> exists i, b = BufCp i) -> fl (BufCp 0) = true -> live m0 (BufCp 0) = None ->
  always_undefined (out_of_memory fl (cake_sgemm_online S so F ar q M N K p (Some c) mcu kcu ncu)) m0.
Proof. intros. now apply no_accumulator_online. Qed.
Print Assumptions C65_no_accumulator_online.

Theorem C65_no_accumulator_2d :
  forall S F ar q rows M N K p c mcu kcu ncu (m0 : mem (elt S)) fl,
  legal_2d F ar rows c M N K p mcu kcu ncu -> 0 < K ->
  (forall b, fl b = true -> exists i, b = BufCp i) -> fl (BufCp 0) = true -> live m0 (BufCp 0) = None ->
  always_undefined (out_of_memory fl (cake_sgemm_2d S F ar q rows M N K p (Some c) mcu kcu ncu)) m0.
Proof. intros. now apply no_accumulator_2d. Qed.
Print Assumptions C65_no_accumulator_2d.

Theorem C65_no_accumulator_2d_small :
  forall S F ar q rows M N K p pn c (m0 : mem (elt S)) fl,
  legal_small F ar rows c M N K p pn -> 0 < K ->
  (forall b, fl b = true -> exists i, b = BufCp i) -> fl (BufCp 0) = true -> live m0 (BufCp 0) = None ->
  always_undefined (out_of_memory fl (cake_sgemm_2d_small S F ar q rows M N K p (Some c))) m0.
Proof. intros. now apply (no_accumulator_2d_small S fl H1 H2 F ar q rows M N K p pn). Qed.
Print Assumptions C65_no_accumulator_2d_small.

Definition first_accumulator (b : buf) : bool := match b with BufCp i => i =? 0 | _ => false end.
Definition undef {V R} (o : outcome V R) : bool := match o with Undef => true | _ => false end.
Definition done {V R} (o : outcome V R) : bool := match o with Done _ _ => true | _ => false end.

(** One call of each, allowed, that returns when there is memory. *)
Example C65_accumulators_applies :
  Forall (allowed Zs wFr haswell Znz 18 48 5 wctx) (skipn 3 (every_call (S := Zs) 1 0)) /\
  (forall b, first_accumulator b = true -> exists i, b = BufCp i) /\ first_accumulator (BufCp 0) = true /\
  live (wmem 18 48 5) (BufCp 0) = None /\
  (let calls := map (run Zs wFr haswell wctx Znz 18 48 5 wctx) (skipn 3 (every_call (S := Zs) 1 0)) in
   Forall (fun P => done (pseqexec P (wmem 18 48 5)) = true) calls /\
   Forall (fun P => undef (pseqexec (out_of_memory first_accumulator P) (wmem 18 48 5)) = true) calls).
Proof.
  split; [apply (Forall_tail 3), every_allowed; reflexivity|].
  split; [intros [ | | |i| |i|i] H; discriminate H || (now exists i)|].
  split; [reflexivity|]. split; [reflexivity|].
  split; repeat constructor; vm_compute; reflexivity.
Qed.
