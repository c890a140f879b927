(** * C53, C54 for the calls that add to C: M-first and N-first with beta other than 0. *)

From Coq Require Import ZArith Reals List Bool Lia Lra.
From Flocq Require Import Core BinarySingleNaN.
From Verif Require Import Lang Spec SpecTop SpecTouch SpecSingle ModelSizing ModelIEEE ModelSingle ModelTop
     Exec Witness Witness_facts WitnessSingle Single_facts SingleAcc_facts.
Open Scope Z_scope.

(** C53.  M-first with beta: C becomes C + A*B with the error bound of a sum of K products and the old
    element. *)
Theorem C53_M_first_accumulate_accuracy :
  forall F ar q (nz : single -> bool) M N K p c alpha beta mcu kcu ncu t A B C0 m0,
  legal F ar MKN c M N K p mcu kcu ncu -> nz beta = true -> tail_ok c K p mcu kcu ncu t ->
  caller m0 M N K A B -> B_rim m0 N K (nr c) t -> holds m0 BufC M N C0 ->
  all_finite M K A -> all_finite K N B -> all_finite M N C0 ->
  (forall i j, 0 <= i < M -> 0 <= j < N -> no_overflow K (Rabs (val (C0 i j)) + mass A B K i j)) ->
  always (cake_sgemm Single F ar q nz M N K p (Some c) false false alpha beta MKN mcu kcu ncu) m0 (fun _ m' =>
    exists C, holds m' BufC M N C /\ forall i j, 0 <= i < M -> 0 <= j < N ->
      finite (C i j) /\ accurate K (C i j) (val (C0 i j) + exact A B K i j) (Rabs (val (C0 i j)) + mass A B K i j)).
Proof. intros. apply acc_accurate; auto; [eapply M_accumulates; eauto|apply H]. Qed.
Print Assumptions C53_M_first_accumulate_accuracy.

(** The same N-first, when pack_C puts the blocks of C where the schedule looks for them (see C16). *)
Theorem C53_N_first_accumulate_accuracy :
  forall F ar q (nz : single -> bool) M N K p c alpha beta mcu kcu ncu x c1 A B C0 m0,
  legal F ar NKM c M N K p mcu kcu ncu -> nz beta = true ->
  init_block_dims F M N K p c NKM mcu kcu ncu = CRet (x, c1) ->
  n_first_C_fits M N p (mr c) (nr c) (m_c x) (n_c x) ->
  caller m0 M N K A B -> B_rim m0 N K (nr c) (k_tail K p (k_c x)) -> holds m0 BufC M N C0 ->
  all_finite M K A -> all_finite K N B -> all_finite M N C0 ->
  (forall i j, 0 <= i < M -> 0 <= j < N -> no_overflow K (Rabs (val (C0 i j)) + mass A B K i j)) ->
  always (cake_sgemm Single F ar q nz M N K p (Some c) false false alpha beta NKM mcu kcu ncu) m0 (fun _ m' =>
    exists C, holds m' BufC M N C /\ forall i j, 0 <= i < M -> 0 <= j < N ->
      finite (C i j) /\ accurate K (C i j) (val (C0 i j) + exact A B K i j) (Rabs (val (C0 i j)) + mass A B K i j)).
Proof. intros. apply acc_accurate; auto; [eapply N_accumulates; eauto|apply H]. Qed.
Print Assumptions C53_N_first_accumulate_accuracy.

(** C54.  Integers: if the old element and the terms sum up, in absolute value, to at most 2^24 the new
    element is exactly their sum. *)
Theorem C54_M_first_accumulate_exact_integers :
  forall F ar q (nz : single -> bool) M N K p c alpha beta mcu kcu ncu t A B C0 a b c0 m0,
  legal F ar MKN c M N K p mcu kcu ncu -> nz beta = true -> tail_ok c K p mcu kcu ncu t ->
  caller m0 M N K A B -> B_rim m0 N K (nr c) t -> holds m0 BufC M N C0 ->
  (forall i k, 0 <= i < M -> 0 <= k < K -> is_int (A i k) (a i k)) ->
  (forall k j, 0 <= k < K -> 0 <= j < N -> is_int (B k j) (b k j)) ->
  (forall i j, 0 <= i < M -> 0 <= j < N -> is_int (C0 i j) (c0 i j)) ->
  (forall i j, 0 <= i < M -> 0 <= j < N -> Z.abs (c0 i j) + massZ a b K i j <= 2 ^ 24) ->
  always (cake_sgemm Single F ar q nz M N K p (Some c) false false alpha beta MKN mcu kcu ncu) m0 (fun _ m' =>
    exists C, holds m' BufC M N C /\ forall i j, 0 <= i < M -> 0 <= j < N -> is_int (C i j) (c0 i j + exactZ a b K i j)).
Proof. intros. eapply acc_int; eauto; [eapply M_accumulates; eauto|apply H]. Qed.
Print Assumptions C54_M_first_accumulate_exact_integers.

Theorem C54_N_first_accumulate_exact_integers :
  forall F ar q (nz : single -> bool) M N K p c alpha beta mcu kcu ncu x c1 A B C0 a b c0 m0,
  legal F ar NKM c M N K p mcu kcu ncu -> nz beta = true ->
  init_block_dims F M N K p c NKM mcu kcu ncu = CRet (x, c1) ->
  n_first_C_fits M N p (mr c) (nr c) (m_c x) (n_c x) ->
  caller m0 M N K A B -> B_rim m0 N K (nr c) (k_tail K p (k_c x)) -> holds m0 BufC M N C0 ->
  (forall i k, 0 <= i < M -> 0 <= k < K -> is_int (A i k) (a i k)) ->
  (forall k j, 0 <= k < K -> 0 <= j < N -> is_int (B k j) (b k j)) ->
  (forall i j, 0 <= i < M -> 0 <= j < N -> is_int (C0 i j) (c0 i j)) ->
  (forall i j, 0 <= i < M -> 0 <= j < N -> Z.abs (c0 i j) + massZ a b K i j <= 2 ^ 24) ->
  always (cake_sgemm Single F ar q nz M N K p (Some c) false false alpha beta NKM mcu kcu ncu) m0 (fun _ m' =>
    exists C, holds m' BufC M N C /\ forall i j, 0 <= i < M -> 0 <= j < N -> is_int (C i j) (c0 i j + exactZ a b K i j)).
Proof. intros. eapply acc_int; eauto; [eapply N_accumulates; eauto|apply H]. Qed.
Print Assumptions C54_N_first_accumulate_exact_integers.

(** 12 x 32 x 5, two threads, C initially holding 100, 101, 102, ... *)
Definition accmem : mem single :=
  let m := smem 12 32 5 wA wB in
  Mem (live m) (fun b i => match b with BufC => Some (single_of_int (100 + i)) | _ => dat m b i end).
Definition accrun (s : sched) : prog single cntx :=
  cake_sgemm Single wF haswell wctx is1 12 32 5 2 (Some wctx) false false sok (single_of_int 1) s 6 2 16.

Example C53_C54_accumulate_apply :
  let a := fun i k => i * 5 + k + 1 in let b := fun k j => 2 * (k * 32 + j) - 3 in
  let c0 := fun i j => 100 + (i * 32 + j) in
  let A := fun i k => single_of_int (a i k) in let B := fun k j => single_of_int (b k j) in
  let C0 := fun i j => single_of_int (c0 i j) in
  legal wF haswell MKN wctx 12 32 5 2 6 2 16 /\ legal wF haswell NKM wctx 12 32 5 2 6 2 16 /\
  is1 (single_of_int 1) = true /\ tail_ok wctx 5 2 6 2 16 0 /\
  (exists x c1, init_block_dims wF 12 32 5 2 wctx NKM 6 2 16 = CRet (x, c1) /\
     n_first_C_fits 12 32 2 (mr wctx) (nr wctx) (m_c x) (n_c x) /\ B_rim accmem 32 5 16 (k_tail 5 2 (k_c x))) /\
  caller accmem 12 32 5 A B /\ B_rim accmem 32 5 16 0 /\ holds accmem BufC 12 32 C0 /\
  all_finite 12 5 A /\ all_finite 5 32 B /\ all_finite 12 32 C0 /\
  (forall i j, 0 <= i < 12 -> 0 <= j < 32 -> no_overflow 5 (Rabs (val (C0 i j)) + mass A B 5 i j)) /\
  (forall i j, 0 <= i < 12 -> 0 <= j < 32 -> Z.abs (c0 i j) + massZ a b 5 i j <= 2 ^ 24) /\
  sout (pseqexec (accrun MKN) accmem) BufC (11 * 32 + 31) = Some (B2SF (single_of_int (c0 11 31 + exactZ a b 5 11 31))) /\
  sout (pseqexec (accrun NKM) accmem) BufC (11 * 32 + 31) = Some (B2SF (single_of_int (c0 11 31 + exactZ a b 5 11 31))).
Proof.
  intros a b c0 A B C0.
  split; [apply w_legal; reflexivity || discriminate|]. split; [apply w_legal; reflexivity || discriminate|].
  split; [reflexivity|]. split; [left; reflexivity|].
  split. { do 2 eexists. split; [reflexivity|]. split; [right; left; split; [exists 1|exists 2]; reflexivity|].
           apply w_rim; [reflexivity|exists 2; reflexivity]. }
  split; [exact (s_caller 12 32 5 wA wB)|]. split; [apply w_rim; [reflexivity|exists 2; reflexivity]|].
  split; [intros i j _ _; reflexivity|].
  split; [intros i k Hi Hk; apply s_finite; unfold a; lia|]. split; [intros k j Hk Hj; apply s_finite; unfold b; lia|].
  split; [intros i j Hi Hj; apply s_finite; unfold c0; lia|].
  split.
  { intros i j Hi Hj. apply s_no_overflow; [lia|].
    assert (Rabs (val (C0 i j)) <= 1000)%R as HC.
    { destruct (s_int (c0 i j)) as (_ & E); [unfold c0; lia|]. unfold C0. rewrite E, <- abs_IZR. apply IZR_le. unfold c0. lia. }
    assert (0 <= mass A B 5 i j <= IZR 5 * 150000)%R as Hm.
    { split; [apply Single_facts.lsum_pos; intros; apply Rabs_pos|]. apply sumR_le; [lia|]. intros k Hk.
      destruct (s_int (a i k)) as (_ & E1); [unfold a; lia|]. destruct (s_int (b k j)) as (_ & E2); [unfold b; lia|].
      unfold A, B. rewrite E1, E2, <- mult_IZR, <- abs_IZR. apply IZR_le. unfold a, b. rewrite Z.abs_mul. nia. }
    pose proof (Rabs_pos (val (C0 i j))). lra. }
  split.
  { intros i j Hi Hj. unfold massZ. change (zrange 0 5) with (0 :: 1 :: 2 :: 3 :: 4 :: nil)%list.
    cbn [fold_right]. unfold a, b, c0. nia. }
  split; vm_compute; reflexivity.
Qed.
