(** * Accuracy of the other entry points on binary32 floats, and cake_sgemm_2d on a real machine. *)

From Coq Require Import ZArith Reals List Bool Lia Lra.
From Flocq Require Import Core BinarySingleNaN.
From Verif Require Import Lang Spec SpecTop SpecOnline SpecTile SpecSingle ModelSizing ModelIEEE ModelSingle ModelTop
     Exec Witness Witness_facts Mult_facts WitnessSingle Online_facts Grid_call_facts SingleAll_facts.
Open Scope Z_scope.

(** C53 for cake_sgemm_online, which packs on the fly. *)
Theorem C53_online_accuracy :
  forall so F ar q M N K p c mcu kcu ncu A B m0,
  legal F ar KMN c M N K p mcu kcu ncu -> (so = true -> one_thread M N K p (mr c)) ->
  caller m0 M N K A B -> A_rim m0 M K (mr c) -> B_rim m0 N K (nr c) 0 ->
  all_finite M K A -> all_finite K N B ->
  (forall i j, 0 <= i < M -> 0 <= j < N -> no_overflow K (mass A B K i j)) ->
  always (cake_sgemm_online Single so F ar q M N K p (Some c) mcu kcu ncu) m0 (fun _ m' =>
    exists C, holds m' BufC M N C /\ forall i j, 0 <= i < M -> 0 <= j < N ->
      finite (C i j) /\ accurate K (C i j) (exact A B K i j) (mass A B K i j)).
Proof. intros. now apply online_accurate. Qed.
Print Assumptions C53_online_accuracy.

(** C53 for cake_sgemm_2d, whatever grid of cores it picks. *)
Theorem C53_grid_accuracy :
  forall F ar q rows M N K p c mcu kcu ncu A B m0,
  legal_2d F ar rows c M N K p mcu kcu ncu ->
  caller m0 M N K A B -> A_rim m0 M K (mr c) -> B_rim m0 N K (nr c) 0 ->
  all_finite M K A -> all_finite K N B ->
  (forall i j, 0 <= i < M -> 0 <= j < N -> no_overflow K (mass A B K i j)) ->
  always (cake_sgemm_2d Single F ar q rows M N K p (Some c) mcu kcu ncu) m0 (fun _ m' =>
    exists C, holds m' BufC M N C /\ forall i j, 0 <= i < M -> 0 <= j < N ->
      finite (C i j) /\ accurate K (C i j) (exact A B K i j) (mass A B K i j)).
Proof. intros. now apply g2d_accurate. Qed.
Print Assumptions C53_grid_accuracy.

(** C53 for cake_sgemm_2d_small, under its proviso ([legal_small]). *)
Theorem C53_small_grid_accuracy :
  forall F ar q rows M N K p pn c A B m0,
  legal_small F ar rows c M N K p pn ->
  caller m0 M N K A B -> A_rim m0 M K (mr c) -> B_rim m0 N K (nr c) 0 ->
  all_finite M K A -> all_finite K N B ->
  (forall i j, 0 <= i < M -> 0 <= j < N -> no_overflow K (mass A B K i j)) ->
  always (cake_sgemm_2d_small Single F ar q rows M N K p (Some c)) m0 (fun _ m' =>
    exists C, holds m' BufC M N C /\ forall i j, 0 <= i < M -> 0 <= j < N ->
      finite (C i j) /\ accurate K (C i j) (exact A B K i j) (mass A B K i j)).
Proof. intros. now apply (small_accurate F ar q M N K p c A B m0 H0 H1 H2 H3 H4 H5 rows pn). Qed.
Print Assumptions C53_small_grid_accuracy.

(** C54 for the three of them: integers whose terms sum up, in absolute value, to at most 2^24
    are multiplied exactly; so all entry points agree on them bit for bit (but for the sign of
    zeros). *)
Theorem C54_online_exact_integers :
  forall so F ar q M N K p c mcu kcu ncu A B a b m0,
  legal F ar KMN c M N K p mcu kcu ncu -> (so = true -> one_thread M N K p (mr c)) ->
  caller m0 M N K A B -> A_rim m0 M K (mr c) -> B_rim m0 N K (nr c) 0 ->
  (forall i k, 0 <= i < M -> 0 <= k < K -> is_int (A i k) (a i k)) ->
  (forall k j, 0 <= k < K -> 0 <= j < N -> is_int (B k j) (b k j)) ->
  (forall i j, 0 <= i < M -> 0 <= j < N -> massZ a b K i j <= 2 ^ 24) ->
  always (cake_sgemm_online Single so F ar q M N K p (Some c) mcu kcu ncu) m0 (fun _ m' =>
    exists C, holds m' BufC M N C /\ forall i j, 0 <= i < M -> 0 <= j < N -> is_int (C i j) (exactZ a b K i j)).
Proof. intros. eapply online_int; eauto. Qed.
Print Assumptions C54_online_exact_integers.

Theorem C54_grid_exact_integers :
  forall F ar q rows M N K p c mcu kcu ncu A B a b m0,
  legal_2d F ar rows c M N K p mcu kcu ncu ->
  caller m0 M N K A B -> A_rim m0 M K (mr c) -> B_rim m0 N K (nr c) 0 ->
  (forall i k, 0 <= i < M -> 0 <= k < K -> is_int (A i k) (a i k)) ->
  (forall k j, 0 <= k < K -> 0 <= j < N -> is_int (B k j) (b k j)) ->
  (forall i j, 0 <= i < M -> 0 <= j < N -> massZ a b K i j <= 2 ^ 24) ->
  always (cake_sgemm_2d Single F ar q rows M N K p (Some c) mcu kcu ncu) m0 (fun _ m' =>
    exists C, holds m' BufC M N C /\ forall i j, 0 <= i < M -> 0 <= j < N -> is_int (C i j) (exactZ a b K i j)).
Proof. intros. eapply g2d_int; eauto. Qed.
Print Assumptions C54_grid_exact_integers.

Theorem C54_small_grid_exact_integers :
  forall F ar q rows M N K p pn c A B a b m0,
  legal_small F ar rows c M N K p pn ->
  caller m0 M N K A B -> A_rim m0 M K (mr c) -> B_rim m0 N K (nr c) 0 ->
  (forall i k, 0 <= i < M -> 0 <= k < K -> is_int (A i k) (a i k)) ->
  (forall k j, 0 <= k < K -> 0 <= j < N -> is_int (B k j) (b k j)) ->
  (forall i j, 0 <= i < M -> 0 <= j < N -> massZ a b K i j <= 2 ^ 24) ->
  always (cake_sgemm_2d_small Single F ar q rows M N K p (Some c)) m0 (fun _ m' =>
    exists C, holds m' BufC M N C /\ forall i j, 0 <= i < M -> 0 <= j < N -> is_int (C i j) (exactZ a b K i j)).
Proof. intros. eapply small_int; eauto. Qed.
Print Assumptions C54_small_grid_exact_integers.

(** Calls that meet these preconditions. *)
Example C53_others_apply :
  let A := fun i k => i * 5 + k + 1 in let B := fun k j => 2 * (k * 48 + j) - 3 in
  let Af := fun i k => single_of_int (A i k) in let Bf := fun k j => single_of_int (B k j) in
  let m := smem 36 48 5 wA wB in
  legal wF haswell KMN wctx 36 48 5 2 6 2 16 /\ legal_2d wFr haswell 4 wctx 36 48 5 4 6 2 16 /\
  caller m 36 48 5 Af Bf /\ A_rim m 36 5 (mr wctx) /\ B_rim m 48 5 (nr wctx) 0 /\
  all_finite 36 5 Af /\ all_finite 5 48 Bf /\
  (forall i j, 0 <= i < 36 -> 0 <= j < 48 -> no_overflow 5 (mass Af Bf 5 i j)) /\
  sout (pseqexec (cake_sgemm_online Single false wF haswell wctx 36 48 5 2 (Some wctx) 6 2 16) m) BufC (35 * 48 + 47)
    = Some (B2SF (single_of_int (exactZ A B 5 35 47))) /\
  sout (pseqexec (cake_sgemm_2d Single wFr haswell wctx 4 36 48 5 4 (Some wctx) 6 2 16) m) BufC (35 * 48 + 47)
    = Some (B2SF (single_of_int (exactZ A B 5 35 47))) /\ exactZ A B 5 35 47 = 252830.
Proof.
  intros A B Af Bf m.
  split; [apply w_legal; reflexivity || discriminate|].
  split; [apply w_legal_2d; try reflexivity || discriminate|].
  { split; [split; discriminate || reflexivity|split; [discriminate|]]. left. exists 2. reflexivity. }
  split; [apply s_caller|]. split; [apply A_rim_vacuous; [reflexivity|exists 6; reflexivity]|].
  split; [apply w_rim; [reflexivity|exists 3; reflexivity]|].
  split; [intros i k Hi Hk; apply s_finite; unfold A; lia|]. split; [intros k j Hk Hj; apply s_finite; unfold B; lia|].
  split.
  - intros i j Hi Hj. apply s_no_overflow; [lia|]. apply s_mass; [lia|]. intros k Hk. unfold A, B. lia.
  - split; [vm_compute; reflexivity|]. split; vm_compute; reflexivity.
Qed.

(** C25.  On an even number of cores that the table has a row for, there is always a grid. *)
Theorem C25_even_cores :
  forall F M N p cores rows, 0 < p -> Z.even p = true -> p <= cores < p + rows -> 0 <= fp_pn F p N M ->
  grid_exists F M N p cores rows.
Proof. exact grid_exists_even. Qed.
Print Assumptions C25_even_cores.

(** C06 in the machine's own arithmetic (IEEE doubles and floats) with no tile sizes given: on an
    even number of cores, and caches that hold a register tile, cake_sgemm_2d computes the product
    for all sizes. *)
Theorem C06_grid_product_even_cores :
  forall S ar q c rows M N K p,
  arch_ok ar -> ctx_min ar c -> machine c ->
  bytes (mr c) 1 (nr c) <= L1 c -> 4 * (mr c * mr c + mr c * nr c + mr c * mr c) <= L2 c ->
  0 < M < 2 ^ 31 -> 0 < N < 2 ^ 31 -> 0 <= K -> 0 < p -> Z.even p = true -> p <= ncores c < p + rows ->
  exists ord, orders K ord /\
    forall A B m0, caller m0 M N K A B -> A_rim m0 M K (mr c) -> B_rim m0 N K (nr c) 0 ->
      always (cake_sgemm_2d S ieee ar q rows M N K p (Some c) 0 0 0) m0
        (fun _ m' => holds m' BufC M N (product S A B ord) /\ only_C_changed m0 m' M N).
Proof. exact g2d_product_machine. Qed.
Print Assumptions C06_grid_product_even_cores.

Example C06_even_cores_applies :
  arch_ok haswell /\ ctx_min haswell wctx /\ machine wctx /\ bytes (mr wctx) 1 (nr wctx) <= L1 wctx /\
  4 * (mr wctx * mr wctx + mr wctx * nr wctx + mr wctx * mr wctx) <= L2 wctx /\
  Z.even 4 = true /\ 4 <= ncores wctx < 4 + 4 /\ Z.even 2 = true /\ 2 <= ncores wctx < 2 + 4.
Proof. split; [exact w_arch|]. split; [split; reflexivity|]. vm_compute. repeat split; congruence. Qed.
