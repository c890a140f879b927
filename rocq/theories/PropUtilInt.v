(** * The utilities with 32-bit ints.

    ModelUtilInt.v has the functions with the int expressions of the code.  The theorems repeat the
    results of C27, C29, C42 and C60 for them, with the sizes for which no int overflows. *)

From Coq Require Import ZArith List Lia.
From Verif Require Import Lang Spec SpecTop SpecTouch SpecTests SpecTuneInt ModelSizing ModelKernel ModelPack ModelUtil ModelInt ModelUtilInt ModelTransInt SpecUtilInt
     Exec Witness PropTests PropUtil UtilInt_facts TransInt_facts.
Open Scope Z_scope.

(** C83.  If the number of elements of C is an int, and the indices of the elements of A and B are
    (which are used if C is not empty), no int overflows in cake_sgemm_checker, and it returns 0 exactly when no element of C is far from the product. *)
Theorem C83_checker :
  forall (S : scalar) (far : S -> S -> bool) ok bad M N K (A B C : Z -> Z -> elt S) m,
  0 <= M <= INT_MAX -> 0 <= N <= INT_MAX -> 0 <= K <= INT_MAX ->
  M * N <= INT_MAX -> N = 0 \/ M * K - 1 <= INT_MAX -> M = 0 \/ K * N - 1 <= INT_MAX ->
  at_least m BufA (M * K) -> holds m BufA M K A ->
  at_least m BufB (K * N) -> holds m BufB K N B ->
  at_least m BufC (M * N) -> holds m BufC M N C ->
  at_least m retb 1 -> live m ckbuf = None ->
  always (cake_sgemm_checker32 S far ok bad (BufA, 0) (BufB, 0) (BufC, 0) N M K) m (fun _ m' =>
    (forall b, live m' b = live m b) /\
    (forall b x, live m b <> None -> ~ (b = retb /\ x = 0) -> dat m' b x = dat m b x) /\
    exists r : bool, dat m' retb 0 = Some (if r then ok else bad) /\
      (r = true <-> forall i j, 0 <= i < M -> 0 <= j < N ->
         far (product S A B (fun _ _ => zrange 0 K) i j) (C i j) = false)).
Proof.
  unfold INT_MAX. intros S far ok bad M N K A B C m HM HN HK L1 L2 L3 H1 H2 H3 H4 H5 H6 H7 H8.
  rewrite checker_32 by lia. apply C29_checker; auto; lia.
Qed.
Print Assumptions C83_checker.

(** If C has more elements every call is undefined, whatever the memory. *)
Theorem C83_checker_overflow_refuted :
  forall (S : scalar) (far : S -> S -> bool) ok bad A B C N M K m,
  INT_MAX < M * N -> always_undefined (cake_sgemm_checker32 S far ok bad A B C N M K) m.
Proof. unfold INT_MAX. intros. rewrite checker_over by lia. apply pub_undefined. Qed.
Print Assumptions C83_checker_overflow_refuted.

(** If C is not empty and A or B has an element whose index is not an int, every call is undefined
    too. *)
Theorem C83_checker_index_refuted :
  forall (S : scalar) (far : S -> S -> bool) ok bad A B C N M K m,
  0 < M -> 0 < N -> 0 <= K -> INT_MAX < M * K - 1 \/ INT_MAX < K * N - 1 ->
  always_undefined (cake_sgemm_checker32 S far ok bad A B C N M K) m.
Proof. unfold INT_MAX. intros. apply checker_operand_over; lia. Qed.
Print Assumptions C83_checker_index_refuted.

(** The same for add_checker. *)
Theorem C83_add_checker :
  forall (S : scalar) (far : S -> S -> bool) (add : S -> S -> S) ok bad M N p (g : Z -> Z -> elt S) (C : Z -> elt S) m,
  0 <= M -> 0 <= N -> 0 <= p <= INT_MAX -> M * N <= INT_MAX ->
  (forall c, 0 <= c < p -> at_least m (BufCp c) (M * N)) ->
  (forall c i, 0 <= c < p -> 0 <= i < M * N -> dat m (BufCp c) i = Some (g c i)) ->
  at_least m BufC (M * N) -> (forall i, 0 <= i < M * N -> dat m BufC i = Some (C i)) ->
  at_least m retb 1 -> live m ckbuf = None ->
  always (add_checker32 S far add ok bad (fun c => (BufCp c, 0)) (BufC, 0) M N p) m (fun _ m' =>
    (forall b, live m' b = live m b) /\
    (forall b x, live m b <> None -> ~ (b = retb /\ x = 0) -> dat m' b x = dat m b x) /\
    exists r : bool, dat m' retb 0 = Some (if r then ok else bad) /\
      (r = true <-> forall i, 0 <= i < M * N ->
         far (fold_left (fun s c => add s (g c i)) (zrange 0 p) (zero S)) (C i) = false)).
Proof.
  unfold INT_MAX. intros S far add ok bad M N p g C m HM HN Hp L H1 H2 H3 H4 H5 H6.
  rewrite add_checker_32 by lia. apply C42_add_checker; auto; lia.
Qed.
Print Assumptions C83_add_checker.

Theorem C83_add_checker_overflow_refuted :
  forall (S : scalar) (far : S -> S -> bool) (add : S -> S -> S) ok bad C_arr C M N p m,
  INT_MAX < M * N -> always_undefined (add_checker32 S far add ok bad C_arr C M N p) m.
Proof. unfold INT_MAX. intros. rewrite add_checker_over by lia. apply pub_undefined. Qed.
Print Assumptions C83_add_checker_overflow_refuted.

(** rand_init fills the matrix if its number of elements is an int, and is undefined if it is not.
    rand_gaussian has the same loop: with [rnd i] = i and [elem i] the number made of the results
    2i and 2i+1 of rand() the two theorems are about it. *)
Theorem C83_rand_init :
  forall S elem b rnd r c m, 0 <= r -> 0 <= c -> r * c <= INT_MAX -> at_least m b (r * c) ->
  always (pseq (rand_init32 S elem (b, 0) rnd r c)) m (fun _ m' => fills elem m m' b (r * c) rnd).
Proof.
  unfold INT_MAX. intros S elem b rnd r c m Hr Hc L H. rewrite rand_init_32 by lia. apply C60_rand_init; [nia|exact H].
Qed.
Print Assumptions C83_rand_init.

Theorem C83_rand_init_overflow_refuted :
  forall S elem mat rnd r c m, INT_MAX < r * c -> always_undefined (pseq (rand_init32 S elem mat rnd r c)) m.
Proof. unfold INT_MAX. intros. rewrite rand_init_over by lia. apply fail_undefined. Qed.
Print Assumptions C83_rand_init_overflow_refuted.

(** transpose writes the transpose if the last index is an int; otherwise every call is undefined. *)
Theorem C83_transpose :
  forall S M K (f : Z -> Z -> elt S) m,
  0 <= M <= INT_MAX -> 0 <= K <= INT_MAX -> M * K - 1 <= INT_MAX ->
  at_least m BufA (M * K) -> holds m BufA M K f -> at_least m BufB (K * M) ->
  always (transpose32 S (BufB, 0) (BufA, 0) M K) m (fun _ m' =>
    holds m' BufB K M (fun k i => f i k) /\
    (forall b, live m' b = live m b) /\
    (forall b i, ~ (b = BufB /\ 0 <= i < K * M) -> dat m' b i = dat m b i)).
Proof.
  unfold INT_MAX. intros S M K f m HM HK L H1 H2 H3. rewrite transpose_32 by lia. apply C27_transpose; auto; lia.
Qed.
Print Assumptions C83_transpose.

Theorem C83_transpose_index_refuted :
  forall S At A M K m, 0 <= M -> 0 <= K -> INT_MAX < M * K - 1 -> always_undefined (transpose32 S At A M K) m.
Proof. unfold INT_MAX. intros. apply transpose_over; lia. Qed.
Print Assumptions C83_transpose_index_refuted.

(** transpose_mat, in the cases in which its threads do not race (C27): the ints are large enough if
    those of the matrices with one tile more in either direction are. *)
Theorem C83_transpose_mat :
  forall S K N Kt Nt (f : Z -> Z -> elt S) m,
  0 <= K -> 0 <= N -> -8 < Kt -> -8 < Nt ->
  (K + Z.max 8 Kt) * N + N + Z.max 8 Nt <= INT_MAX -> (N + Z.max 8 Nt) * K + K + Z.max 8 Kt <= INT_MAX ->
  at_least m BufA (K * N) -> holds m BufA K N f -> at_least m BufB (N * K) ->
  (8 | K) \/ N <= 8 \/ N <= 8 * (Nt / 8) ->
  always (transpose_mat32 S (BufA, 0) (BufB, 0) K N Kt Nt) m (fun _ m' =>
    holds m' BufB N K (fun n k => f k n) /\
    (forall b, live m' b = live m b) /\
    (forall b i, ~ (b = BufB /\ 0 <= i < N * K) -> dat m' b i = dat m b i)).
Proof.
  unfold INT_MAX. intros S K N Kt Nt f m HK HN H1 H2 L1 L2 HA HH HB HC.
  rewrite transpose_mat_32 by lia. now apply C27_transpose_mat.
Qed.
Print Assumptions C83_transpose_mat.

(** It is not enough that the matrix fits: the last tile may reach below it, and if the offset of the
    first row of its last blocks is not an int every call is undefined. *)
Theorem C83_transpose_mat_tile_refuted :
  forall S A At K N Kt Nt m, 0 < K -> 0 < N -> -8 < Kt -> -8 < Nt -> INT_MAX < last_block K Kt * N ->
  always_undefined (transpose_mat32 S A At K N Kt Nt) m.
Proof. unfold INT_MAX. intros. apply transpose_mat_over; auto; lia. Qed.
Print Assumptions C83_transpose_mat_tile_refuted.

(** A 46336 x 46340 matrix has fewer than 2^31 elements and 8 divides its
    rows, but with tiles of 120 rows the last block starts at row 46432. *)
Example C83_transpose_mat_applies :
  ((32000 + Z.max 8 64) * 32000 + 32000 + Z.max 8 64 <= INT_MAX /\ (8 | 32000)) /\
  (46336 * 46340 <= INT_MAX /\ (8 | 46336) /\ tile_of 120 = 120 /\ tile_of 5 = 8 /\
   last_block 46336 120 = 46432 /\ INT_MAX < last_block 46336 120 * 46340) /\
  match pseqexec (transpose_mat32 Zs (BufA, 0) (BufB, 0) 16 11 8 8) (tmem 16 11) with
  | Done _ m' => dat m' BufB (10 * 16 + 15) = Some (15 * 11 + 10 + 1) | _ => False end.
Proof.
  split; [repeat split; try (vm_compute; congruence); exists 4000; reflexivity|].
  split; [repeat split; try (vm_compute; congruence); exists 5792; reflexivity|]. vm_compute. reflexivity.
Qed.

(** The matrices of C27, C29 and C42; the largest square C is 46340 x 46340. *)
Example C83_applies :
  let far := fun a b => 1 <? Z.abs (a - b) in
  let res := fun o => match o with Done _ m => dat m retb 0 | _ => None end in
  res (pseqexec (cake_sgemm_checker32 Zs far 0 1 (BufA, 0) (BufB, 0) (BufC, 0) 2 2 2) (ckmem 1)) = Some 0 /\
  res (pseqexec (cake_sgemm_checker32 Zs far 0 1 (BufA, 0) (BufB, 0) (BufC, 0) 2 2 2) (ckmem 2)) = Some 1 /\
  res (pseqexec (add_checker32 Zs far Z.add 0 1 (fun c => (BufCp c, 0)) (BufC, 0) 2 2 3) (admem 1)) = Some 0 /\
  res (pseqexec (add_checker32 Zs far Z.add 0 1 (fun c => (BufCp c, 0)) (BufC, 0) 2 2 3) (admem 2)) = Some 1 /\
  match pseqexec (transpose32 Zs (BufB, 0) (BufA, 0) 16 11) (tmem 16 11) with
  | Done _ m' => dat m' BufB (10 * 16 + 15) = Some (15 * 11 + 10 + 1) | _ => False end /\
  match pseqexec (pseq (rand_init32 Zs (fun r => r) (BufA, 0) (fun i => 5 * i) 16 11)) (tmem 16 11) with
  | Done _ m' => dat m' BufA 175 = Some 875 | _ => False end /\
  46340 * 46340 <= INT_MAX < 46341 * 46341.
Proof. vm_compute. repeat split; discriminate. Qed.
