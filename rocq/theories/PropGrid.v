(** * Properties of cake_sgemm_2d, cake_sgemm_2d_small, the choice of their grid of cores, and
    cake_sgemm_test. *)

From Coq Require Import ZArith List Bool Znumtheory Lia.
From Verif Require Import Lang Spec SpecTop SpecOnline ModelSizing ModelKernel ModelPack ModelSched ModelTop Exec
     Witness Witness_facts Mult_facts Online_facts Grid_call_facts Small2d_facts Refute_facts Test_facts.
Open Scope Z_scope.

(** C06.  cake_sgemm_2d leaves in C the product A*B, whatever grid of cores it picks: element
    (i,j) is the sum, from 0, of the K products A[i][k]*B[k][j] in an order that depends only on
    the configuration.  Nothing else changes.  A and B must be readable up to the next multiples
    of m_r rows and n_r columns. *)
Theorem C06_grid_product :
  forall S F ar q rows M N K p c mcu kcu ncu,
  legal_2d F ar rows c M N K p mcu kcu ncu ->
  exists ord, orders K ord /\
    forall A B m0, caller m0 M N K A B -> A_rim m0 M K (mr c) -> B_rim m0 N K (nr c) 0 ->
      always (cake_sgemm_2d S F ar q rows M N K p (Some c) mcu kcu ncu) m0
        (fun _ m' => holds m' BufC M N (product S A B ord) /\ only_C_changed m0 m' M N).
Proof. exact g2d_product. Qed.
Print Assumptions C06_grid_product.

(** The same without a context: the library makes one ([q]) itself. *)
Theorem C06_grid_product_null_context :
  forall S F ar q rows M N K p c mcu kcu ncu,
  legal_2d F ar rows c M N K p mcu kcu ncu -> c = q ->
  exists ord, orders K ord /\
    forall A B m0, caller m0 M N K A B -> A_rim m0 M K (mr c) -> B_rim m0 N K (nr c) 0 ->
      always (cake_sgemm_2d S F ar q rows M N K p None mcu kcu ncu) m0
        (fun _ m' => holds m' BufC M N (product S A B ord) /\
           (forall i, dat m' BufA i = dat m0 BufA i) /\ (forall i, dat m' BufB i = dat m0 BufB i)).
Proof. exact g2d_product_null. Qed.
Print Assumptions C06_grid_product_null_context.

(** Every interleaving gives the same result. *)
Theorem C06_grid_deterministic :
  forall S F ar q rows M N K p c mcu kcu ncu,
  legal_2d F ar rows c M N K p mcu kcu ncu ->
  forall A B m0, caller m0 M N K A B -> A_rim m0 M K (mr c) -> B_rim m0 N K (nr c) 0 ->
  forall o1 o2, pexec (cake_sgemm_2d S F ar q rows M N K p (Some c) mcu kcu ncu) m0 o1 ->
    pexec (cake_sgemm_2d S F ar q rows M N K p (Some c) mcu kcu ncu) m0 o2 ->
  exists m1 m2, o1 = Done tt m1 /\ o2 = Done tt m2 /\ same_mem m1 m2.
Proof. exact g2d_det. Qed.
Print Assumptions C06_grid_deterministic.

(** A call that meets these preconditions: a grid of 2 x 2 cores, three block rows, two block
    columns, the last one narrower than the grid, and three blocks in k. *)
Example C06_applies :
  legal_2d wFr haswell 4 wctx 36 48 5 4 6 2 16 /\
  caller (wmem 36 48 5) 36 48 5 (fun i k => wA (i * 5 + k)) (fun k j => wB (k * 48 + j)) /\
  A_rim (wmem 36 48 5) 36 5 (mr wctx) /\ B_rim (wmem 36 48 5) 48 5 (nr wctx) 0 /\
  grid_dims_2d wFr 36 48 4 4 4 = CRet 2 /\
  outC (pseqexec (cake_sgemm_2d Zs wFr haswell wctx 4 36 48 5 4 (Some wctx) 6 2 16) (wmem 36 48 5))
       (35 * 48 + 47) = Some (matmul Zs Z.add Z.mul (fun i k => wA (i * 5 + k)) (fun k j => wB (k * 48 + j)) 5 35 47).
Proof.
  split; [apply w_legal_2d; try reflexivity || discriminate|split; [apply w_caller|split; [|split; [|split]]]].
  - split; [split; discriminate || reflexivity|split; [discriminate|]]. left. exists 2. reflexivity.
  - apply A_rim_vacuous; [reflexivity|exists 6; reflexivity].
  - apply w_rim; [reflexivity|exists 3; reflexivity].
  - vm_compute. reflexivity.
  - vm_compute. reflexivity.
Qed.

(** C11.  cake_sgemm_2d touches nothing outside A, B and C of exactly M*K, K*N and M*N elements
    when M and N are multiples of m_r and n_r (or what it reads beyond them exists). *)
Theorem C11_grid_memory_safe :
  forall S F ar q rows M N K p c mcu kcu ncu,
  legal_2d F ar rows c M N K p mcu kcu ncu ->
  forall A B m0, caller m0 M N K A B ->
  (mr c | M) \/ A_rim m0 M K (mr c) -> (nr c | N) \/ B_rim m0 N K (nr c) 0 ->
  (exists o, pexec (cake_sgemm_2d S F ar q rows M N K p (Some c) mcu kcu ncu) m0 o) /\
  forall o, pexec (cake_sgemm_2d S F ar q rows M N K p (Some c) mcu kcu ncu) m0 o -> exists m', o = Done tt m'.
Proof. exact g2d_safe. Qed.
Print Assumptions C11_grid_memory_safe.

Example C11_grid_applies :
  legal_2d wFr haswell 4 wctx 36 48 5 4 6 2 16 /\ (mr wctx | 36) /\ (nr wctx | 48) /\
  caller (wmem 36 48 5) 36 48 5 (fun i k => wA (i * 5 + k)) (fun k j => wB (k * 48 + j)).
Proof.
  split; [exact (proj1 C06_applies)|split; [exists 6; reflexivity|]].
  split; [exists 3; reflexivity|apply w_caller].
Qed.

(** Otherwise it does: one row of A, or 17 columns of B, is enough. *)
Theorem C11_grid_memory_safe_refuted :
  (exists M N K A B m0, legal_2d wFr haswell 4 wctx M N K 1 6 1 16 /\ caller m0 M N K A B /\ (nr wctx | N) /\
     pexec (cake_sgemm_2d Zs wFr haswell wctx 4 M N K 1 (Some wctx) 6 1 16) m0 Undef) /\
  (exists M N K A B m0, legal_2d wFr haswell 4 wctx M N K 1 6 1 16 /\ caller m0 M N K A B /\ (mr wctx | M) /\
     pexec (cake_sgemm_2d Zs wFr haswell wctx 4 M N K 1 (Some wctx) 6 1 16) m0 Undef).
Proof. exact g2d_unsafe. Qed.
Print Assumptions C11_grid_memory_safe_refuted.

(** C25.  When the choice of a grid for p cores is defined, the number pn of its columns divides
    p, so pn core columns and p/pn core rows use all p cores.  It is the width aimed for,
    round(sqrt(p*N/M)) brought into 1 .. p, if that divides p; otherwise no other divisor of p
    but possibly 1 is nearer to it. *)
Theorem C25_grid_divides :
  forall F M N p cores rows, 0 < M -> 0 < p -> 0 <= fp_pn F p N M ->
  forall pn, grid_dims_2d F M N p cores rows = CRet pn ->
  1 <= pn <= p /\ (pn | p) /\
  ((aim F M N p | p) -> pn = aim F M N p) /\
  (~ (aim F M N p | p) ->
     2 <= pn /\ forall d, (d | p) -> 2 <= d -> Z.abs (pn - aim F M N p) <= Z.abs (d - aim F M N p)).
Proof. exact grid_found. Qed.
Print Assumptions C25_grid_divides.

(** Exactly when it is defined: the table of divisors, built for a fixed number of cores, has a
    row for p, and the width aimed for divides p or some number between it and 1 does. *)
Theorem C25_grid_defined :
  forall F M N p cores rows, 0 < M -> 0 < p -> 0 <= fp_pn F p N M ->
  (exists pn, grid_dims_2d F M N p cores rows = CRet pn) <-> grid_exists F M N p cores rows.
Proof. exact grid_defined. Qed.
Print Assumptions C25_grid_defined.

(** aiming for 4 columns with 6 cores gives 3, aiming for 2 gives 2 *)
Example C25_applies :
  (0 <= fp_pn wFr 6 60 20 /\ aim wFr 20 60 6 = 4 /\ grid_dims_2d wFr 20 60 6 6 6 = CRet 3) /\
  (aim wFr 60 60 6 = 2 /\ grid_dims_2d wFr 60 60 6 6 6 = CRet 2).
Proof. vm_compute. repeat split; congruence. Qed.

(** Otherwise the code uses a variable it never set.  This happens for every prime number of
    cores unless the width aimed for is 1 or p. *)
Theorem C25_grid_prime_refuted :
  forall F M N p cores rows, 0 < M -> prime p -> 2 <= fp_pn F p N M < p ->
  grid_dims_2d F M N p cores rows = CUB.
Proof. exact grid_prime_undef. Qed.
Print Assumptions C25_grid_prime_refuted.

(** With more cores than the table was built for, it reads outside the table. *)
Theorem C25_grid_too_many_cores_refuted :
  forall F M N p cores rows, 0 < M -> 0 < p -> 0 <= fp_pn F p N M -> cores < p ->
  grid_dims_2d F M N p cores rows = CUB.
Proof. exact grid_beyond_undef. Qed.
Print Assumptions C25_grid_too_many_cores_refuted.

(** So cake_sgemm_2d is undefined for square matrices on three of four cores. *)
Theorem C25_three_cores_refuted :
  exists M N K A B m0, caller m0 M N K A B /\ (mr wctx | M) /\ (nr wctx | N) /\ M = N /\ 3 < ncores wctx /\
    pexec (cake_sgemm_2d Zs wFr haswell wctx 4 M N K 3 (Some wctx) 6 1 16) m0 Undef.
Proof. exact g2d_three_cores. Qed.
Print Assumptions C25_three_cores_refuted.

Example C25_refuted_applies : prime 3 /\ 2 <= fp_pn wFr 3 48 48 < 3 /\ 0 <= fp_pn wFr 5 48 48.
Proof. split; [exact prime_3|]. vm_compute. repeat split; congruence. Qed.

(** C07.  cake_sgemm_2d_small leaves in C the product A*B, each element summed from 0 over
    k = 0, 1, .., K-1, and nothing else changes -- provided that the
    pieces of M and N given to the cores lie inside the padded matrix ([small_fits], part of
    [legal_small]); C07_small_grid_undefined in PropTouch.v says that the proviso is necessary. *)
Theorem C07_small_grid_product :
  forall S F ar q rows M N K p pn c,
  legal_small F ar rows c M N K p pn ->
  forall A B m0, caller m0 M N K A B -> A_rim m0 M K (mr c) -> B_rim m0 N K (nr c) 0 ->
  always (cake_sgemm_2d_small S F ar q rows M N K p (Some c)) m0
    (fun _ m' => holds m' BufC M N (product S A B (fun _ _ => zrange 0 K)) /\ only_C_changed m0 m' M N).
Proof. exact small_product. Qed.
Print Assumptions C07_small_grid_product.

Theorem C07_small_grid_memory_safe :
  forall S F ar q rows M N K p pn c,
  legal_small F ar rows c M N K p pn ->
  forall A B m0, caller m0 M N K A B ->
  (mr c | M) \/ A_rim m0 M K (mr c) -> (nr c | N) \/ B_rim m0 N K (nr c) 0 ->
  (exists o, pexec (cake_sgemm_2d_small S F ar q rows M N K p (Some c)) m0 o) /\
  forall o, pexec (cake_sgemm_2d_small S F ar q rows M N K p (Some c)) m0 o -> exists m', o = Done tt m'.
Proof. exact small_safe. Qed.
Print Assumptions C07_small_grid_memory_safe.

(** On one core the proviso always holds. *)
Theorem C07_one_core :
  forall F ar rows c M N K,
  arch_ok ar -> ctx_min ar c -> 0 < M -> 0 < N -> 0 <= K -> 0 <= fp_pn F 1 N M ->
  1 <= ncores c < 1 + rows -> 0 < fp_kcmax F (L1 c) (mr c) (nr c) ->
  legal_small F ar rows c M N K 1 1.
Proof. exact small_one_core. Qed.
Print Assumptions C07_one_core.

(** It holds for 18 x 48 matrices on 2 x 2 cores. *)
Example C07_applies :
  legal_small wFr haswell 4 wctx 18 48 5 4 2 /\
  caller (wmem 18 48 5) 18 48 5 (fun i k => wA (i * 5 + k)) (fun k j => wB (k * 48 + j)) /\
  A_rim (wmem 18 48 5) 18 5 (mr wctx) /\ B_rim (wmem 18 48 5) 48 5 (nr wctx) 0 /\
  outC (pseqexec (cake_sgemm_2d_small Zs wFr haswell wctx 4 18 48 5 4 (Some wctx)) (wmem 18 48 5))
       (17 * 48 + 47) = Some (matmul Zs Z.add Z.mul (fun i k => wA (i * 5 + k)) (fun k j => wB (k * 48 + j)) 5 17 47).
Proof.
  split; [|split; [apply w_caller|split; [|split]]].
  - assert (F1 : small_fits 18 2 6)
      by (split; [intros [z Hz]; change (18 = z * 12) in Hz; lia|vm_compute; discriminate]).
    assert (F2 : small_fits 48 2 16)
      by (split; [intros [z Hz]; change (48 = z * 32) in Hz; lia|vm_compute; discriminate]).
    split; [exact w_arch|split; [split; reflexivity|]].
    do 6 (split; [vm_compute; congruence|]). split; [exact F1|split; [exact F2|reflexivity]].
  - apply A_rim_vacuous; [reflexivity|exists 3; reflexivity].
  - apply w_rim; [reflexivity|exists 3; reflexivity].
  - vm_compute. reflexivity.
Qed.

(** Without the proviso: twelve rows on two cores, and the second core works past the end of the
    packed copy of A. *)
Theorem C07_small_grid_refuted :
  exists M N K A B m0, arch_ok haswell /\ ctx_min haswell wctx /\ grid_exists wFr M N 2 (ncores wctx) 4 /\
    caller m0 M N K A B /\ (mr wctx | M) /\ (nr wctx | N) /\
    pexec (cake_sgemm_2d_small Zs wFr haswell wctx 4 M N K 2 (Some wctx)) m0 Undef.
Proof. exact small_unsafe. Qed.
Print Assumptions C07_small_grid_refuted.

(** C32.  cake_sgemm_test never multiplies.  In every call with legal arguments -- any sizes,
    contents, packing flags, alpha -- C ends up all zeros if beta = 0, and as it was otherwise. *)
Theorem C32_test_entry :
  forall S F ar q (nz : elt S -> bool) M N K p c packedA packedB alpha beta A B C0 m0,
  legal F ar KMN c M N K p 0 0 0 -> caller m0 M N K A B -> (nz beta = true -> holds m0 BufC M N C0) ->
  always (cake_sgemm_test S F ar q nz M N K p (Some c) packedA packedB alpha beta) m0
    (fun _ m' => holds m' BufC M N (fun i j => if nz beta then C0 i j else zero S) /\ only_C_changed m0 m' M N).
Proof. intros. apply pok_always. eapply test_entry; eauto. Qed.
Print Assumptions C32_test_entry.

Example C32_applies :
  legal wF haswell KMN wctx 6 16 1 1 0 0 0 /\
  caller (wmemC 6 16 1) 6 16 1 (fun i k => wA (i * 1 + k)) (fun k j => wB (k * 16 + j)) /\
  holds (wmemC 6 16 1) BufC 6 16 (fun i j => 100 + (i * 16 + j)).
Proof. split; [apply w_legal_auto; lia|split; [apply wC_caller|apply wC_holds]]. Qed.

(** So it computes neither A*B (beta = 0) nor A*B + C (beta = 1). *)
Theorem C32_test_entry_refuted :
  exists M N K A B C0 m0, legal wF haswell KMN wctx M N K 1 0 0 0 /\
    caller m0 M N K A B /\ holds m0 BufC M N C0 /\
    (~ always (cake_sgemm_test Zs wF haswell wctx Znz M N K 1 (Some wctx) false false 1 0) m0
        (fun _ m' => holds m' BufC M N (matmul Zs Z.add Z.mul A B K))) /\
    (~ always (cake_sgemm_test Zs wF haswell wctx Znz M N K 1 (Some wctx) false false 1 1) m0
        (fun _ m' => holds m' BufC M N (fun i j => matmul Zs Z.add Z.mul A B K i j + C0 i j))).
Proof. exact test_wrong. Qed.
Print Assumptions C32_test_entry_refuted.
