(** * Properties of cake_sgemm_online, the variant that packs on the fly.

    The model is [cake_sgemm_online] of ModelTop.v.  Its first flag [so] says whether the
    assignment every thread makes to the shared variable A_offset is counted as a memory
    access.  With [so = false] it is left out: what remains is the program a compiler that
    keeps A_offset in a register produces.  With [so = true] it is a store by every thread
    of the region, which for two or more threads is a data race. *)

From Coq Require Import ZArith List Bool.
From Verif Require Import Lang Spec SpecTop SpecOnline ModelSizing ModelKernel ModelPack ModelSched ModelTop Exec
     Witness Witness_facts Online_facts.
Open Scope Z_scope.

(** C05.  cake_sgemm_online leaves in C the product A*B: element (i,j) is the sum, from 0, of
    the K products A[i][k]*B[k][j] in an order that depends only on the configuration.  Nothing
    else changes.  A must be readable up to the next multiple of m_r rows and B up to the next
    multiple of n_r columns.  If more than one thread has work, only when the
    assignments to A_offset are not counted ([so = false]): in every other call they are a data
    race (C05_online_race in PropTouch.v, and C11_online_safe_iff for the exact condition). *)
Theorem C05_online_product :
  forall S so F ar q M N K p c mcu kcu ncu,
  legal F ar KMN c M N K p mcu kcu ncu -> (so = true -> one_thread M N K p (mr c)) ->
  exists ord c', orders K ord /\ same_ctx c c' /\
    forall A B m0, caller m0 M N K A B -> A_rim m0 M K (mr c) -> B_rim m0 N K (nr c) 0 ->
      always (cake_sgemm_online S so F ar q M N K p (Some c) mcu kcu ncu) m0
        (fun r m' => r = c' /\ holds m' BufC M N (product S A B ord) /\ only_C_changed m0 m' M N).
Proof. exact online_product. Qed.
Print Assumptions C05_online_product.

(** The same without a context: the library makes one ([q]) itself. *)
Theorem C05_online_product_null_context :
  forall S so F ar q M N K p c mcu kcu ncu,
  legal F ar KMN c M N K p mcu kcu ncu -> (so = true -> one_thread M N K p (mr c)) -> c = q ->
  exists ord, orders K ord /\
    forall A B m0, caller m0 M N K A B -> A_rim m0 M K (mr c) -> B_rim m0 N K (nr c) 0 ->
      always (cake_sgemm_online S so F ar q M N K p None mcu kcu ncu) m0
        (fun r m' => holds m' BufC M N (product S A B ord) /\
           (forall i, dat m' BufA i = dat m0 BufA i) /\ (forall i, dat m' BufB i = dat m0 BufB i)).
Proof. exact online_product_null. Qed.
Print Assumptions C05_online_product_null_context.

(** Packing on the fly changes nothing: cake_sgemm_online and cake_sgemm with the K-first
    schedule leave the same memory behind, bit for bit, and the same context. *)
Theorem C05_online_same_as_K_first :
  forall S so F ar q M N K p c mcu kcu ncu,
  legal F ar KMN c M N K p mcu kcu ncu -> (so = true -> one_thread M N K p (mr c)) ->
  forall (nz : elt S -> bool) alpha beta A B m0,
  caller m0 M N K A B -> A_rim m0 M K (mr c) -> B_rim m0 N K (nr c) 0 ->
  forall r1 m1 r2 m2,
    pexec (cake_sgemm_online S so F ar q M N K p (Some c) mcu kcu ncu) m0 (Done r1 m1) ->
    pexec (cake_sgemm S F ar q nz M N K p (Some c) false false alpha beta KMN mcu kcu ncu) m0 (Done r2 m2) ->
    r1 = r2 /\ (forall b, live m1 b = live m2 b) /\
    (forall b i, live m0 b <> None -> dat m1 b i = dat m2 b i).
Proof. exact online_same_as_K_first. Qed.
Print Assumptions C05_online_same_as_K_first.

(** Every interleaving gives the same result. *)
Theorem C05_online_deterministic :
  forall S so F ar q M N K p c mcu kcu ncu,
  legal F ar KMN c M N K p mcu kcu ncu -> (so = true -> one_thread M N K p (mr c)) ->
  forall A B m0, caller m0 M N K A B -> A_rim m0 M K (mr c) -> B_rim m0 N K (nr c) 0 ->
  forall o1 o2, pexec (cake_sgemm_online S so F ar q M N K p (Some c) mcu kcu ncu) m0 o1 ->
    pexec (cake_sgemm_online S so F ar q M N K p (Some c) mcu kcu ncu) m0 o2 ->
  exists r m1 m2, o1 = Done r m1 /\ o2 = Done r m2 /\ same_mem m1 m2.
Proof. exact online_det. Qed.
Print Assumptions C05_online_deterministic.

(** A call that meets these preconditions: three block rows, two block columns and three
    blocks in k on two threads, so packed blocks of both operands are reused. *)
Example C05_applies :
  legal wF haswell KMN wctx 36 32 5 2 6 2 16 /\
  caller (wmem 36 32 5) 36 32 5 (fun i k => wA (i * 5 + k)) (fun k j => wB (k * 32 + j)) /\
  A_rim (wmem 36 32 5) 36 5 (mr wctx) /\ B_rim (wmem 36 32 5) 32 5 (nr wctx) 0 /\
  outC (pseqexec (cake_sgemm_online Zs false wF haswell wctx 36 32 5 2 (Some wctx) 6 2 16) (wmem 36 32 5))
       (35 * 32 + 31) = Some (matmul Zs Z.add Z.mul (fun i k => wA (i * 5 + k)) (fun k j => wB (k * 32 + j)) 5 35 31).
Proof.
  split; [apply w_legal; reflexivity || discriminate|split; [apply w_caller|split; [|split]]].
  - apply A_rim_vacuous; [reflexivity|exists 6; reflexivity].
  - apply w_rim; [reflexivity|exists 2; reflexivity].
  - vm_compute. reflexivity.
Qed.

(** C05, C08.  The code as written has a data race in every such call with two threads: both
    assign the shared variable A_offset. *)
Theorem C05_online_shared_variable_race_refuted :
  exists M N K A B m0, legal wF haswell KMN wctx M N K 2 6 1 16 /\ caller m0 M N K A B /\
    (mr wctx | M) /\ (nr wctx | N) /\
    pexec (cake_sgemm_online Zs true wF haswell wctx M N K 2 (Some wctx) 6 1 16) m0 Undef.
Proof. exact online_race. Qed.
Print Assumptions C05_online_shared_variable_race_refuted.

(** C11.  cake_sgemm_online reads nothing outside A and B of exactly M*K and K*N elements when
    M and N are multiples of m_r and n_r (or what it reads beyond them exists). *)
Theorem C11_online_memory_safe :
  forall S so F ar q M N K p c mcu kcu ncu,
  legal F ar KMN c M N K p mcu kcu ncu -> (so = true -> one_thread M N K p (mr c)) ->
  forall A B m0, caller m0 M N K A B ->
  (mr c | M) \/ A_rim m0 M K (mr c) -> (nr c | N) \/ B_rim m0 N K (nr c) 0 ->
  (exists o, pexec (cake_sgemm_online S so F ar q M N K p (Some c) mcu kcu ncu) m0 o) /\
  forall o, pexec (cake_sgemm_online S so F ar q M N K p (Some c) mcu kcu ncu) m0 o -> exists r m', o = Done r m'.
Proof. exact online_safe. Qed.
Print Assumptions C11_online_memory_safe.

Example C11_online_applies :
  legal wF haswell KMN wctx 12 32 3 4 0 0 0 /\ (mr wctx | 12) /\ (nr wctx | 32) /\
  caller (wmem 12 32 3) 12 32 3 (fun i k => wA (i * 3 + k)) (fun k j => wB (k * 32 + j)).
Proof.
  split; [apply w_legal_auto; reflexivity || discriminate|split; [exists 2; reflexivity|]].
  split; [exists 2; reflexivity|apply w_caller].
Qed.

(** Otherwise it does: one row of A, or 17 columns of B, is enough. *)
Theorem C11_online_memory_safe_refuted :
  (exists M N K A B m0, legal wF haswell KMN wctx M N K 1 6 1 16 /\ caller m0 M N K A B /\ (nr wctx | N) /\
     pexec (cake_sgemm_online Zs false wF haswell wctx M N K 1 (Some wctx) 6 1 16) m0 Undef) /\
  (exists M N K A B m0, legal wF haswell KMN wctx M N K 1 6 1 16 /\ caller m0 M N K A B /\ (mr wctx | M) /\
     pexec (cake_sgemm_online Zs false wF haswell wctx M N K 1 (Some wctx) 6 1 16) m0 Undef).
Proof. exact online_unsafe. Qed.
Print Assumptions C11_online_memory_safe_refuted.
