(** * Exactly when a multiplication reads memory the caller did not provide, and exactly when
    cake_sgemm_online has a data race. *)

From Coq Require Import ZArith List Bool Lia.
From Verif Require Import Lang Spec SpecTop SpecOnline SpecTouch ModelSizing ModelKernel ModelPack ModelSched ModelTop Exec
     Witness Witness_facts Online_facts Grid_call_facts TouchMN_facts TouchOnline_facts Touch2d_facts SmallOver_facts.
Open Scope Z_scope.

(** ** cake_sgemm, M-first and N-first *)

(** C10.  M-first and N-first with tile sizes given by the caller.  If one element of B past
    column N in one of the rows 0 .. K-t-1 is missing, every execution is undefined, under
    every interleaving.  Here t = [k_tail K p kcu] is the number of rows in the share of the last
    core of the last, partial, block of p*k_c rows: the flag that makes the packing look at N is
    set for that share only. *)
Theorem C10_MN_first_undefined :
  forall S F ar q (nz : elt S -> bool) M N K p c alpha beta s mcu kcu ncu m0 k j,
  s = MKN \/ s = NKM -> legal F ar s c M N K p mcu kcu ncu -> user_tiles c mcu kcu ncu ->
  0 <= k < K - k_tail K p kcu -> N <= j < round_up N (nr c) -> missing m0 BufB (k * N + j) ->
  always_undefined (cake_sgemm S F ar q nz M N K p (Some c) false false alpha beta s mcu kcu ncu) m0.
Proof. exact MN_undefined_user. Qed.
Print Assumptions C10_MN_first_undefined.

(** So the call is free of undefined behaviour exactly when all those elements are there. *)
Theorem C10_MN_first_safe_iff :
  forall S F ar q (nz : elt S -> bool) M N K p c alpha beta s mcu kcu ncu A B m0,
  s = MKN \/ s = NKM -> legal F ar s c M N K p mcu kcu ncu -> nz beta = false ->
  user_tiles c mcu kcu ncu -> caller m0 M N K A B ->
  (~ pexec (cake_sgemm S F ar q nz M N K p (Some c) false false alpha beta s mcu kcu ncu) m0 Undef <->
   B_rim m0 N K (nr c) (k_tail K p kcu)).
Proof. exact MN_safe_iff_user. Qed.
Print Assumptions C10_MN_first_safe_iff.

(** With B of exactly K*N elements: exactly when the whole of B is that last share, or the
    overhang of the row before it stays inside the rows of the share. *)
Theorem C10_MN_first_exact_size :
  forall S F ar q (nz : elt S -> bool) M N K p c alpha beta s mcu kcu ncu A B m0 bi,
  s = MKN \/ s = NKM -> legal F ar s c M N K p mcu kcu ncu -> nz beta = false ->
  user_tiles c mcu kcu ncu -> caller m0 M N K A B ->
  live m0 BufB = Some bi -> blen bi = K * N ->
  (~ pexec (cake_sgemm S F ar q nz M N K p (Some c) false false alpha beta s mcu kcu ncu) m0 Undef <->
   K = k_tail K p kcu \/ round_up N (nr c) <= (k_tail K p kcu + 1) * N).
Proof. exact MN_exact_user. Qed.
Print Assumptions C10_MN_first_exact_size.

(** With tile sizes the library computes: the same, with the k_c it computes. *)
Theorem C10_MN_first_exact_size_auto :
  forall S F ar q (nz : elt S -> bool) M N K p c alpha beta s mcu kcu ncu x c' A B m0 bi,
  s = MKN \/ s = NKM -> legal F ar s c M N K p mcu kcu ncu -> nz beta = false ->
  init_block_dims F M N K p c s mcu kcu ncu = CRet (x, c') -> caller m0 M N K A B ->
  live m0 BufB = Some bi -> blen bi = K * N ->
  (~ pexec (cake_sgemm S F ar q nz M N K p (Some c) false false alpha beta s mcu kcu ncu) m0 Undef <->
   K = k_tail K p (k_c x) \/ round_up N (nr c) <= (k_tail K p (k_c x) + 1) * N).
Proof. exact MN_exact. Qed.
Print Assumptions C10_MN_first_exact_size_auto.

(** Both sides occur: a 7 x 17 result with K = 5 on 2 threads with k_c = 2 has a last share of
    one row, and is safe; with K = 4 there is no partial block, and it is not. *)
Example C10_exact_applies :
  legal wF haswell MKN wctx 7 17 5 2 6 2 16 /\ user_tiles wctx 6 2 16 /\ Znz 0 = false /\
  caller (wmem 7 17 5) 7 17 5 (fun i k => wA (i * 5 + k)) (fun k j => wB (k * 17 + j)) /\
  k_tail 5 2 2 = 1 /\ round_up 17 (nr wctx) <= (k_tail 5 2 2 + 1) * 17 /\
  k_tail 4 2 2 = 0 /\ ~ (4 = k_tail 4 2 2 \/ round_up 17 (nr wctx) <= (k_tail 4 2 2 + 1) * 17) /\
  missing (wmem 7 17 4) BufB (3 * 17 + 17).
Proof.
  split; [apply w_legal; reflexivity || discriminate|split; [apply w_user; reflexivity|split; [reflexivity|]]].
  split; [apply w_caller|split; [reflexivity|split; [|split; [reflexivity|split]]]].
  - now apply Z.leb_le.
  - intros [H|H]; [discriminate H|]. apply Z.leb_le in H. vm_compute in H. discriminate.
  - intros bi v E H. injection E as <-. vm_compute in H. discriminate.
Qed.

(** ** cake_sgemm_online *)

(** C05, C08.  As written, cake_sgemm_online has a data race in every call in which two threads
    have work: every element type, size, tile size and number of threads. *)
Theorem C05_online_race :
  forall S F ar q M N K p c mcu kcu ncu (m0 : mem (elt S)),
  legal F ar KMN c M N K p mcu kcu ncu -> ~ one_thread M N K p (mr c) ->
  pexec (cake_sgemm_online S true F ar q M N K p (Some c) mcu kcu ncu) m0 Undef.
Proof. exact online_race_any. Qed.
Print Assumptions C05_online_race.

Example C05_race_applies : legal wF haswell KMN wctx 7 17 3 2 6 1 16 /\ ~ one_thread 7 17 3 2 (mr wctx).
Proof.
  split; [apply w_legal; reflexivity || discriminate|]. unfold one_thread. cbn. lia.
Qed.

(** C11.  If an element of A in one of the rows M .. or of B in one of the columns N .., up to
    the next multiple of m_r and n_r, is missing, every execution is undefined. *)
Theorem C11_online_undefined_A :
  forall S so F ar q M N K p c mcu kcu ncu (m0 : mem (elt S)) i k,
  legal F ar KMN c M N K p mcu kcu ncu -> 0 < M -> 0 < N ->
  M <= i < round_up M (mr c) -> 0 <= k < K -> missing m0 BufA (i * K + k) ->
  always_undefined (cake_sgemm_online S so F ar q M N K p (Some c) mcu kcu ncu) m0.
Proof. exact online_undefined_A. Qed.
Print Assumptions C11_online_undefined_A.

Theorem C11_online_undefined_B :
  forall S so F ar q M N K p c mcu kcu ncu (m0 : mem (elt S)) k j,
  legal F ar KMN c M N K p mcu kcu ncu -> 0 < M -> 0 < N ->
  0 <= k < K -> N <= j < round_up N (nr c) -> missing m0 BufB (k * N + j) ->
  always_undefined (cake_sgemm_online S so F ar q M N K p (Some c) mcu kcu ncu) m0.
Proof. exact online_undefined_B. Qed.
Print Assumptions C11_online_undefined_B.

(** So the call is free of undefined behaviour exactly when those elements are there and, if
    the assignments to the shared variable count, at most one thread has work. *)
Theorem C11_online_safe_iff :
  forall S so F ar q M N K p c mcu kcu ncu A B m0,
  legal F ar KMN c M N K p mcu kcu ncu -> 0 < M -> 0 < N -> caller m0 M N K A B ->
  (~ pexec (cake_sgemm_online S so F ar q M N K p (Some c) mcu kcu ncu) m0 Undef <->
   (so = true -> one_thread M N K p (mr c)) /\ A_rim m0 M K (mr c) /\ B_rim m0 N K (nr c) 0).
Proof. exact online_safe_iff. Qed.
Print Assumptions C11_online_safe_iff.

(** With operands of exactly the documented sizes: exactly when M and N are multiples of m_r
    and n_r. *)
Theorem C11_online_exact_size :
  forall S so F ar q M N K p c mcu kcu ncu A B m0 ba bb,
  legal F ar KMN c M N K p mcu kcu ncu -> 0 < M -> 0 < N -> 0 < K -> caller m0 M N K A B ->
  live m0 BufA = Some ba -> blen ba = M * K -> live m0 BufB = Some bb -> blen bb = K * N ->
  (~ pexec (cake_sgemm_online S so F ar q M N K p (Some c) mcu kcu ncu) m0 Undef <->
   (so = true -> p = 1 \/ M <= mr c) /\ (mr c | M) /\ (nr c | N)).
Proof. exact online_exact. Qed.
Print Assumptions C11_online_exact_size.

Example C11_online_exact_applies :
  legal wF haswell KMN wctx 7 17 3 2 6 1 16 /\
  caller (wmem 7 17 3) 7 17 3 (fun i k => wA (i * 3 + k)) (fun k j => wB (k * 17 + j)) /\
  live (wmem 7 17 3) BufA = Some (BInfo (7 * 3) false) /\ live (wmem 7 17 3) BufB = Some (BInfo (3 * 17) false) /\
  missing (wmem 7 17 3) BufA (7 * 3 + 0) /\ missing (wmem 7 17 3) BufB (2 * 17 + 17).
Proof.
  split; [apply w_legal; reflexivity || discriminate|split; [apply w_caller|split; [reflexivity|split; [reflexivity|]]]].
  split; intros bi v E H; injection E as <-; vm_compute in H; discriminate.
Qed.

(** ** cake_sgemm_2d and cake_sgemm_2d_small *)

(** C11.  The same for the grid. *)
Theorem C11_grid_undefined_A :
  forall S F ar q rows M N K p c mcu kcu ncu (m0 : mem (elt S)) i k,
  legal_2d F ar rows c M N K p mcu kcu ncu -> M <= i < round_up M (mr c) -> 0 <= k < K ->
  missing m0 BufA (i * K + k) ->
  always_undefined (cake_sgemm_2d S F ar q rows M N K p (Some c) mcu kcu ncu) m0.
Proof. exact g2d_undefined_A. Qed.
Print Assumptions C11_grid_undefined_A.

Theorem C11_grid_undefined_B :
  forall S F ar q rows M N K p c mcu kcu ncu (m0 : mem (elt S)) k j,
  legal_2d F ar rows c M N K p mcu kcu ncu -> 0 <= k < K -> N <= j < round_up N (nr c) ->
  missing m0 BufB (k * N + j) ->
  always_undefined (cake_sgemm_2d S F ar q rows M N K p (Some c) mcu kcu ncu) m0.
Proof. exact g2d_undefined_B. Qed.
Print Assumptions C11_grid_undefined_B.

Theorem C11_grid_safe_iff :
  forall S F ar q rows M N K p c mcu kcu ncu A B m0,
  legal_2d F ar rows c M N K p mcu kcu ncu -> caller m0 M N K A B ->
  (~ pexec (cake_sgemm_2d S F ar q rows M N K p (Some c) mcu kcu ncu) m0 Undef <->
   A_rim m0 M K (mr c) /\ B_rim m0 N K (nr c) 0).
Proof. exact g2d_safe_iff. Qed.
Print Assumptions C11_grid_safe_iff.

Theorem C11_grid_exact_size :
  forall S F ar q rows M N K p c mcu kcu ncu A B m0 ba bb,
  legal_2d F ar rows c M N K p mcu kcu ncu -> 0 < K -> caller m0 M N K A B ->
  live m0 BufA = Some ba -> blen ba = M * K -> live m0 BufB = Some bb -> blen bb = K * N ->
  (~ pexec (cake_sgemm_2d S F ar q rows M N K p (Some c) mcu kcu ncu) m0 Undef <-> (mr c | M) /\ (nr c | N)).
Proof. exact g2d_exact. Qed.
Print Assumptions C11_grid_exact_size.

Example C11_grid_exact_applies :
  legal_2d wFr haswell 4 wctx 37 47 5 4 6 2 16 /\
  caller (wmem 37 47 5) 37 47 5 (fun i k => wA (i * 5 + k)) (fun k j => wB (k * 47 + j)) /\
  live (wmem 37 47 5) BufA = Some (BInfo (37 * 5) false) /\ live (wmem 37 47 5) BufB = Some (BInfo (5 * 47) false) /\
  missing (wmem 37 47 5) BufA (41 * 5 + 4) /\ missing (wmem 37 47 5) BufB (4 * 47 + 47).
Proof.
  split; [apply w_legal_2d; try reflexivity || discriminate|split; [apply w_caller|split; [reflexivity|split; [reflexivity|]]]].
  - split; [split; discriminate || reflexivity|split; [discriminate|]]. left. exists 2. reflexivity.
  - split; intros bi v E H; injection E as <-; vm_compute in H; discriminate.
Qed.

(** C07, C11.  The grid for small matrices.  When a piece of M or N given to a core reaches past
    the padded dimension, every execution is undefined, whatever memory surrounds the operands. *)
Theorem C07_small_grid_undefined :
  forall S F ar q rows M N K p pn c A B (m0 : mem (elt S)),
  small_args F ar rows c M N K p pn -> caller m0 M N K A B ->
  ~ small_fits M (p / pn) (mr c) \/ ~ small_fits N pn (nr c) ->
  always_undefined (cake_sgemm_2d_small S F ar q rows M N K p (Some c)) m0.
Proof. exact small_over. Qed.
Print Assumptions C07_small_grid_undefined.

(** So it is free of undefined behaviour exactly when all pieces fit and the elements of A and B
    up to the next multiples of m_r and n_r are there; C07_small_grid_product says that it then
    computes the product. *)
Theorem C07_small_grid_safe_iff :
  forall S F ar q rows M N K p pn c A B m0,
  small_args F ar rows c M N K p pn -> caller m0 M N K A B ->
  (~ pexec (cake_sgemm_2d_small S F ar q rows M N K p (Some c)) m0 Undef <->
   small_fits M (p / pn) (mr c) /\ small_fits N pn (nr c) /\ A_rim m0 M K (mr c) /\ B_rim m0 N K (nr c) 0).
Proof. exact small_iff. Qed.
Print Assumptions C07_small_grid_safe_iff.

Theorem C07_small_grid_exact_size :
  forall S F ar q rows M N K p pn c A B m0 ba bb,
  small_args F ar rows c M N K p pn -> caller m0 M N K A B ->
  live m0 BufA = Some ba -> blen ba = M * K -> live m0 BufB = Some bb -> blen bb = K * N ->
  (~ pexec (cake_sgemm_2d_small S F ar q rows M N K p (Some c)) m0 Undef <->
   small_fits M (p / pn) (mr c) /\ small_fits N pn (nr c) /\ (mr c | M) /\ (nr c | N)).
Proof. exact small_iff_exact. Qed.
Print Assumptions C07_small_grid_exact_size.

(** On 2 x 2 cores, 18 rows and 48 columns fit.  12 rows do not: each piece has 12 rows, and the
    second is not shortened because 12 divides 12. *)
Example C07_exact_applies :
  small_args wFr haswell 4 wctx 18 48 5 4 2 /\ small_fits 18 (4 / 2) (mr wctx) /\ small_fits 48 2 (nr wctx) /\
  small_args wFr haswell 4 wctx 12 16 5 4 2 /\ ~ small_fits 12 (4 / 2) (mr wctx) /\
  caller (wmem 12 16 5) 12 16 5 (fun i k => wA (i * 5 + k)) (fun k j => wB (k * 16 + j)) /\
  live (wmem 12 16 5) BufA = Some (BInfo (12 * 5) false) /\ live (wmem 12 16 5) BufB = Some (BInfo (5 * 16) false).
Proof.
  split; [|split; [|split; [|split; [|split; [|split; [apply w_caller|split; reflexivity]]]]]].
  - split; [exact w_arch|split; [split; reflexivity|]]. vm_compute. repeat split; congruence.
  - split; [|vm_compute; discriminate]. intros [z Hz]. change (18 = z * 12) in Hz. lia.
  - split; [|vm_compute; discriminate]. intros [z Hz]. change (48 = z * 32) in Hz. lia.
  - split; [exact w_arch|split; [split; reflexivity|]]. vm_compute. repeat split; congruence.
  - intros (H & _). apply H. exists 1. reflexivity.
Qed.
