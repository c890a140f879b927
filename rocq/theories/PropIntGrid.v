(** * Properties of the 32-bit integer arithmetic of cake_sgemm_online, cake_sgemm_2d and
    cake_sgemm_2d_small.

    In ModelIntGrid.v every int expression of the code is evaluated with a check that each
    intermediate result is a 32-bit int; otherwise the program is undefined.  SpecInt.v and
    SpecIntGrid.v give the limits. *)

From Coq Require Import ZArith List Bool.
From Verif Require Import SpecInt SpecIntGrid Lang Spec SpecTop SpecOnline ModelSizing ModelKernel ModelTop ModelInt ModelIntGrid ModelIEEE
     Witness Witness_facts Grid_call_facts IntGridTop_facts.
Open Scope Z_scope.

(** C34.  Packing while multiplying: below the limits no int expression evaluated anywhere in a
    call overflows, ... *)
Theorem C34_online_no_overflow :
  forall S so F ar q M N K p c oc mcu kcu ncu,
  legal F ar KMN c M N K p mcu kcu ncu -> match oc with Some c1 => c1 | None => q end = c ->
  sizes32 c M N K p -> sizing32 F c p ->
  (forall x c', init_block_dims F M N K p c KMN mcu kcu ncu = CRet (x, c') -> online32 p (m_c x) (k_c x) (n_c x)) ->
  cake_sgemm_online32 S so F ar q M N K p oc mcu kcu ncu = cake_sgemm_online S so F ar q M N K p oc mcu kcu ncu.
Proof. exact online32_is_call. Qed.
Print Assumptions C34_online_no_overflow.

(** ... so that the product comes out in C with 32-bit ints. *)
Theorem C34_online_product :
  forall S so F ar q M N K p c mcu kcu ncu,
  legal F ar KMN c M N K p mcu kcu ncu -> (so = true -> one_thread M N K p (mr c)) ->
  sizes32 c M N K p -> sizing32 F c p ->
  (forall x c', init_block_dims F M N K p c KMN mcu kcu ncu = CRet (x, c') -> online32 p (m_c x) (k_c x) (n_c x)) ->
  exists ord c', orders K ord /\ same_ctx c c' /\
    forall A B m0, caller m0 M N K A B -> A_rim m0 M K (mr c) -> B_rim m0 N K (nr c) 0 ->
      always (cake_sgemm_online32 S so F ar q M N K p (Some c) mcu kcu ncu) m0
        (fun r m' => r = c' /\ holds m' BufC M N (product S A B ord) /\ only_C_changed m0 m' M N).
Proof. exact online32_product. Qed.
Print Assumptions C34_online_product.

Example C34_online_applies :
  legal ieee haswell KMN wctx 40000 40000 5000 4 96 96 160 /\ sizes32 wctx 40000 40000 5000 4 /\
  sizing32 ieee wctx 4 /\
  (forall x c', init_block_dims ieee 40000 40000 5000 4 wctx KMN 96 96 160 = CRet (x, c') -> online32 4 (m_c x) (k_c x) (n_c x)).
Proof. exact w_online32. Qed.

(** The processor grid: the choice of the grid, the sizing and the whole schedule. *)
Theorem C34_grid_no_overflow :
  forall S F ar q rows M N K p c oc mcu kcu ncu,
  legal_2d F ar rows c M N K p mcu kcu ncu -> match oc with Some c1 => c1 | None => q end = c ->
  grid32 F c M N K p mcu kcu ncu ->
  cake_sgemm_2d32 S F ar q rows M N K p oc mcu kcu ncu = cake_sgemm_2d S F ar q rows M N K p oc mcu kcu ncu.
Proof. exact grid32_is_call. Qed.
Print Assumptions C34_grid_no_overflow.

Theorem C34_grid_product :
  forall S F ar q rows M N K p c mcu kcu ncu,
  legal_2d F ar rows c M N K p mcu kcu ncu -> grid32 F c M N K p mcu kcu ncu ->
  exists ord, orders K ord /\
    forall A B m0, caller m0 M N K A B -> A_rim m0 M K (mr c) -> B_rim m0 N K (nr c) 0 ->
      always (cake_sgemm_2d32 S F ar q rows M N K p (Some c) mcu kcu ncu) m0
        (fun _ m' => holds m' BufC M N (product S A B ord) /\ only_C_changed m0 m' M N).
Proof. exact grid32_product. Qed.
Print Assumptions C34_grid_product.

Example C34_grid_applies :
  legal_2d wFr haswell 4 wctx 40000 40000 5000 4 6 96 16 /\ grid32 wFr wctx 40000 40000 5000 4 6 96 16.
Proof. exact w_grid32. Qed.

(** The grid for small matrices. *)
Theorem C34_small_grid_no_overflow :
  forall S F ar q rows M N K p pn c oc,
  legal_small F ar rows c M N K p pn -> match oc with Some c1 => c1 | None => q end = c -> small32 F c M N K p pn ->
  cake_sgemm_2d_small32 S F ar q rows M N K p oc = cake_sgemm_2d_small S F ar q rows M N K p oc.
Proof. exact small32_is_call. Qed.
Print Assumptions C34_small_grid_no_overflow.

Theorem C34_small_grid_product :
  forall S F ar q rows M N K p pn c,
  legal_small F ar rows c M N K p pn -> small32 F c M N K p pn ->
  forall A B m0, caller m0 M N K A B -> A_rim m0 M K (mr c) -> B_rim m0 N K (nr c) 0 ->
  always (cake_sgemm_2d_small32 S F ar q rows M N K p (Some c)) m0
    (fun _ m' => holds m' BufC M N (product S A B (fun _ _ => zrange 0 K)) /\ only_C_changed m0 m' M N).
Proof. exact small32_product. Qed.
Print Assumptions C34_small_grid_product.

Example C34_small_grid_applies :
  legal_small wFr haswell 4 wctx 40002 40016 5000 4 2 /\ small32 wFr wctx 40002 40016 5000 4 2.
Proof. exact w_small32. Qed.
