(** * Properties of the 32-bit integer arithmetic of cake_sgemm.

    In ModelInt.v every int expression of the code is evaluated with a check that each
    intermediate result is a 32-bit int; otherwise the program is undefined.  SpecInt.v gives the
    limits. *)

From Coq Require Import ZArith List Bool.
From Verif Require Import SpecInt SpecTile Lang Spec SpecTop ModelSizing ModelKernel ModelTop ModelInt ModelIEEE
     Witness Witness_facts Mult_facts CallAll_facts Machine_facts IntTop_facts IntIEEE_facts IntCall_facts.
Open Scope Z_scope.

(** C34.  Below the limits no int expression evaluated anywhere in a call overflows: checking
    every one of them does not change the program ... *)
Theorem C34_no_overflow :
  forall S F ar q (nz : elt S -> bool) M N K p c oc pa pb alpha beta s mcu kcu ncu,
  legal F ar s c M N K p mcu kcu ncu -> match oc with Some c1 => c1 | None => q end = c ->
  sizes32 c M N K p -> sizing32 F c p ->
  (forall x c', init_block_dims F M N K p c s mcu kcu ncu = CRet (x, c') ->
     tiles32 (sch x) p (m_c x) (k_c x) (n_c x) /\ (nz beta = true -> beta32 (sch x) c M N p (m_c x))) ->
  cake_sgemm32 S F ar q nz M N K p oc pa pb alpha beta s mcu kcu ncu =
  cake_sgemm S F ar q nz M N K p oc pa pb alpha beta s mcu kcu ncu.
Proof. exact call32_is_call. Qed.
Print Assumptions C34_no_overflow.

(** ... so that in particular the product comes out in C with 32-bit ints. *)
Theorem C34_product :
  forall S F ar q (nz : elt S -> bool) M N K p c alpha beta s mcu kcu ncu t,
  legal F ar s c M N K p mcu kcu ncu -> sizes32 c M N K p -> sizing32 F c p ->
  (forall x c', init_block_dims F M N K p c s mcu kcu ncu = CRet (x, c') ->
     tiles32 (sch x) p (m_c x) (k_c x) (n_c x)) ->
  s = KMN \/ nz beta = false -> tail_ok c K p mcu kcu ncu t ->
  exists ord c', orders K ord /\ same_ctx c c' /\
    forall A B m0, caller m0 M N K A B -> (s <> KMN -> B_rim m0 N K (nr c) t) ->
      always (cake_sgemm32 S F ar q nz M N K p (Some c) false false alpha beta s mcu kcu ncu) m0
        (fun r m' => r = c' /\ holds m' BufC M N (product S A B ord) /\ only_C_changed m0 m' M N).
Proof. exact call32_product. Qed.
Print Assumptions C34_product.

(** With tiles given by the caller the limits are on the arguments alone. *)
Theorem C34_no_overflow_user_tiles :
  forall S F ar q (nz : elt S -> bool) M N K p c pa pb alpha beta s mcu kcu ncu,
  legal F ar s c M N K p mcu kcu ncu -> user_tiles c mcu kcu ncu ->
  sizes32 c M N K p -> sizing32 F c p -> tiles32 s p mcu kcu ncu -> s = KMN \/ nz beta = false ->
  cake_sgemm32 S F ar q nz M N K p (Some c) pa pb alpha beta s mcu kcu ncu =
  cake_sgemm S F ar q nz M N K p (Some c) pa pb alpha beta s mcu kcu ncu.
Proof. exact call32_user. Qed.
Print Assumptions C34_no_overflow_user_tiles.

(** With automatic tiles and IEEE arithmetic, on the caches of a real machine, only the sizes of
    the padded operands matter (K-first and M-first schedules). *)
Theorem C34_no_overflow_ieee :
  forall S ar q (nz : elt S -> bool) M N K p c pa pb alpha beta s mcu kcu ncu n2 n3,
  machine c -> arch_ok ar -> ctx_for ar s c -> 2 * bytes (mr c) (mr c) (nr c) <= L2 c ->
  0 <= M -> 0 <= N -> 0 <= K -> 0 < p <= ncores c -> fits_int c M p -> mcu = 0 \/ kcu = 0 \/ ncu = 0 ->
  s = KMN \/ s = MKN -> L2_side c n2 -> L3_side c n3 ->
  round_down n2 (mr c) <= round_down n3 (mr c) -> nr c <= p * round_down n3 (mr c) ->
  sizes32 c M N K p ->
  cake_sgemm32 S ieee ar q nz M N K p (Some c) pa pb alpha beta s mcu kcu ncu =
  cake_sgemm S ieee ar q nz M N K p (Some c) pa pb alpha beta s mcu kcu ncu.
Proof. exact call32_ieee. Qed.
Print Assumptions C34_no_overflow_ieee.

(** Beyond the limit the computation of the size itself overflows: if the padded A has 2^31
    elements or more, no execution is defined, whatever the memory. *)
Theorem C34_overflow_beyond :
  forall S F ar q (nz : elt S -> bool) M N K p c oc pb alpha beta s mcu kcu ncu m0,
  legal F ar s c M N K p mcu kcu ncu -> match oc with Some c1 => c1 | None => q end = c ->
  dims32 c M N K p -> sizing32 F c p ->
  (forall x c', init_block_dims F M N K p c s mcu kcu ncu = CRet (x, c') ->
     tiles32 (sch x) p (m_c x) (k_c x) (n_c x)) ->
  2 ^ 31 <= round_up M (mr c) * K ->
  let P := cake_sgemm32 S F ar q nz M N K p oc false pb alpha beta s mcu kcu ncu in
  (exists o, pexec P m0 o) /\ forall o, pexec P m0 o -> o = Undef.
Proof. exact call32_big. Qed.
Print Assumptions C34_overflow_beyond.

(** The N-first schedule with beta not 0 can overflow although every operand is small: the offset
    into the packed C is n * p * m_c * n_c, for the last rows too. *)
Theorem C34_N_first_pack_C_refuted :
  exists M N p mc nc, 0 < M /\ 0 < N /\ 0 < p /\ 0 < mc /\ 0 < nc /\ M * N < 2 ^ 20 /\ p * mc < 2 ^ 31 /\
  exists x, dims_NKM M N 1 p mc 1 nc 6 16 = CRet x /\ M_padded x * N_padded x < 2 ^ 20 /\
    forall m, pexec (pack_C_single_buf_n_first32 Zs (BufC, 0) (BufCp 0, 0) M N p x 6 16) m Undef.
Proof. exact packC_overflows. Qed.
Print Assumptions C34_N_first_pack_C_refuted.

Example C34_applies :
  legal ieee haswell KMN wctx 40000 40000 5000 4 96 96 160 /\ user_tiles wctx 96 96 160 /\
  sizes32 wctx 40000 40000 5000 4 /\ sizing32 ieee wctx 4 /\ tiles32 KMN 4 96 96 160.
Proof. exact w_32. Qed.

Example C34_ieee_applies :
  machine wctx /\ fits_int wctx 40000 4 /\ sizes32 wctx 40000 40000 5000 4 /\
  round_down 165 (mr wctx) <= round_down 209 (mr wctx) /\ nr wctx <= 4 * round_down 209 (mr wctx).
Proof. exact w_32_ieee. Qed.

Example C34_beyond_applies :
  legal ieee haswell KMN wctx 65536 16 65536 4 96 96 160 /\ dims32 wctx 65536 16 65536 4 /\ sizing32 ieee wctx 4 /\
  (forall x c', init_block_dims ieee 65536 16 65536 4 wctx KMN 96 96 160 = CRet (x, c') ->
     tiles32 (sch x) 4 (m_c x) (k_c x) (n_c x)) /\
  2 ^ 31 <= round_up 65536 (mr wctx) * 65536.
Proof. exact w_32_beyond. Qed.
