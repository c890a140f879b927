(** * Properties of the packing functions.

    The words used are defined in Spec.v, SpecTop.v and SpecPack.v. *)

From Coq Require Import ZArith List Bool.
From Verif Require Import Lang Spec SpecTop SpecPack ModelSizing ModelKernel ModelPack ModelTop Exec Witness Witness_facts
     Refute_facts Prepack_facts NfOver_facts WitnessPack.
Open Scope Z_scope.

(** C17.  Operands packed beforehand with the library's own functions, for every schedule
    and every choice of which operands are packed: the call leaves in C the very sums
    (same order [ord] of additions) the plain call leaves. *)
Theorem C17_prepacked_same_result :
  forall S F ar q (nz : elt S -> bool) M N K p c alpha beta s mcu kcu ncu t,
  legal F ar s c M N K p mcu kcu ncu -> (s <> KMN -> nz beta = false) -> tail_ok c K p mcu kcu ncu t ->
  exists ord c', orders K ord /\ same_ctx c c' /\
    (forall A B m0, caller m0 M N K A B -> (s <> KMN -> B_rim m0 N K (nr c) t) ->
      always (cake_sgemm S F ar q nz M N K p (Some c) false false alpha beta s mcu kcu ncu) m0
        (fun r m' => r = c' /\ holds m' BufC M N (product S A B ord))) /\
    (forall pa pb aa A B m0, prepacking_caller m0 pa pb M N K A B ->
      (s <> KMN -> rim m0 (if pb then srcB else BufB) N K (nr c) t) ->
      always (prepacked_call S F ar q nz M N K p c pa pb aa true alpha beta s mcu kcu ncu) m0
        (fun r m' => r = c' /\ holds m' BufC M N (product S A B ord) /\ caller_keeps m0 m' M N)).
Proof. exact prepacked_ok. Qed.
Print Assumptions C17_prepacked_same_result.

Example C17_applies :
  prepacking_caller (pmem 13 32 5) true true 13 32 5 (fun i k => wA (i * 5 + k)) (fun k j => wB (k * 32 + j)) /\
  rim (pmem 13 32 5) srcB 32 5 16 0 /\
  legal wF haswell NKM wctx 13 32 5 2 6 2 16 /\
  outC (pseqexec (prepacked_call Zs wF haswell wctx Znz 13 32 5 2 wctx true true false true 1 0 NKM 6 2 16) (pmem 13 32 5))
       (12 * 32 + 31) = Some 59545 /\
  outC (pseqexec (prepacked_call Zs wF haswell wctx Znz 13 32 5 2 wctx true true false true 1 0 KMN 6 2 16) (pmem 13 32 5))
       (12 * 32 + 31) = Some 59545.
Proof.
  split; [apply p_caller|split; [apply p_rim; [reflexivity|exists 2; reflexivity]|]].
  split; [apply w_legal; reflexivity || discriminate|split; vm_compute; reflexivity].
Qed.

(** C18.  The size functions return exactly what the packing functions fill: an object of
    exactly that many elements is enough (no execution is undefined), afterwards all its
    elements have a value, and nothing else changed. *)
Theorem C18_packed_A_size_exact :
  forall S F ar s c M N K p mcu kcu ncu x c1,
  legal F ar s c M N K p mcu kcu ncu -> init_block_dims F M N K p c s mcu kcu ncu = CRet (x, c1) ->
  let n := round_up M (mr c) * K in
  packed_A_size M K p x (mr c1) (sch x) = CRet n /\
  forall src dst A m, src <> dst -> at_least m src (M * K) -> holds m src M K A -> exact_size m dst n ->
    always (pack_A S (src, 0) (dst, 0) M K p x c1 (sch x)) m
      (fun _ m' => initialised m' dst n /\ only_changed m m' dst n).
Proof. exact pack_A_exact. Qed.
Print Assumptions C18_packed_A_size_exact.

Theorem C18_packed_B_size_exact :
  forall S F ar s c M N K p mcu kcu ncu t x c1,
  legal F ar s c M N K p mcu kcu ncu -> tail_ok c K p mcu kcu ncu t ->
  init_block_dims F M N K p c s mcu kcu ncu = CRet (x, c1) ->
  let n := K * round_up N (nr c) in
  packed_B_size K N x (nr c1) = CRet n /\
  forall src dst B m, src <> dst -> at_least m src (K * N) -> holds m src K N B ->
    (sch x <> KMN -> rim m src N K (nr c) t) -> exact_size m dst n ->
    always (pack_B S (src, 0) (dst, 0) K N p x c1 (sch x)) m
      (fun _ m' => initialised m' dst n /\ only_changed m m' dst n).
Proof. exact pack_B_exact. Qed.
Print Assumptions C18_packed_B_size_exact.

(** For C the claim is false of the N-first schedule with partial blocks (below), so the
    theorem asks for [C_aligned], which only restricts that schedule ... *)
Theorem C18_packed_C_size_exact :
  forall S F ar s c M N K p mcu kcu ncu x c1,
  legal F ar s c M N K p mcu kcu ncu -> init_block_dims F M N K p c s mcu kcu ncu = CRet (x, c1) ->
  C_aligned (sch x) M N p c x ->
  let n := round_up M (mr c) * round_up N (nr c) in
  packed_C_size M N p x (mr c1) (nr c1) (sch x) = CRet n /\
  forall src dst C0 m, src <> dst -> at_least m src (M * N) -> holds m src M N C0 -> exact_size m dst n ->
    always (pack_C S (src, 0) (dst, 0) M N p x c1 (sch x)) m
      (fun _ m' => initialised m' dst n /\ only_changed m m' dst n).
Proof. exact pack_C_exact. Qed.
Print Assumptions C18_packed_C_size_exact.

(** ... and [C_aligned] is the exact condition: without it, packing into fresh memory of the
    size returned is undefined or leaves an element of it without a value. *)
Theorem C18_packed_C_exactly_when :
  forall S F ar s c M N K p mcu kcu ncu x c1 src dst C0 m,
  legal F ar s c M N K p mcu kcu ncu -> 0 < M -> init_block_dims F M N K p c s mcu kcu ncu = CRet (x, c1) ->
  let n := round_up M (mr c) * round_up N (nr c) in
  src <> dst -> at_least m src (M * N) -> holds m src M N C0 -> exact_size m dst n -> (forall i, dat m dst i = None) ->
  (always (pack_C S (src, 0) (dst, 0) M N p x c1 (sch x)) m (fun _ m' => initialised m' dst n) <->
   C_aligned (sch x) M N p c x).
Proof. exact pack_C_iff. Qed.
Print Assumptions C18_packed_C_exactly_when.

(** N-first, 13 x 32 with 2 cores and 6 x 16 tiles: pack_C writes outside an object of the
    size packed_C_size returned. *)
Theorem C18_packed_C_size_refuted :
  (exists x c1 n m C0, legal wF haswell NKM wctx 13 32 1 2 6 1 16 /\
    init_block_dims wF 13 32 1 2 wctx NKM 6 1 16 = CRet (x, c1) /\
    packed_C_size 13 32 2 x (mr c1) (nr c1) (sch x) = CRet n /\
    at_least m BufC (13 * 32) /\ holds m BufC 13 32 C0 /\ exact_size m srcB n /\
    pexec (pack_C Zs (BufC, 0) (srcB, 0) 13 32 2 x c1 (sch x)) m Undef).
Proof. exact pack_C_overflows. Qed.
Print Assumptions C18_packed_C_size_refuted.

Example C18_applies :
  legal wF haswell MKN wctx 13 33 5 2 6 2 16 /\
  (exists x c1, init_block_dims wF 13 33 5 2 wctx MKN 6 2 16 = CRet (x, c1) /\ C_aligned (sch x) 13 33 2 wctx x /\
     packed_C_size 13 33 2 x (mr c1) (nr c1) (sch x) = CRet (18 * 48)) /\
  round_up 13 6 = 18 /\ round_up 33 16 = 48.
Proof.
  split; [apply w_legal; reflexivity || discriminate|split; [|split; reflexivity]].
  do 2 eexists. split; [vm_compute; reflexivity|split; [discriminate|reflexivity]].
Qed.

(** C36.  A vector load of B at an address that is not a multiple of the vector size makes
    the execution undefined in the model, so the theorems C01-C03 and C17 (B packed by the
    library, or by the caller into a 64-byte aligned object) say that every such load is
    aligned.  If the caller's own object is not aligned, the claim fails. *)
Theorem C36_unaligned_prepacked_refuted :
  exists M N K p A B m0, legal wF haswell KMN wctx M N K p 6 1 16 /\ prepacking_caller m0 false true M N K A B /\
    pexec (prepacked_call Zs wF haswell wctx Znz M N K p wctx false true true false 1 0 KMN 6 1 16) m0 Undef.
Proof. exact unaligned_B. Qed.
Print Assumptions C36_unaligned_prepacked_refuted.

(** C38.  Packing C and unpacking it again gives C back, into the same or another object of
    any content, for K-first and M-first always, for N-first when [C_aligned]. *)
Theorem C38_C_round_trip :
  forall S F ar s c M N K p mcu kcu ncu x c1 n,
  legal F ar s c M N K p mcu kcu ncu -> init_block_dims F M N K p c s mcu kcu ncu = CRet (x, c1) ->
  C_aligned (sch x) M N p c x ->
  packed_C_size M N p x (mr c1) (nr c1) (sch x) = CRet n ->
  forall src tmp dst C0 m, src <> tmp -> dst <> tmp -> at_least m src (M * N) -> holds m src M N C0 ->
    at_least m tmp n -> at_least m dst (M * N) ->
    always (pbind (pack_C S (src, 0) (tmp, 0) M N p x c1 (sch x))
                  (fun _ => unpack_C S (dst, 0) (tmp, 0) M N p x c1 (sch x))) m
      (fun _ m' => holds m' dst M N C0 /\ (forall b, live m' b = live m b) /\
         forall b i, ~ (b = tmp /\ 0 <= i < n) -> ~ (b = dst /\ 0 <= i < M * N) -> dat m' b i = dat m b i).
Proof. exact C_round_trip. Qed.
Print Assumptions C38_C_round_trip.

Example C38_applies :
  legal wF haswell KMN wctx 13 33 5 2 6 2 16 /\
  exists x c1, init_block_dims wF 13 33 5 2 wctx KMN 6 2 16 = CRet (x, c1) /\ C_aligned (sch x) 13 33 2 wctx x /\
     packed_C_size 13 33 2 x (mr c1) (nr c1) (sch x) = CRet 864 /\
     match pseqexec (pbind (pack_C Zs (BufC, 0) (srcA, 0) 13 33 2 x c1 (sch x))
                           (fun _ => unpack_C Zs (srcB, 0) (srcA, 0) 13 33 2 x c1 (sch x))) (rmem 13 33 864) with
     | Done _ m => dat m srcB (12 * 33 + 32) = Some (100 + 428) /\ dat m srcB 7 = Some 107
     | _ => False
     end.
Proof.
  split; [apply w_legal; reflexivity || discriminate|].
  do 2 eexists. split; [vm_compute; reflexivity|split; [discriminate|split; [reflexivity|vm_compute; split; reflexivity]]].
Qed.
