(** * Properties of the public function that multiplies straight into C.

    schedule_KMN_C_unpacked (include/cake.h:28) takes packed A and B and a C that is not
    packed: row major, rows and columns padded to whole register tiles.  The words used are
    defined in Spec.v, SpecTop.v, SpecTouch.v; [pack_and_multiply] packs A and B with the
    library's functions and calls it. *)

From Coq Require Import ZArith List Bool.
From Verif Require Import Lang Spec SpecTop SpecTouch ModelSizing ModelKernel ModelPack ModelTop ModelUnpacked Exec Exec_facts
     Witness Witness_facts Unpacked_facts UnpackedWide_facts WitnessUnpacked.
Open Scope Z_scope.

(** C73.  When C is no wider than one register tile the function adds A*B to it: element
    (i,j) is summed over each index once, in one order that depends on the shape alone,
    starting from what C held.  Every execution ends well, for every number of cores and
    every interleaving, and changes nothing but the packed operands and C. *)
Theorem C73_narrow_exact :
  forall S F ar c M N K p mcu kcu ncu x c1,
  legal F ar KMN c M N K p mcu kcu ncu -> ctx_min ar c -> N <= nr c ->
  init_block_dims F M N K p c KMN mcu kcu ncu = CRet (x, c1) ->
  exists ord, orders K ord /\
  forall A B C0 (m0 : mem (elt S)),
    at_least m0 BufA (M * K) -> holds m0 BufA M K A -> at_least m0 BufB (K * N) -> holds m0 BufB K N B ->
    at_least m0 BufC (round_up M (mr c) * round_up N (nr c)) ->
    holds m0 BufC (round_up M (mr c)) (round_up N (nr c)) C0 ->
    at_least m0 (BufAp 0) (round_up M (mr c) * K) ->
    (exists bi, live m0 BufBp = Some bi /\ K * round_up N (nr c) <= blen bi /\ b64 bi = true) ->
    always (pack_and_multiply S ar M N K p c1 x) m0
      (fun _ m' =>
         (forall i j, 0 <= i < M -> 0 <= j < N ->
            dat m' BufC (i * round_up N (nr c) + j) = Some (product_plus S A B C0 ord i j)) /\
         (forall b, live m' b = live m0 b) /\
         forall b i, ~ (b = BufAp 0 /\ 0 <= i < round_up M (mr c) * K) ->
           ~ (b = BufBp /\ 0 <= i < K * round_up N (nr c)) ->
           ~ (b = BufC /\ 0 <= i < round_up M (mr c) * round_up N (nr c)) -> dat m' b i = dat m0 b i).
Proof. exact multiply_narrow. Qed.
Print Assumptions C73_narrow_exact.

(** 13 x 11 by depth 7 on 2 cores, in blocks of depth 3. *)
Example C73_narrow_applies :
  legal wF haswell KMN wctx 13 11 7 2 6 3 16 /\ ctx_min haswell wctx /\ 11 <= nr wctx /\
  (exists x c1, init_block_dims wF 13 11 7 2 wctx KMN 6 3 16 = CRet (x, c1)) /\
  at_least (umem 13 11 7) BufC (round_up 13 6 * round_up 11 16) /\
  option_map (fun o => outC o (12 * 16 + 10)) (wrun 13 11 7 2 3) =
    Some (Some (product_plus Zs (fun i k => wA (i * 7 + k)) (fun k j => wB (k * 11 + j))
                  (fun i j => wC (i * 16 + j)) (fun _ _ => zrange 0 7) 12 10)).
Proof.
  split; [now apply w_legal|]. split; [split; reflexivity|]. split; [discriminate|].
  split; [do 2 eexists; vm_compute; reflexivity|]. split; [apply (umem_caller 13 11 7); discriminate|].
  vm_compute. reflexivity.
Qed.

(** C73.  When C is wider the kernel is told the wrong distance between the rows of the
    packed B.  With a packed B of the size the library asks for, every call whose last block
    of the common dimension is deeper than one reads past its end: no execution ends well,
    whatever the other objects hold. *)
Theorem C73_wide_undefined :
  forall S F ar c M N K p mcu kcu ncu x c1 (m0 : mem (elt S)) bi,
  legal F ar KMN c M N K p mcu kcu ncu -> ctx_min ar c -> 0 < M -> nr c < N -> 0 < K ->
  init_block_dims F M N K p c KMN mcu kcu ncu = CRet (x, c1) ->
  live m0 BufBp = Some bi ->
  blen bi < K * round_up N (nr c) + ((K - 1) mod k_c x) * (round_up N (nr c) - nr c) ->
  always_undefined (pack_and_multiply S ar M N K p c1 x) m0.
Proof. exact multiply_wide. Qed.
Print Assumptions C73_wide_undefined.

(** 13 x 17 by depth 8 in blocks of depth 3: the packed B has 8*32 elements, the last read
    is at 8*32 + 16 - 1. *)
Example C73_wide_applies :
  legal wF haswell KMN wctx 13 17 8 2 6 3 16 /\ ctx_min haswell wctx /\ nr wctx < 17 /\
  (exists x c1, init_block_dims wF 13 17 8 2 wctx KMN 6 3 16 = CRet (x, c1) /\ (8 - 1) mod k_c x = 1 /\
     packed_B_size 8 17 x (nr c1) = CRet (8 * 32)) /\
  live (umem 13 17 8) BufBp = Some (BInfo (8 * 32) true) /\
  8 * 32 < 8 * round_up 17 (nr wctx) + 1 * (round_up 17 (nr wctx) - nr wctx).
Proof.
  split; [now apply w_legal|]. split; [split; reflexivity|]. split; [reflexivity|].
  split; [do 2 eexists; split; [vm_compute; reflexivity|split; vm_compute; reflexivity]|].
  split; reflexivity.
Qed.

(** C73.  Blocks of depth one stay inside the packed B, but a tile is written as one run of
    elements, not row by row into C, so even then C comes out wrong: 2 x 17 by depth 1. *)
Theorem C73_wide_wrong_refuted :
  exists M N K x c1 m' i j,
    legal wF haswell KMN wctx M N K 1 6 1 16 /\ init_block_dims wF M N K 1 wctx KMN 6 1 16 = CRet (x, c1) /\
    pexec (pack_and_multiply Zs haswell M N K 1 c1 x) (umem M N K) (Done tt m') /\
    0 <= i < M /\ 0 <= j < N /\
    dat m' BufC (i * round_up N 16 + j) <>
      Some (product_plus Zs (fun i k => wA (i * K + k)) (fun k j => wB (k * N + j))
              (fun i j => wC (i * round_up N 16 + j)) (fun _ _ => zrange 0 K) i j).
Proof. exact wide_wrong. Qed.
Print Assumptions C73_wide_wrong_refuted.

(** C73.  In every call with a C wider than one register tile, at every depth and however large
    the packed B, no finished execution writes the last element of the last row of a register
    tile: it stays what it was, whatever A and B hold. *)
Theorem C73_wide_never_written :
  forall S F ar c M N K p mcu kcu ncu x c1 (m0 : mem (elt S)) r m',
  legal F ar KMN c M N K p mcu kcu ncu -> ctx_min ar c -> 1 < mr c -> nr c < N ->
  init_block_dims F M N K p c KMN mcu kcu ncu = CRet (x, c1) ->
  pexec (pack_and_multiply S ar M N K p c1 x) m0 (Done r m') ->
  forall i, 0 <= i < M -> i mod mr c = mr c - 1 ->
  dat m' BufC (i * round_up N (nr c) + (N - 1)) = dat m0 BufC (i * round_up N (nr c) + (N - 1)).
Proof. exact wide_stale_row. Qed.
Print Assumptions C73_wide_never_written.

(** 13 x 17 by depth 1: the execution that runs the cores in turn finishes, and element (5,16),
    which should grow by A(5,0)*B(0,16), does not. *)
Example C73_never_written_applies :
  legal wF haswell KMN wctx 13 17 1 2 6 1 16 /\ ctx_min haswell wctx /\ 1 < mr wctx /\ nr wctx < 17 /\ (5 mod mr wctx) = mr wctx - 1 /\
  option_map (fun o => outC o (5 * 32 + 16)) (wrun 13 17 1 2 1) = Some (Some (wC (5 * 32 + 16))) /\ wA 5 * wB 16 <> 0.
Proof.
  split; [now apply w_legal|]. split; [split; reflexivity|]. split; [reflexivity|]. split; [reflexivity|]. split; [reflexivity|].
  split; [vm_compute; reflexivity|vm_compute; discriminate].
Qed.
