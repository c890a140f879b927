(** * Properties of block sizing, of the microkernel and of the panel-wise packers.

    The words used are defined in Spec.v, SpecTop.v, SpecPack.v and SpecSizing.v. *)

From Coq Require Import ZArith List Bool.
From Verif Require Import Lang Spec SpecTop SpecPack SpecSizing ModelSizing ModelKernel ModelPack ModelSched ModelTop
     Exec Witness Witness_facts WitnessPack Refute_facts Cover_facts SizeCall_facts.
Open Scope Z_scope.

(** C19.  Tile sizes the library chooses: if the L2 estimate has room for one register
    panel, sizing succeeds with positive tiles that are multiples of the register tile,
    for every schedule asked for. *)
Theorem C19_automatic_tiles_legal :
  forall F c s M N K p mcu kcu ncu,
  0 <= M -> 0 <= N -> 0 <= K -> 0 < p -> 0 < mr c -> 0 < nr c -> auto_tiles F M p c mcu kcu ncu ->
  exists x c', init_block_dims F M N K p c s mcu kcu ncu = CRet (x, c') /\
    0 < m_c x /\ 0 < k_c x /\ 0 < n_c x /\ (mr c | m_c x) /\ (nr c | n_c x) /\
    sch x <> NA /\ (s <> NA -> sch x = s).
Proof. exact auto_legal. Qed.
Print Assumptions C19_automatic_tiles_legal.

(** With a smaller estimate sizing divides by zero: alpha_n is an infinity or a NaN, whose
    product with anything does not fit an int (the last hypothesis). *)
Theorem C19_small_L2_undefined :
  forall F c s M N K p mcu kcu ncu,
  0 <= M -> 0 < p -> 0 < mr c -> 0 < nr c -> (mcu = 0 \/ kcu = 0 \/ ncu = 0) ->
  0 <= fp_mcL2 F (nr c) (L2 c) < mr c -> (forall a q x, fp_mul F (a, 0) q x = None) ->
  init_block_dims F M N K p c s mcu kcu ncu = CUB.
Proof. exact small_L2_UB. Qed.
Print Assumptions C19_small_L2_undefined.

Example C19_applies :
  auto_tiles wF 1000 4 wctx 0 0 0 /\
  (exists x c', init_block_dims wF 1000 900 800 4 wctx NA 0 0 0 = CRet (x, c') /\ m_c x = 180 /\ n_c x = 2032).
Proof. split; [apply w_auto|]. do 2 eexists. split; [vm_compute; reflexivity|split; vm_compute; reflexivity]. Qed.

Example C19_small_applies :
  let F := FP (fun _ _ => 5) (fun _ _ => 510) (fun a q x => if snd a =? 0 then None else Some (fst a * (q * x) / snd a))
              (fp_mkn wF) (fp_nkm wF) (fp_mc2d wF) (fp_kcmax wF) (fp_pn wF) in
  0 <= fp_mcL2 F (nr wctx) (L2 wctx) < mr wctx /\ (forall a q x, fp_mul F (a, 0) q x = None) /\
  init_block_dims F 100 100 100 4 wctx KMN 0 0 0 = CUB.
Proof. split; [split; [discriminate|reflexivity]|split; [intros; reflexivity|vm_compute; reflexivity]]. Qed.

(** C20.  The blocks and the cores' shares computed by init_block_dims cut each of the three
    dimensions exactly; rows and columns are padded by less than one register tile and every
    share is a multiple of it. *)
Theorem C20_blocks_cover_exactly :
  forall F ar s c M N K p mcu kcu ncu, legal F ar s c M N K p mcu kcu ncu ->
  exists x c', init_block_dims F M N K p c s mcu kcu ncu = CRet (x, c') /\
    exact_cover p (rows p x) /\ exact_cover p (columns x) /\ exact_cover p (depth K p x) /\
    M <= M_padded x < M + mr c /\ N <= N_padded x < N + nr c /\
    (forall b core, 0 <= b < d_blocks (rows p x) -> 0 <= core < d_cores (rows p x) b -> (mr c | d_share (rows p x) b core)) /\
    (forall b, 0 <= b < d_blocks (columns x) -> (nr c | d_share (columns x) b 0)).
Proof. exact blocks_cover. Qed.
Print Assumptions C20_blocks_cover_exactly.

Example C20_applies :
  legal wF haswell KMN wctx 31 33 5 2 6 2 16 /\
  exists x c', init_block_dims wF 31 33 5 2 wctx KMN 6 2 16 = CRet (x, c') /\
    d_len (rows 2 x) = 36 /\ d_blocks (rows 2 x) = 3 /\ at_place (rows 2 x) 32 2 1 2 /\
    d_blocks (columns x) = 3 /\ at_place (depth 5 2 x) 4 2 0 0.
Proof.
  split; [apply w_legal; reflexivity || discriminate|]. do 2 eexists. split; [vm_compute; reflexivity|].
  unfold at_place. cbn. repeat split; reflexivity || discriminate.
Qed.

(** C24.  After update_mr_nr with the size of any generated kernel, the K-first call still
    computes the product. *)
Theorem C24_register_tile_K_first :
  forall S F ar q (nz : elt S -> bool) M N K p c i j alpha beta mcu kcu ncu,
  arch_ok ar -> 0 <= i < MR_CNT ar -> 0 <= j < NR_CNT ar ->
  let c1 := update_mr_nr ar c (MR_MIN ar + i * MR_FACT ar) (NR_MIN ar + j * NR_FACT ar) in
  0 <= M -> 0 <= N -> 0 <= K -> 0 < p -> tiles_ok F M p c1 mcu kcu ncu ->
  exists ord c', orders K ord /\ same_ctx c1 c' /\
    forall A B m0, caller m0 M N K A B ->
      always (cake_sgemm S F ar q nz M N K p (Some c1) false false alpha beta KMN mcu kcu ncu) m0
        (fun r m' => r = c' /\ holds m' BufC M N (product S A B ord) /\ only_C_changed m0 m' M N).
Proof. exact update_ok. Qed.
Print Assumptions C24_register_tile_K_first.

(** The M-first and N-first calls always run the smallest kernel: with the 8x32 tile on
    Haswell the result is wrong. *)
Theorem C24_register_tile_M_N_first_refuted :
  forall s, s = MKN \/ s = NKM ->
  exists A B m0, let c1 := update_mr_nr haswell wctx 8 32 in
    user_tiles c1 8 1 32 /\ caller m0 8 32 1 A B /\ (nr c1 | 32) /\
    ~ always (cake_sgemm Zs wF haswell wctx Znz 8 32 1 1 (Some c1) false false 1 0 s 8 1 32) m0
        (fun _ m' => holds m' BufC 8 32 (matmul Zs Z.add Z.mul A B 1)).
Proof. exact update_wrong. Qed.
Print Assumptions C24_register_tile_M_N_first_refuted.

Example C24_applies :
  arch_ok haswell /\ 0 <= 1 < MR_CNT haswell /\ 0 <= 1 < NR_CNT haswell /\
  MR_MIN haswell + 1 * MR_FACT haswell = 8 /\ NR_MIN haswell + 1 * NR_FACT haswell = 32 /\
  outC (pseqexec (cake_sgemm Zs wF haswell wctx Znz 13 33 5 2 (Some (update_mr_nr haswell wctx 8 32)) false false 1 0 KMN 8 2 32)
          (wmem 13 33 5)) (12 * 33 + 32) = Some 61455.
Proof.
  split; [apply w_arch|split; [split; reflexivity || discriminate|split; [split; reflexivity || discriminate|]]].
  split; [reflexivity|split; [reflexivity|vm_compute; reflexivity]].
Qed.

(** C26.  Every kernel of the table, run by one thread on a tile of C stored in rows of n_r:
    it adds k outer products of columns of m_r elements of A and rows of n_r elements of B,
    in the order 0..k-1.  Nothing outside those k*m_r and k*n_r elements needs to exist or
    to have a value, and nothing but the tile is written. *)
Theorem C26_microkernel_outer_products :
  forall S ar i j (a b c : buf) ao bo co mm k (A B C : Z -> Z -> elt S) bi m,
  arch_ok ar -> 0 <= i < MR_CNT ar -> 0 <= j < NR_CNT ar -> 0 <= k ->
  let m_r := MR_MIN ar + i * MR_FACT ar in
  let n_r := NR_MIN ar + j * NR_FACT ar in
  a <> c -> b <> c -> 0 <= ao -> 0 <= bo -> 0 <= co ->
  at_least m a (ao + k * m_r) -> live m b = Some bi -> bo + k * n_r <= blen bi -> at_least m c (co + m_r * n_r) ->
  (lanes ar = 1 \/ b64 bi = true /\ bo mod lanes ar = 0) ->
  (forall r kk, 0 <= r < m_r -> 0 <= kk < k -> dat m a (ao + kk * m_r + r) = Some (A r kk)) ->
  (forall kk s, 0 <= kk < k -> 0 <= s < n_r -> dat m b (bo + kk * n_r + s) = Some (B kk s)) ->
  (forall r s, 0 <= r < m_r -> 0 <= s < n_r -> dat m c (co + r * n_r + s) = Some (C r s)) ->
  always (ppar_for 0 1 1 (fun _ => kernel_map S ar i j (a, ao) (b, bo) (c, co) mm n_r k)) m
    (fun _ m' =>
       (forall r s, 0 <= r < m_r -> 0 <= s < n_r ->
          dat m' c (co + r * n_r + s) = Some (dot S (A r) (fun kk => B kk s) (zrange 0 k) (C r s))) /\
       (forall b', live m' b' = live m b') /\
       (forall b' x, ~ (b' = c /\ co <= x < co + m_r * n_r) -> dat m' b' x = dat m b' x)).
Proof. exact kernel_ok. Qed.
Print Assumptions C26_microkernel_outer_products.

(** k = 5 (one unrolled round and one remainder step) of the 8x32 kernel: exactly 40 and
    160 elements; C[r][s] starts as r*32+s. *)
Definition k_mem : mem Z :=
  Mem (fun b => match b with BufA => Some (BInfo 40 false) | BufBp => Some (BInfo 160 true) | BufC => Some (BInfo 256 false) | _ => None end)
      (fun b i => match b with BufA => Some (wA i) | BufBp => Some (wB i) | BufC => Some i | _ => None end).
Example C26_applies :
  dot Zs (fun kk => wA (kk * 8 + 7)) (fun kk => wB (kk * 32 + 31)) (zrange 0 5) (7 * 32 + 31) = 27815 /\
  outC (pseqexec (ppar_for 0 1 1 (fun _ => kernel_map Zs haswell 1 1 (BufA, 0) (BufBp, 0) (BufC, 0) 8 32 5)) k_mem) (7 * 32 + 31)
    = Some 27815.
Proof. split; vm_compute; reflexivity. Qed.

(** C39.  The packers built on per-panel kernels leave the memory the plain packers leave.
    (Both are safe on source matrices of exactly M*K and K*N elements.) *)
Theorem C39_panel_packing_A_same :
  forall S F ar c M N K p mcu kcu ncu x c1,
  legal F ar KMN c M N K p mcu kcu ncu -> init_block_dims F M N K p c KMN mcu kcu ncu = CRet (x, c1) ->
  forall src dst (A : Z -> Z -> elt S) m, src <> dst -> at_least m src (M * K) -> holds m src M K A ->
  at_least m dst (round_up M (mr c) * K) ->
  always (pack_A_single_buf_k_first S (src, 0) (dst, 0) M K p x (mr c1)) m (fun _ m1 =>
    only_changed m m1 dst (round_up M (mr c) * K) /\
    always (pack_A_single_buf_k_first_blis S (src, 0) (dst, 0) M K p x (mr c1)) m (fun _ m2 => same_mem m1 m2)).
Proof. exact blisA_same. Qed.
Print Assumptions C39_panel_packing_A_same.

Theorem C39_panel_packing_B_same :
  forall S F ar c M N K p mcu kcu ncu x c1,
  legal F ar KMN c M N K p mcu kcu ncu -> init_block_dims F M N K p c KMN mcu kcu ncu = CRet (x, c1) ->
  forall src dst (B : Z -> Z -> elt S) m, src <> dst -> at_least m src (K * N) -> holds m src K N B ->
  at_least m dst (K * round_up N (nr c)) ->
  always (pack_B_k_first S (src, 0) (dst, 0) K N x (nr c1)) m (fun _ m1 =>
    only_changed m m1 dst (K * round_up N (nr c)) /\
    always (pack_B_k_first_blis S (src, 0) (dst, 0) K N x (nr c1)) m (fun _ m2 => same_mem m1 m2)).
Proof. exact blisB_same. Qed.
Print Assumptions C39_panel_packing_B_same.

Example C39_applies :
  legal wF haswell KMN wctx 13 33 5 2 6 2 16 /\
  exists x c1, init_block_dims wF 13 33 5 2 wctx KMN 6 2 16 = CRet (x, c1) /\
    match pseqexec (pack_B_k_first_blis Zs (BufC, 0) (srcA, 0) 5 33 x (nr c1)) (rmem 5 33 240),
          pseqexec (pack_B_k_first Zs (BufC, 0) (srcA, 0) 5 33 x (nr c1)) (rmem 5 33 240) with
    | Done _ m1, Done _ m2 => dat m1 srcA 70 = dat m2 srcA 70 /\ dat m1 srcA 70 <> None
    | _, _ => False
    end.
Proof.
  split; [apply w_legal; reflexivity || discriminate|]. do 2 eexists. split; [vm_compute; reflexivity|].
  vm_compute. split; [reflexivity|discriminate].
Qed.
