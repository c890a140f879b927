(** * Properties of register tiles and cache tiles chosen by the caller.

    What a call leaves in C when the tile does not suit the kernel: statements about every
    finished execution, whatever the matrices. *)

From Coq Require Import ZArith List Bool Lia.
From Verif Require Import Lang Spec SpecTop SpecOnline SpecMisfit ModelSizing ModelKernel ModelPack ModelSched ModelTop Exec
     Exec_facts Witness Witness_facts SizeCall_facts Online_facts Grid_call_facts Resid_facts Resid2_facts UserTile_facts Mult_facts Candidate_facts SpecTouch LargeCall_facts LargeOut_facts.
Open Scope Z_scope.

(** C24.  After update_mr_nr with the size of any generated kernel, cake_sgemm_online still
    computes the product (C24_register_tile_K_first in PropSizing.v is the same for the
    K-first call). *)
Theorem C24_register_tile_online :
  forall S so F ar q M N K p c i j mcu kcu ncu,
  arch_ok ar -> 0 <= i < MR_CNT ar -> 0 <= j < NR_CNT ar ->
  let c1 := update_mr_nr ar c (MR_MIN ar + i * MR_FACT ar) (NR_MIN ar + j * NR_FACT ar) in
  0 <= M -> 0 <= N -> 0 <= K -> 0 < p -> tiles_ok F M p c1 mcu kcu ncu -> (so = true -> one_thread M N K p (mr c1)) ->
  exists ord c', orders K ord /\ same_ctx c1 c' /\
    forall A B m0, caller m0 M N K A B -> A_rim m0 M K (mr c1) -> B_rim m0 N K (nr c1) 0 ->
      always (cake_sgemm_online S so F ar q M N K p (Some c1) mcu kcu ncu) m0
        (fun r m' => r = c' /\ holds m' BufC M N (product S A B ord) /\ only_C_changed m0 m' M N).
Proof.
  intros S so F ar q M N K p c i j mcu kcu ncu Har Hi Hj c1 HM HN HK Hp Ht Ho.
  apply online_product; [|exact Ho]. split; [auto|split; [apply update_ctx_ok; auto|auto]].
Qed.
Print Assumptions C24_register_tile_online.

(** The other paths always run the smallest kernel, of MR_MIN x NR_MIN elements.  With a
    register tile of m_r x n_r they never compute the elements of a tile from number
    MR_MIN*NR_MIN on (counted along the rows of the tile): in every finished execution such an
    element of C is 0 or what it was before.  Hence with a larger tile the result is wrong
    whenever the product there is anything else. *)
Theorem C24_larger_tile_M_N_first :
  forall S F ar q (nz : elt S -> bool) M N K p c m_r n_r packedA packedB alpha beta s mcu kcu ncu A B m0 r m',
  let c1 := update_mr_nr ar c m_r n_r in
  s = MKN \/ s = NKM -> nz beta = false -> 0 < m_r -> 0 < n_r ->
  0 <= M -> 0 <= N -> 0 <= K -> 0 < p -> tiles_ok F M p c1 mcu kcu ncu -> caller m0 M N K A B ->
  pexec (cake_sgemm S F ar q nz M N K p (Some c1) packedA packedB alpha beta s mcu kcu ncu) m0 (Done r m') ->
  forall i j, 0 <= i < M -> 0 <= j < N ->
    MR_MIN ar * NR_MIN ar <= (i mod m_r) * n_r + j mod n_r ->
    dat m' BufC (i * N + j) = Some (zero S) \/ dat m' BufC (i * N + j) = dat m0 BufC (i * N + j).
Proof.
  intros S F ar q nz M N K p c m_r n_r pa pb alpha beta s mcu kcu ncu A B m0 r m' c1 Hs Hb Hm Hn HM HN HK Hp Ht
    (_ & _ & _ & _ & _ & Ho) H.
  exact (MN_unset S F ar q nz M N K p (Some c1) c1 pa pb alpha beta s mcu kcu ncu m0 r m'
           eq_refl HM HN HK Hp Hm Hn Ht Hs Hb Ho H).
Qed.
Print Assumptions C24_larger_tile_M_N_first.

Theorem C24_larger_tile_2d :
  forall S F ar q rows M N K p c m_r n_r mcu kcu ncu A B (m0 : mem (elt S)) r m',
  let c1 := update_mr_nr ar c m_r n_r in
  0 < m_r -> 0 < n_r -> 0 < M -> 0 < N -> 0 <= K -> 0 < p ->
  grid_exists F M N p (ncores c1) rows -> tiles_2d F c1 mcu kcu ncu -> caller m0 M N K A B ->
  pexec (cake_sgemm_2d S F ar q rows M N K p (Some c1) mcu kcu ncu) m0 (Done r m') ->
  forall i j, 0 <= i < M -> 0 <= j < N ->
    MR_MIN ar * NR_MIN ar <= (i mod m_r) * n_r + j mod n_r ->
    dat m' BufC (i * N + j) = Some (zero S) \/ dat m' BufC (i * N + j) = dat m0 BufC (i * N + j).
Proof.
  intros S F ar q rows M N K p c m_r n_r mcu kcu ncu A B m0 r m' c1 Hm Hn HM HN HK Hp Hg Ht (_ & _ & _ & _ & _ & Ho) H.
  exact (G2_unset S F ar q rows M N K p (Some c1) c1 mcu kcu ncu m0 r m' eq_refl HM HN HK Hp Hm Hn Hg Ht Ho H).
Qed.
Print Assumptions C24_larger_tile_2d.

Theorem C24_larger_tile_2d_small :
  forall S F ar q rows M N K p c m_r n_r A B (m0 : mem (elt S)) r m',
  let c1 := update_mr_nr ar c m_r n_r in
  0 < m_r -> 0 < n_r -> 0 < M -> 0 < N -> 0 < p -> 0 <= fp_pn F p N M -> caller m0 M N K A B ->
  pexec (cake_sgemm_2d_small S F ar q rows M N K p (Some c1)) m0 (Done r m') ->
  forall i j, 0 <= i < M -> 0 <= j < N ->
    MR_MIN ar * NR_MIN ar <= (i mod m_r) * n_r + j mod n_r ->
    dat m' BufC (i * N + j) = Some (zero S) \/ dat m' BufC (i * N + j) = dat m0 BufC (i * N + j).
Proof.
  intros S F ar q rows M N K p c m_r n_r A B m0 r m' c1 Hm Hn HM HN Hp Hf (_ & _ & _ & _ & _ & Ho) H.
  exact (small_unset S F ar q rows M N K p (Some c1) c1 m0 r m' eq_refl HM HN Hp Hm Hn Hf Ho H).
Qed.
Print Assumptions C24_larger_tile_2d_small.

(** Finished executions with the 8x32 tile on Haswell, whose smallest kernel is 6x16, two tiles
    high and two wide: element (15, 63) is number 255 of its tile, stays 0, and should not be. *)
Example C24_larger_tile_applies :
  let c1 := update_mr_nr haswell wctx 8 32 in
  MR_MIN haswell * NR_MIN haswell <= (15 mod 8) * 32 + 63 mod 32 /\
  outC (pseqexec (cake_sgemm Zs wF haswell wctx Znz 16 64 3 2 (Some c1) false false 1 0 MKN 8 1 32) (wmem 16 64 3))
    (15 * 64 + 63) = Some 0 /\
  outC (pseqexec (cake_sgemm Zs wF haswell wctx Znz 16 64 3 2 (Some c1) false false 1 0 NKM 8 1 32) (wmem 16 64 3))
    (15 * 64 + 63) = Some 0 /\
  grid_exists wFr 16 64 4 (ncores c1) 4 /\ tiles_2d wFr c1 8 2 32 /\
  outC (pseqexec (cake_sgemm_2d Zs wFr haswell wctx 4 16 64 3 4 (Some c1) 8 2 32) (wmem 16 64 3))
    (15 * 64 + 63) = Some 0 /\
  matmul Zs Z.add Z.mul (fun i k => wA (i * 3 + k)) (fun k j => wB (k * 64 + j)) 3 15 63 <> 0.
Proof.
  split; [discriminate|split; [vm_compute; reflexivity|split; [vm_compute; reflexivity|]]].
  split; [split; [split; discriminate || reflexivity|split; [discriminate|left; exists 1; reflexivity]]|].
  split; [left; split; [reflexivity|split; [reflexivity|split; [discriminate|exists 1; reflexivity]]]|].
  split; [vm_compute; reflexivity|vm_compute; discriminate].
Qed.

(** C23.  With caller-given tiles that are multiples of the register tile the result is A*B, with
    every schedule (C23_user_tiles_K_first in PropMult.v needs no condition on B beyond its end). *)
Theorem C23_user_tiles :
  forall S F ar q (nz : elt S -> bool) M N K p c alpha beta s mcu kcu ncu t,
  arch_ok ar -> ctx_for ar s c -> 0 <= M -> 0 <= N -> 0 <= K -> 0 < p ->
  0 < mcu -> 0 < kcu -> 0 < ncu -> (mr c | mcu) -> (nr c | ncu) ->
  s = KMN \/ nz beta = false -> tail_ok c K p mcu kcu ncu t ->
  exists ord c', orders K ord /\ same_ctx c c' /\
    forall A B m0, caller m0 M N K A B -> (s <> KMN -> B_rim m0 N K (nr c) t) ->
      always (cake_sgemm S F ar q nz M N K p (Some c) false false alpha beta s mcu kcu ncu) m0
        (fun r m' => r = c' /\ holds m' BufC M N (product S A B ord) /\ only_C_changed m0 m' M N).
Proof.
  intros S F ar q nz M N K p c alpha beta s mcu kcu ncu t Har Hc HM HN HK Hp Hm Hk Hn Dm Dn Hb Ht.
  refine (plain_ok S F ar q nz M N K p c alpha beta s mcu kcu ncu _ (Some c) t eq_refl Hb Ht).
  do 6 (split; [assumption|]). left. do 4 (split; [assumption|]). assumption.
Qed.
Print Assumptions C23_user_tiles.

(** Otherwise, as soon as one full block is used, there is an element of C, the same for all
    matrices and all executions, that no finished execution computes: it is 0 or what it was
    before the call. *)
Theorem C23_misfit_misses :
  forall S F ar q (nz : elt S -> bool) M N K p c packedA packedB alpha beta s mcu kcu ncu,
  s <> NA -> arch_ok ar -> ctx_for ar s c -> 0 < M -> 0 < N -> 0 <= K -> 0 < p ->
  0 < mcu -> 0 < kcu -> 0 < ncu -> (s <> KMN -> nz beta = false) ->
  misfit s p (mr c) (nr c) M N mcu ncu ->
  exists i j, 0 <= i < M /\ 0 <= j < N /\
    forall A B m0 r m', caller m0 M N K A B ->
      pexec (cake_sgemm S F ar q nz M N K p (Some c) packedA packedB alpha beta s mcu kcu ncu) m0 (Done r m') ->
      dat m' BufC (i * N + j) = Some (zero S) \/ dat m' BufC (i * N + j) = dat m0 BufC (i * N + j).
Proof.
  intros S F ar q nz M N K p c pa pb alpha beta s mcu kcu ncu Hs Har Hc HM HN HK Hp Hm Hk Hn Hb Hf.
  destruct (user_missed S F ar q nz M N K p (Some c) c pa pb alpha beta s mcu kcu ncu eq_refl Hs Har Hc HM HN HK Hp Hm Hk Hn Hb Hf)
    as (i & j & Hi & Hj & H).
  exists i, j. split; [exact Hi|split; [exact Hj|]]. intros A B m0 r m' (_ & _ & _ & _ & _ & Ho). exact (H m0 r m' Ho).
Qed.
Print Assumptions C23_misfit_misses.

(** Hence the result is not the product whenever no element of the product is 0 and C held
    something else before. *)
Theorem C23_misfit_wrong :
  forall S F ar q (nz : elt S -> bool) M N K p c packedA packedB alpha beta s mcu kcu ncu A B m0 r m' ord,
  s <> NA -> arch_ok ar -> ctx_for ar s c -> 0 < M -> 0 < N -> 0 <= K -> 0 < p ->
  0 < mcu -> 0 < kcu -> 0 < ncu -> (s <> KMN -> nz beta = false) ->
  misfit s p (mr c) (nr c) M N mcu ncu -> caller m0 M N K A B ->
  (forall i j, 0 <= i < M -> 0 <= j < N ->
     product S A B ord i j <> zero S /\ dat m0 BufC (i * N + j) <> Some (product S A B ord i j)) ->
  pexec (cake_sgemm S F ar q nz M N K p (Some c) packedA packedB alpha beta s mcu kcu ncu) m0 (Done r m') ->
  ~ holds m' BufC M N (product S A B ord).
Proof.
  intros S F ar q nz M N K p c pa pb alpha beta s mcu kcu ncu A B m0 r m' ord Hs Har Hc HM HN HK Hp Hm Hk Hn Hb Hf Hca Hne H Hh.
  destruct (C23_misfit_misses S F ar q nz M N K p c pa pb alpha beta s mcu kcu ncu Hs Har Hc HM HN HK Hp Hm Hk Hn Hb Hf)
    as (i & j & Hi & Hj & G).
  destruct (Hne i j Hi Hj) as (N1 & N2). rewrite <- (Hh i j Hi Hj) in N2.
  destruct (G A B m0 r m' Hca H) as [E|E]; [|congruence]. rewrite (Hh i j Hi Hj) in E. congruence.
Qed.
Print Assumptions C23_misfit_wrong.

(** Finished executions exist in every schedule: blocks of 7 rows with the 6x16 kernel leave row 6
    of column 0 at 0, blocks of 24 columns leave column 16 of row 0 at 0; the products there are
    not 0, and nor is what the call leaves beside them. *)
Example C23_misfit_applies :
  let run s M N p mcu ncu i j := outC (pseqexec
    (cake_sgemm Zs wF haswell wctx Znz M N 2 p (Some wctx) false false 1 0 s mcu 2 ncu) (wmem M N 2)) (i * N + j) in
  let ab N i j := matmul Zs Z.add Z.mul (fun i k => wA (i * 2 + k)) (fun k j => wB (k * N + j)) 2 i j in
  (forall s, misfit s 1 (mr wctx) (nr wctx) 13 16 7 32 /\ misfit s 2 (mr wctx) (nr wctx) 6 40 12 24) /\
  run KMN 13 16 1 7 32 6 0 = Some 0 /\ run MKN 13 16 1 7 32 6 0 = Some 0 /\ run NKM 13 16 1 7 32 6 0 = Some 0 /\
  run KMN 13 16 1 7 32 5 0 = Some (ab 16 5 0) /\ ab 16 6 0 <> 0 /\
  run KMN 6 40 2 12 24 0 16 = Some 0 /\ run MKN 6 40 2 12 24 0 16 = Some 0 /\ run NKM 6 40 2 12 24 0 16 = Some 0 /\
  run KMN 6 40 2 12 24 0 15 = Some (ab 40 0 15) /\ ab 40 0 16 <> 0.
Proof.
  cbv zeta. split.
  - intros s. assert (~ (6 | 7)) by (intros [u Hu]; lia). assert (~ (16 | 24)) by (intros [u Hu]; lia).
    split; [left; destruct s; (split; [discriminate|assumption])|right; split; [discriminate|assumption]].
  - repeat (split; [vm_compute; (reflexivity || discriminate)|]). vm_compute. discriminate.
Qed.

(** In all other cases, where the tile does not divide but no full block is used, the result is
    A*B again; K-first this also needs that what one core computes at a time, in whole register
    tiles, is no more than mcu*ncu elements. *)
Theorem C23_fitting_tiles :
  forall S F ar q (nz : elt S -> bool) M N K p c alpha beta s mcu kcu ncu t,
  s <> NA -> arch_ok ar -> ctx_for ar s c -> 0 <= M -> 0 <= N -> 0 <= K -> 0 < p ->
  0 < mcu -> 0 < kcu -> 0 < ncu -> (s <> KMN -> nz beta = false) ->
  ~ misfit s p (mr c) (nr c) M N mcu ncu -> (s = KMN -> share_fits p (mr c) (nr c) M N mcu ncu) ->
  0 <= t <= k_tail K p kcu ->
  exists ord c', orders K ord /\ same_ctx c c' /\
    forall A B m0, caller m0 M N K A B -> (s <> KMN -> B_rim m0 N K (nr c) t) ->
      always (cake_sgemm S F ar q nz M N K p (Some c) false false alpha beta s mcu kcu ncu) m0
        (fun r m' => r = c' /\ holds m' BufC M N (product S A B ord) /\ only_C_changed m0 m' M N).
Proof. exact fitting_ok. Qed.
Print Assumptions C23_fitting_tiles.

(** And when it is more, every execution runs past the end of what the call allocated. *)
Theorem C23_share_too_big :
  forall S F ar q (nz : elt S -> bool) M N K p c alpha beta mcu kcu ncu A B m0,
  arch_ok ar -> ctx_for ar KMN c -> 0 < M -> 0 < N -> 0 < K -> 0 < p ->
  0 < mcu -> 0 < kcu -> 0 < ncu ->
  ~ misfit KMN p (mr c) (nr c) M N mcu ncu -> ~ share_fits p (mr c) (nr c) M N mcu ncu ->
  caller m0 M N K A B ->
  always_undefined (cake_sgemm S F ar q nz M N K p (Some c) false false alpha beta KMN mcu kcu ncu) m0.
Proof.
  intros S F ar q nz M N K p c alpha beta mcu kcu ncu A B m0 Har Hc HM HN HK Hp Hm Hk Hn Hf Hs (_ & _ & _ & _ & _ & Ho).
  apply share_too_big; auto. now apply Ho.
Qed.
Print Assumptions C23_share_too_big.

(** Tiles of 7 rows and 20 columns, multiples of neither side of the 6x16 register tile, for a
    matrix of 3 rows and 5 columns, and of 100 rows and columns, for a matrix of 7 and 20; and
    tiles of 4 rows and 6 columns, too small for one register tile. *)
Example C23_fitting_applies :
  let run s M N p mcu ncu i j := outC (pseqexec
    (cake_sgemm Zs wF haswell wctx Znz M N 2 p (Some wctx) false false 1 0 s mcu 2 ncu) (wmem M N 2)) (i * N + j) in
  let ab N i j := matmul Zs Z.add Z.mul (fun i k => wA (i * 2 + k)) (fun k j => wB (k * N + j)) 2 i j in
  (forall s, ~ misfit s 1 (mr wctx) (nr wctx) 3 5 7 20 /\ ~ misfit s 2 (mr wctx) (nr wctx) 7 20 100 100 /\
     ~ misfit s 1 (mr wctx) (nr wctx) 3 5 4 6) /\
  share_fits 1 (mr wctx) (nr wctx) 3 5 7 20 /\ share_fits 2 (mr wctx) (nr wctx) 7 20 100 100 /\
  ~ share_fits 1 (mr wctx) (nr wctx) 3 5 4 6 /\
  run KMN 3 5 1 7 20 2 4 = Some (ab 5 2 4) /\ run KMN 7 20 2 100 100 6 19 = Some (ab 20 6 19) /\
  pseqexec (cake_sgemm Zs wF haswell wctx Znz 3 5 2 1 (Some wctx) false false 1 0 KMN 4 2 6) (wmem 3 5 2) = Undef.
Proof.
  cbv zeta. split.
  - intros s. unfold misfit. destruct s; cbn [block_rows]; repeat split; lia.
  - split; [discriminate|split; [discriminate|split; [intros H; apply H; reflexivity|]]].
    repeat (split; [vm_compute; reflexivity|]). vm_compute. reflexivity.
Qed.

(** C43.  All the tiles the autotuner can propose, starting from multiples of the register tile
    and whatever the random steps, are legal for the multiplication exactly if m_r divides its
    step 30 and n_r its step 128. *)
Theorem C43_candidates_legal :
  forall c, 0 < mr c -> 0 < nr c ->
  ((mr c | 30) /\ (nr c | 128) <->
   forall M K N pm pn m k n m' k' n', 0 <= M -> 0 < K -> 0 <= N -> 0 < pm -> 0 < pn -> user_tiles c m k n ->
     explored M K N pm pn c (m, k, n) (m', k', n') -> user_tiles c m' k' n').
Proof. exact explored_iff. Qed.
Print Assumptions C43_candidates_legal.

(** So it is for the 6x16 tile of Haswell and not for the 8x12 tile of ARMv8; and a proposal that
    is not legal misses part of C (C23_misfit_misses): 78 rows with the 8x12 tile, in a matrix of
    100 rows. *)
Example C43_legal_applies :
  (6 | 30) /\ (16 | 128) /\ ~ (8 | 30) /\ ~ (12 | 128) /\
  (let c := Cntx (1, 1) 8 12 0 0 32768 262144 8388608 4 in
   user_tiles c 48 100 120 /\ ctx_for armv8 KMN c /\
   explored 100 1000 1000 1 1 c (48, 100, 120) (78, 120, 248) /\ misfit KMN 1 (mr c) (nr c) 100 1000 78 248) /\
  (exists t, explored 600 600 600 2 2 wctx (48, 100, 160) t /\ t = (78, 120, 32)).
Proof.
  split; [exists 5; reflexivity|split; [exists 8; reflexivity|split; [intros [u Hu]; lia|split; [intros [u Hu]; lia|split]]]].
  - cbv zeta. split; [repeat (split; [reflexivity|]); split; [exists 6; reflexivity|exists 10; reflexivity]|].
    split; [repeat split; discriminate || reflexivity|]. split; [exact (Propose 100 1000 1000 1 1 _ _ 48 100 120 1 1 1 (Start _ _ _ _ _ _ _))|].
    left. split; [discriminate|intros [u Hu]; cbn in Hu; lia].
  - eexists. split; [exact (Propose 600 600 600 2 2 _ _ 48 100 160 1 1 (-1) (Start _ _ _ _ _ _ _))|reflexivity].
Qed.
