(** * Properties of the floating-point computations in the sizing code.

    ModelDouble.v and ModelIEEE.v give the expressions of the C++ code operation by operation in
    IEEE binary64 and binary32 arithmetic, as formalised by Flocq; SpecTile.v says what they are
    meant to compute. *)

From Coq Require Import ZArith List Bool.
From Verif Require Import Lang Spec SpecTop SpecTile SpecTol SpecOnline ModelSizing ModelKernel ModelSched ModelTop ModelDouble ModelIEEE
     Double_facts Witness Witness_facts Mult_facts CallAll_facts Grid_call_facts Machine_facts Tile_wit_facts Tol_facts.
Open Scope Z_scope.

(** C33.  Everywhere the code needs a rounded-up quotient of ints it writes
    (int) ceil( ((double) a) / b ).  In binary64 arithmetic this is the exact ceiling for all
    non-negative ints; [ceil_div] is characterised beside. *)
Theorem C33_ceiling_exact :
  forall a b, 0 <= a < 2 ^ 31 -> 0 < b < 2 ^ 31 ->
  exists n, ceil_double a b = Some n /\ (n - 1) * b < a <= n * b.
Proof. exact ceil_double_exact. Qed.
Print Assumptions C33_ceiling_exact.

(** and it is what the sizing model uses wherever the code has the expression *)
Theorem C33_ceiling_used :
  forall a b, 0 <= a < 2 ^ 31 -> 0 < b < 2 ^ 31 -> iceil a b = ofopt (ceil_double a b).
Proof. exact iceil_double. Qed.
Print Assumptions C33_ceiling_used.

Example C33_applies : ceil_double 2147483647 6 = Some 357913942 /\ ceil_double 2147483646 6 = Some 357913941 /\ ceil_double 0 7 = Some 0.
Proof. vm_compute. auto. Qed.

(** C19, C01 on a machine with IEEE arithmetic: no assumption on floating-point results is left.
    If L2 holds a register tile twice and the sizes stay in the range of int, every call of
    cake_sgemm with automatic tiles is legal, ... *)
Theorem C19_ieee_automatic_tiles_legal :
  forall ar s c M N K p mcu kcu ncu,
  machine c -> arch_ok ar -> ctx_for ar s c -> 2 * bytes (mr c) (mr c) (nr c) <= L2 c ->
  0 <= M -> 0 <= N -> 0 <= K -> 0 < p -> fits_int c M p -> mcu = 0 \/ kcu = 0 \/ ncu = 0 ->
  legal ieee ar s c M N K p mcu kcu ncu.
Proof. exact ieee_legal. Qed.
Print Assumptions C19_ieee_automatic_tiles_legal.

(** ... and the K-first call leaves A*B in C. *)
Theorem C01_ieee_automatic_tiles_product :
  forall S ar q (nz : elt S -> bool) M N K p c alpha beta mcu kcu ncu,
  machine c -> arch_ok ar -> ctx_for ar KMN c -> 2 * bytes (mr c) (mr c) (nr c) <= L2 c ->
  0 <= M -> 0 <= N -> 0 <= K -> 0 < p -> fits_int c M p -> mcu = 0 \/ kcu = 0 \/ ncu = 0 ->
  exists ord c', orders K ord /\ same_ctx c c' /\
    forall A B m0, caller m0 M N K A B ->
      always (cake_sgemm S ieee ar q nz M N K p (Some c) false false alpha beta KMN mcu kcu ncu) m0
        (fun r m' => r = c' /\ holds m' BufC M N (product S A B ord) /\ only_C_changed m0 m' M N).
Proof. intros; eapply K_first_ok; eauto; apply ieee_legal; auto. Qed.
Print Assumptions C01_ieee_automatic_tiles_product.

(** If the side of the L2 tile is below m_r, every automatic sizing is undefined. *)
Theorem C19_ieee_small_L2_undefined :
  forall c s M N K p n2 mcu kcu ncu,
  machine c -> L2_side c n2 -> n2 < mr c -> 0 <= M -> 0 < p -> mcu = 0 \/ kcu = 0 \/ ncu = 0 ->
  init_block_dims ieee M N K p c s mcu kcu ncu = CUB.
Proof. exact ieee_small_L2. Qed.
Print Assumptions C19_ieee_small_L2_undefined.

Example C19_ieee_applies :
  machine wctx /\ 2 * bytes (mr wctx) (mr wctx) (nr wctx) <= L2 wctx /\ fits_int wctx 100000 4 /\
  ctx_for haswell KMN wctx /\ L2_side wctx 165 /\ L3_side wctx 209.
Proof. exact w_machine. Qed.

Example C19_ieee_small_applies : machine tiny /\ L2_side tiny 5 /\ 5 < mr tiny.
Proof. exact w_tiny. Qed.

(** C44.  Automatic tiles and the L2 cache.  In the K-first and M-first schedules a core's working
    set -- its m_c x k_c block of A with panels of B and C one register tile wide -- fills at most
    half of L2, and the tile is the largest square that does, in multiples of m_r, when there are
    enough rows for all cores. *)
Theorem C44_tile_fits_L2 :
  forall c s M N K p mcu kcu ncu x c',
  machine c -> 2 * bytes (mr c) (mr c) (nr c) <= L2 c -> 0 <= M -> 0 < p -> mcu = 0 \/ kcu = 0 \/ ncu = 0 ->
  init_block_dims ieee M N K p c s mcu kcu ncu = CRet (x, c') -> sch x <> NKM ->
  2 * bytes (m_c x) (k_c x) (nr c) <= L2 c /\ m_c x = k_c x /\
  (forall n2, L2_side c n2 -> p * round_down n2 (mr c) <= M -> m_c x = round_down n2 (mr c)).
Proof. exact fits_L2. Qed.
Print Assumptions C44_tile_fits_L2.

Example C44_applies : exists x c', init_block_dims ieee 1000 900 2000 4 wctx NA 0 0 0 = CRet (x, c') /\
  sch x = KMN /\ m_c x = 162 /\ k_c x = 162 /\ n_c x = 816 /\ round_down 165 (mr wctx) = 162.
Proof. do 2 eexists. split; [vm_compute; reflexivity|vm_compute; auto 6]. Qed.

(** In the N-first schedule the tile is scaled by alpha_n: on a 6x16 kernel with 256K of L2, 32M of
    L3 and 4 cores the working set is larger than the whole of L2. *)
Theorem C44_N_first_fits_refuted :
  exists c M N K p x c', machine c /\ 2 * bytes (mr c) (mr c) (nr c) <= L2 c /\ 0 < M /\ 0 < N /\ 0 < K /\ p = ncores c /\
    init_block_dims ieee M N K p c NA 0 0 0 = CRet (x, c') /\ sch x = NKM /\
    L2 c < bytes (m_c x) (k_c x) (nr c).
Proof. exact w_L2_NKM. Qed.
Print Assumptions C44_N_first_fits_refuted.

(** C45.  Automatic tiles and the L3 cache.  If the L3 tile is at least as large as the L2 tile and
    not more cores are used than the context was made for, the block of all cores -- p*m_c x k_c of
    A, k_c x n_c of B and p*m_c x n_c of C in the K-first schedule -- fills at most half of L3. *)
Theorem C45_block_fits_L3 :
  forall c s M N K p mcu kcu ncu x c',
  machine c -> 2 * bytes (mr c) (mr c) (nr c) <= L2 c -> 0 <= M -> 0 < p -> mcu = 0 \/ kcu = 0 \/ ncu = 0 ->
  init_block_dims ieee M N K p c s mcu kcu ncu = CRet (x, c') ->
  forall n2 n3, sch x <> NKM -> L2_side c n2 -> L3_side c n3 -> p <= ncores c ->
  round_down n2 (mr c) <= round_down n3 (mr c) -> nr c <= p * round_down n3 (mr c) ->
  (sch x = KMN -> 2 * bytes (p * m_c x) (k_c x) (n_c x) <= L3 c) /\
  (sch x = MKN -> 2 * bytes (m_c x) (p * k_c x) (n_c x) <= L3 c).
Proof. exact fits_L3. Qed.
Print Assumptions C45_block_fits_L3.

Example C45_applies : round_down 165 (mr wctx) <= round_down 209 (mr wctx) /\ nr wctx <= 4 * round_down 209 (mr wctx) /\
  exists x c', init_block_dims ieee 1000 100 200 4 wctx NA 0 0 0 = CRet (x, c') /\ sch x = MKN /\ n_c x = 816.
Proof. split; [vm_compute; discriminate|split; [vm_compute; discriminate|]]. do 2 eexists. split; [vm_compute; reflexivity|vm_compute; auto]. Qed.

(** Without that: a large L2 beside a small L3, as on a machine with 1M and 1.375M per core. *)
Theorem C45_small_L3_refuted :
  exists c M N K x c', machine c /\ 2 * bytes (mr c) (mr c) (nr c) <= L2 c <= L3 c /\ ncores c = 1 /\
    init_block_dims ieee M N K 1 c KMN 0 0 0 = CRet (x, c') /\ L3 c < 2 * bytes (m_c x) (k_c x) (n_c x).
Proof. exact w_L3. Qed.
Print Assumptions C45_small_L3_refuted.

(** C46.  The automatic schedule follows the documented rule ([choice]), with k the depth of a
    block, as long as the sizes are moderate ... *)
Theorem C46_schedule_rule_moderate :
  forall c M N K p n2 n3 mcu kcu ncu x c',
  machine c -> L2_side c n2 -> L3_side c n3 -> mr c <= n2 -> mr c <= n3 ->
  0 < M < 2 ^ 24 -> 0 < N < 2 ^ 24 -> 0 <= K <= 2 ^ 24 -> 0 < p -> mcu = 0 \/ kcu = 0 \/ ncu = 0 ->
  let k := p * tile_for M p (mr c) (round_down n2 (mr c)) in
  k <= 2 ^ 24 -> M * k <= 2 ^ 22 -> N * k <= 2 ^ 22 ->
  init_block_dims ieee M N K p c NA mcu kcu ncu = CRet (x, c') -> sch x = choice M N K k.
Proof. exact ieee_schedule. Qed.
Print Assumptions C46_schedule_rule_moderate.

(** ... and for larger ones rounding can only replace K-first by another schedule, or break a
    tie between M and N. *)
Theorem C46_schedule_one_way :
  forall c M N K p n2 n3 mcu kcu ncu x c',
  machine c -> L2_side c n2 -> L3_side c n3 -> mr c <= n2 -> mr c <= n3 ->
  0 < M < 2 ^ 24 -> 0 < N < 2 ^ 24 -> 0 <= K <= 2 ^ 24 -> 0 < p -> mcu = 0 \/ kcu = 0 \/ ncu = 0 ->
  let k := p * tile_for M p (mr c) (round_down n2 (mr c)) in
  k <= 2 ^ 24 ->
  init_block_dims ieee M N K p c NA mcu kcu ncu = CRet (x, c') ->
  (choice M N K k = MKN -> sch x = MKN) /\ (M < N -> choice M N K k = NKM -> sch x = NKM) /\
  (sch x = MKN -> N <= M) /\ (sch x = NKM -> M <= N).
Proof. exact ieee_schedule_M. Qed.
Print Assumptions C46_schedule_one_way.

(** Below 2^24 the rule is followed for all sizes, except that next to the cut-off (K greater than
    2Dk/(D+k), with D the larger of M and N, by at most one part in 2^22) the schedule of the larger
    extent may replace K-first. *)
Theorem C46_schedule_all_sizes :
  forall c M N K p n2 n3 mcu kcu ncu x c',
  machine c -> L2_side c n2 -> L3_side c n3 -> mr c <= n2 -> mr c <= n3 -> 0 < p -> mcu = 0 \/ kcu = 0 \/ ncu = 0 ->
  let k := p * tile_for M p (mr c) (round_down n2 (mr c)) in
  k <= 2 ^ 24 ->
  init_block_dims ieee M N K p c NA mcu kcu ncu = CRet (x, c') ->
  0 < M < 2 ^ 24 -> 0 < N < 2 ^ 24 -> 0 <= K <= 2 ^ 24 ->
  sch x = choice M N K k \/
  (choice M N K k = KMN /\ sch x = (if N <=? M then MKN else NKM) /\
   about_le (K * (Z.max M N + k)) (2 * Z.max M N * k)).
Proof. exact schedule_near. Qed.
Print Assumptions C46_schedule_all_sizes.

(** For all ints the extents and K are rounded to single precision too: the rule decides whenever
    the quantities it compares differ by more than one part in 2^22. *)
Theorem C46_schedule_all_ints :
  forall c M N K p n2 n3 mcu kcu ncu x c',
  machine c -> L2_side c n2 -> L3_side c n3 -> mr c <= n2 -> mr c <= n3 -> 0 < p -> mcu = 0 \/ kcu = 0 \/ ncu = 0 ->
  let k := p * tile_for M p (mr c) (round_down n2 (mr c)) in
  k <= 2 ^ 24 ->
  init_block_dims ieee M N K p c NA mcu kcu ncu = CRet (x, c') ->
  0 < M < 2 ^ 31 -> 0 < N < 2 ^ 31 -> 0 <= K < 2 ^ 31 ->
  (N <= M -> clearly_le (K * (M + k)) (2 * M * k) -> sch x = MKN) /\
  (~ about_le N M -> clearly_le (K * (N + k)) (2 * N * k) -> sch x = NKM) /\
  (sch x = MKN -> about_le N M /\ about_le (K * (M + k)) (2 * M * k)) /\
  (sch x = NKM -> about_le M N /\ about_le (K * (N + k)) (2 * N * k)).
Proof. exact schedule_int. Qed.
Print Assumptions C46_schedule_all_ints.

(** Without room for a tile in L3, alpha_n is 0 and the schedule is always K-first. *)
Theorem C46_schedule_no_L3 :
  forall c M N K p n2 n3 mcu kcu ncu x c',
  machine c -> L2_side c n2 -> L3_side c n3 -> mr c <= n2 -> n3 < mr c ->
  0 <= M < 2 ^ 31 -> 0 <= N < 2 ^ 31 -> 0 < p <= 2 ^ 31 -> mcu = 0 \/ kcu = 0 \/ ncu = 0 ->
  init_block_dims ieee M N K p c NA mcu kcu ncu = CRet (x, c') -> sch x = KMN.
Proof. exact ieee_schedule_no_L3. Qed.
Print Assumptions C46_schedule_no_L3.

Example C46_applies :
  4 * tile_for 2000 4 6 (round_down 165 6) = 648 /\ 2000 * 648 <= 2 ^ 22 /\
  choice 2000 1000 900 648 = MKN /\ choice 1000 2000 900 648 = NKM /\ choice 2000 1000 1000 648 = KMN /\
  (exists x c', init_block_dims ieee 2000 1000 900 4 wctx NA 0 0 0 = CRet (x, c') /\ sch x = MKN) /\
  (exists x c', init_block_dims ieee 2000 1000 1000 4 wctx NA 0 0 0 = CRet (x, c') /\ sch x = KMN).
Proof.
  split; [vm_compute; reflexivity|split; [vm_compute; discriminate|]]. do 3 (split; [vm_compute; reflexivity|]).
  split; do 2 eexists; split; vm_compute; reflexivity.
Qed.

(** beyond 2^24 and far from the cut-off, and next to it *)
Example C46_all_applies :
  4 * tile_for 37525 4 6 (round_down 165 6) = 648 /\
  (exists x c', init_block_dims ieee (2 ^ 25) 1000 900 4 wctx NA 0 0 0 = CRet (x, c') /\ sch x = MKN) /\
  clearly_le (900 * (2 ^ 25 + 648)) (2 * 2 ^ 25 * 648) /\
  (exists x c', init_block_dims ieee 37525 1 1274 4 wctx NA 0 0 0 = CRet (x, c') /\ sch x = MKN) /\
  choice 37525 1 1274 648 = KMN /\ about_le (1274 * (37525 + 648)) (2 * 37525 * 648).
Proof.
  split; [vm_compute; reflexivity|]. split; [do 2 eexists; split; vm_compute; reflexivity|].
  split; [vm_compute; discriminate|]. split; [do 2 eexists; split; vm_compute; reflexivity|].
  split; [vm_compute; reflexivity|vm_compute; discriminate].
Qed.

(** At a larger size the single-precision comparison departs from the rule. *)
Theorem C46_schedule_rule_refuted :
  exists M N K p n2 x c', L2_side wctx n2 /\ 0 < M < 2 ^ 24 /\ 0 < N < 2 ^ 24 /\ 0 < K < 2 ^ 24 /\ p = ncores wctx /\
    init_block_dims ieee M N K p wctx NA 0 0 0 = CRet (x, c') /\
    sch x <> choice M N K (p * tile_for M p (mr wctx) (round_down n2 (mr wctx))).
Proof. exact w_schedule. Qed.
Print Assumptions C46_schedule_rule_refuted.

(** C47.  Automatic tiles of the two-dimensional variants.  k_c is the greatest depth for which an
    m_r x k_c panel of A, a k_c x n_r panel of B and a register tile of C fit L1; m_c before
    rounding is the greatest m for which two m x m blocks and an m x n_r panel fit L2. *)
Theorem C47_grid_tiles :
  forall c, machine c -> 4 * (mr c * nr c) <= L1 c ->
  exists k m, fp_kcmax ieee (L1 c) (mr c) (nr c) = k /\ greatest (fun k => bytes (mr c) k (nr c) <= L1 c) k /\
    fp_mc2d ieee (nr c) (L2 c) = m /\ greatest (fun m => 4 * (m * m + m * nr c + m * m) <= L2 c) m.
Proof. exact ieee_2d. Qed.
Print Assumptions C47_grid_tiles.

(** They are legal as soon as one register tile fits L1 and L2. *)
Theorem C47_grid_tiles_legal :
  forall c, machine c -> bytes (mr c) 1 (nr c) <= L1 c -> 4 * (mr c * mr c + mr c * nr c + mr c * mr c) <= L2 c ->
  forall mcu kcu ncu, mcu = 0 \/ kcu = 0 \/ ncu = 0 -> tiles_2d ieee c mcu kcu ncu.
Proof. exact ieee_2d_tiles. Qed.
Print Assumptions C47_grid_tiles_legal.

Example C47_applies : fp_kcmax ieee (L1 wctx) (mr wctx) (nr wctx) = 368 /\ fp_mc2d ieee (nr wctx) (L2 wctx) = 177 /\
  bytes (mr wctx) 1 (nr wctx) <= L1 wctx /\ 4 * (6 * 6 + 6 * 16 + 6 * 6) <= L2 wctx.
Proof. vm_compute. repeat split; congruence. Qed.

(** But a core's m_c x k_c block of A, its k_c x n_r panel of B and its m_c x n_c block of C need not
    fit L2, because k_c is taken from L1 alone. *)
Theorem C47_grid_tiles_fit_L2_refuted :
  exists c M N K p x, machine c /\ 0 < M /\ 0 < N /\ 0 < K /\ p = ncores c /\
    init_block_dims_2d ieee M N K p (ncores c) c KMN 0 0 0 = CRet x /\
    L2 c < 4 * (m_c x * k_c x + k_c x * nr c + m_c x * n_c x).
Proof. exact w_2d. Qed.
Print Assumptions C47_grid_tiles_fit_L2_refuted.

(** C48.  The width of the grid aimed for is the integer nearest to sqrt(p*N/M), for p*N up to
    2^19 ... *)
Theorem C48_grid_width_moderate :
  forall p N M, 0 < M < 2 ^ 31 -> 0 < p < 2 ^ 31 -> 0 <= N < 2 ^ 31 -> p * N <= 2 ^ 19 ->
  nearest_root (p * N) M (fp_pn ieee p N M).
Proof. exact ieee_grid. Qed.
Print Assumptions C48_grid_width_moderate.

Example C48_applies : fp_pn ieee 4 900 1600 = 2 /\ fp_pn ieee 4 899 1600 = 1 /\ fp_pn ieee 16 1000 1000 = 4.
Proof. vm_compute. auto. Qed.

(** ... and for all sizes (p*N up to 2^45) up to single precision: a root below n - 1/2 by less than
    one part in 2^22 may be taken for n as well. *)
Theorem C48_grid_width_all_sizes :
  forall p N M, 0 < M < 2 ^ 31 -> 0 < p < 2 ^ 31 -> 0 <= N < 2 ^ 31 -> p * N <= 2 ^ 45 ->
  about_nearest_root (p * N) M (fp_pn ieee p N M).
Proof. exact grid_about. Qed.
Print Assumptions C48_grid_width_all_sizes.

Example C48_all_applies : fp_pn ieee 64 1000000000 1000000 = 253 /\ fp_pn ieee 4 (9 * 400000 + 2) (16 * 400000 + 4) = 2 /\
  ~ nearest_root (4 * (9 * 400000 + 2)) (16 * 400000 + 4) 2.
Proof.
  split; [vm_compute; reflexivity|]. split; [vm_compute; reflexivity|]. intros (_ & _ & B). specialize (B eq_refl). revert B. vm_compute. auto.
Qed.

(** ... and not for all sizes exactly: the quotient is rounded to single precision first. *)
Theorem C48_grid_width_refuted :
  exists p N M, 0 < M < 2 ^ 31 /\ 0 < p /\ 0 < N < 2 ^ 31 /\ p * N < 2 ^ 31 /\ ~ nearest_root (p * N) M (fp_pn ieee p N M).
Proof. exact w_grid. Qed.
Print Assumptions C48_grid_width_refuted.
