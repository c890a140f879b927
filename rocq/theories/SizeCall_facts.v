(** * The microkernel, register tile changes and the panel-wise packers, as the caller sees them. *)

From Coq Require Import ZArith List Bool Lia.
From Verif Require Import Lang Lang_facts Spec SpecTop SpecPack ModelSizing ModelKernel ModelPack ModelSched ModelTop
     Kernel_facts Tile_facts Loop_facts Pack_facts Sizing_facts PackMat_facts PackB_facts PackBlis_facts
     PackMN_facts Packed_facts CallAll_facts PackCall_facts Prepack_facts Mult_facts Exec Exec_facts Witness Witness_facts Refute_facts.
Import ListNotations.
Open Scope Z_scope.

Lemma kernel_ok S ar i j (a b c : buf) ao bo co mm k (fa fb fc : Z -> Z -> elt S) bi m :
  arch_ok ar -> 0 <= i < MR_CNT ar -> 0 <= j < NR_CNT ar -> 0 <= k ->
  let m_r := MR_MIN ar + i * MR_FACT ar in
  let n_r := NR_MIN ar + j * NR_FACT ar in
  a <> c -> b <> c -> 0 <= ao -> 0 <= bo -> 0 <= co ->
  at_least m a (ao + k * m_r) -> live m b = Some bi -> bo + k * n_r <= blen bi -> at_least m c (co + m_r * n_r) ->
  (lanes ar = 1 \/ b64 bi = true /\ bo mod lanes ar = 0) ->
  (forall r kk, 0 <= r < m_r -> 0 <= kk < k -> dat m a (ao + kk * m_r + r) = Some (fa r kk)) ->
  (forall kk s, 0 <= kk < k -> 0 <= s < n_r -> dat m b (bo + kk * n_r + s) = Some (fb kk s)) ->
  (forall r s, 0 <= r < m_r -> 0 <= s < n_r -> dat m c (co + r * n_r + s) = Some (fc r s)) ->
  always (ppar_for 0 1 1 (fun _ => kernel_map S ar i j (a, ao) (b, bo) (c, co) mm n_r k)) m
    (fun _ m' =>
       (forall r s, 0 <= r < m_r -> 0 <= s < n_r ->
          dat m' c (co + r * n_r + s) = Some (dot S (fa r) (fun kk => fb kk s) (zrange 0 k) (fc r s))) /\
       (forall b', live m' b' = live m b') /\
       (forall b' x, ~ (b' = c /\ co <= x < co + m_r * n_r) -> dat m' b' x = dat m b' x)).
Proof.
  intros (H1 & H2 & H3 & H4 & H5 & H6 & H7) Hi Hj Hk m_r n_r Hac Hbc Ha0 Hb0 Hc0 (ba & HLa & Hba) HLb Hbb (bc & HLc & Hbc')
    Hal HA HB HC.
  assert (Hmr : 0 < m_r) by (unfold m_r; nia). assert (Hnr : 0 < n_r) by (unfold n_r; nia).
  assert (Hl : n_r mod lanes ar = 0).
  { apply Z.mod_divide; [lia|]. unfold n_r. apply Z.divide_add_r; [auto|now apply Z.divide_mul_r]. }
  apply pok_always.
  pose proof (ukernel_spec S ar m_r n_r a b c ao bo co mm k fa fb fc ba bi bc m Hmr Hnr Hk H5 Hl HLa Ha0 Hba HLb Hb0 Hbb Hal HLc Hc0 Hbc' HA HB HC) as U.
  eapply (pok_par_for 0 1 1 1 _ m (fun _ => rng c co (co + m_r * n_r))
     (fun _ b' x => rng a ao (ao + k * m_r) b' x \/ rng b bo (bo + k * n_r) b' x)
     (fun _ m' => forall i j, 0 <= i < m_r -> 0 <= j < n_r ->
         dat m' c (co + i * n_r + j) = Some (dot S (fa i) (fun kk => fb kk j) (zrange 0 k) (fc i j)))); try lia.
  - intros d Hd. unfold kernel_map.
    replace ((0 <=? i) && (i <? MR_CNT ar) && (0 <=? j) && (j <? NR_CNT ar)) with true; [exact U|].
    symmetry. rewrite !andb_true_iff. repeat split; lia.
  - intros m' HL HQ HF. split; [|split].
    + intros r s Hr Hs. destruct (HQ 0 ltac:(lia)) as (ms & Q & _ & _ & E).
      rewrite E; [apply Q; auto|]. split; auto. nia.
    + now rewrite HL.
    + intros b' x Hx. apply HF. intros _ _. exact Hx.
Qed.

(** ** Register tiles *)
Lemma update_ctx_ok ar c i j : arch_ok ar -> 0 <= i < MR_CNT ar -> 0 <= j < NR_CNT ar ->
  ctx_ok ar (update_mr_nr ar c (MR_MIN ar + i * MR_FACT ar) (NR_MIN ar + j * NR_FACT ar)).
Proof.
  intros (H1 & H2 & H3 & H4 & _) Hi Hj. unfold ctx_ok, update_mr_nr. cbn [mr nr m_map n_map].
  assert (E : forall a b n, 0 < a -> 0 < b -> 0 <= n -> Z.quot (a + n * b) b - Z.quot a b = n).
  { intros a b n Ha Hb Hn. rewrite !Z.quot_div_nonneg by nia. rewrite Z.div_add by lia. lia. }
  rewrite !E by lia. auto.
Qed.

Lemma update_ok S F ar q (nz : elt S -> bool) M N K p c i j alpha beta mcu kcu ncu :
  arch_ok ar -> 0 <= i < MR_CNT ar -> 0 <= j < NR_CNT ar ->
  let c1 := update_mr_nr ar c (MR_MIN ar + i * MR_FACT ar) (NR_MIN ar + j * NR_FACT ar) in
  0 <= M -> 0 <= N -> 0 <= K -> 0 < p -> tiles_ok F M p c1 mcu kcu ncu ->
  exists ord c', orders K ord /\ same_ctx c1 c' /\
    forall A B m0, caller m0 M N K A B ->
      always (cake_sgemm S F ar q nz M N K p (Some c1) false false alpha beta KMN mcu kcu ncu) m0
        (fun r m' => r = c' /\ holds m' BufC M N (product S A B ord) /\ only_C_changed m0 m' M N).
Proof.
  intros Har Hi Hj c1 HM HN HK Hp Ht. apply (K_first_ok S F ar q nz M N K p c1 alpha beta KMN mcu kcu ncu); auto.
  split; [auto|split; [apply update_ctx_ok; auto|auto]].
Qed.

Lemma update_wrong s : s = MKN \/ s = NKM ->
  exists A B m0, let c1 := update_mr_nr haswell wctx 8 32 in
    user_tiles c1 8 1 32 /\ caller m0 8 32 1 A B /\ (nr c1 | 32) /\
    ~ always (cake_sgemm Zs wF haswell wctx Znz 8 32 1 1 (Some c1) false false 1 0 s 8 1 32) m0
        (fun _ m' => holds m' BufC 8 32 (matmul Zs Z.add Z.mul A B 1)).
Proof.
  intros Hs. exists (fun i k => wA (i * 1 + k)), (fun k j => wB (k * 32 + j)), (wmem 8 32 1). cbv zeta.
  split; [|split; [apply w_caller|split; [exists 1; reflexivity|]]].
  - unfold user_tiles. cbn. repeat split; try lia; exists 1; reflexivity.
  - apply (refute_by_value _ _ 8 32 _ 7 31 0); try lia.
    + destruct Hs as [-> | ->]; vm_compute; reflexivity.
    + vm_compute. discriminate.
Qed.

(** ** Panel-wise packing *)
Lemma panels_agree S (m1 m2 : mem (elt S)) b base r nq kd f y : 0 < r -> 0 < kd ->
  panels m1 b base r nq kd f -> panels m2 b base r nq kd f -> base <= y < base + nq * r * kd -> dat m1 b y = dat m2 b y.
Proof.
  intros Hr Hk H1 H2 Hy.
  destruct (split2 nq (r * kd) (y - base) ltac:(nia) ltac:(lia)) as (q & z & E & Hq & Hz).
  destruct (split2 kd r z Hr ltac:(lia)) as (kk & i & Ez & Hkk & Hi).
  replace y with (base + q * r * kd + kk * r + i) by lia.
  rewrite (H1 q i kk Hq Hi Hkk), (H2 q i kk Hq Hi Hkk). reflexivity.
Qed.

Lemma packedA_agree S M N K p m_r n_r x b f (m1 m2 : mem (elt S)) : kmn_facts M N K p m_r n_r x -> 0 < m_r ->
  packedA_KMN S x p m_r K b f m1 -> packedA_KMN S x p m_r K b f m2 ->
  forall y, 0 <= y < M_padded x * K -> dat m1 b y = dat m2 b y.
Proof.
  intros F Hmr HP HP2 y Hy.
  destruct (bpos_cover _ _ _ _ _ _ _ _ y (kf_M _ _ _ _ _ _ _ F) (kf_K _ _ _ _ _ _ _ F) Hy) as (i & j & Hi & Hj & Hb).
  pose proof (pt_w _ _ _ _ (kf_K _ _ _ _ _ _ _ F) j Hj) as Hk.
  destruct (core_cover _ _ _ _ (blk_kt x j) (y - bpos (p * m_c x) (blk_mcb x p m_r) (k_c x) K i j)
              (kf_C _ _ _ _ _ _ _ F i Hi)) as (c & Hc & Hcb); try lia.
  eapply (panels_agree S m1 m2 b _ m_r _ _ _ y Hmr); [|apply (HP i j c Hi Hj Hc)|apply (HP2 i j c Hi Hj Hc)|]; [lia|].
  rewrite <- (div_exact_of m_r _ Hmr (kf_mr _ _ _ _ _ _ _ F i c Hi Hc)). unfold bpos in *. nia.
Qed.

Lemma packedB_agree S M N K p m_r n_r x b f (m1 m2 : mem (elt S)) : kmn_facts M N K p m_r n_r x -> 0 < n_r ->
  packedB_KMN S x n_r K b f m1 -> packedB_KMN S x n_r K b f m2 ->
  forall y, 0 <= y < K * N_padded x -> dat m1 b y = dat m2 b y.
Proof.
  intros F Hnr HP HP2 y Hy.
  destruct (bpos_cover _ _ _ _ _ _ _ _ y (kf_N _ _ _ _ _ _ _ F) (kf_K _ _ _ _ _ _ _ F)) as (i & j & Hi & Hj & Hb); [lia|].
  pose proof (pt_w _ _ _ _ (kf_K _ _ _ _ _ _ _ F) j Hj) as Hk.
  eapply (panels_agree S m1 m2 b _ n_r _ _ _ y Hnr); [|apply (HP i j Hi Hj)|apply (HP2 i j Hi Hj)|]; [lia|].
  rewrite <- (div_exact_of n_r _ Hnr (kf_nr _ _ _ _ _ _ _ F i Hi)). unfold bpos in *. nia.
Qed.

Lemma same_packed {V} (m m1 m2 : mem V) b n :
  live m1 = live m -> live m2 = live m -> same_out (rng b 0 n) m m1 -> same_out (rng b 0 n) m m2 ->
  (forall y, 0 <= y < n -> dat m1 b y = dat m2 b y) -> same_mem m1 m2.
Proof.
  intros L1 L2 F1 F2 H. split; [intros; congruence|]. intros b' i.
  assert (D : {b' = b} + {b' <> b}) by (decide equality; apply Z.eq_dec). destruct D as [->|Hn].
  - destruct (Z_lt_le_dec i 0); [rewrite F1, F2; auto; intros (_ & ?); lia|].
    destruct (Z_lt_le_dec i n); [apply H; lia|rewrite F1, F2; auto; intros (_ & ?); lia].
  - rewrite F1, F2; auto; intros (? & _); congruence.
Qed.

Section Blis.
Variables (S : scalar) (F : fpenv) (ar : arch) (c : cntx) (M N K p mcu kcu ncu : Z) (x : blk_dims) (c1 : cntx).
Hypothesis L : legal F ar KMN c M N K p mcu kcu ncu.
Hypothesis E : init_block_dims F M N K p c KMN mcu kcu ncu = CRet (x, c1).

Lemma blisA_same src dst (A : Z -> Z -> elt S) m : src <> dst -> at_least m src (M * K) -> holds m src M K A ->
  at_least m dst (round_up M (mr c) * K) ->
  always (pack_A_single_buf_k_first S (src, 0) (dst, 0) M K p x (mr c1)) m (fun _ m1 =>
    only_changed m m1 dst (round_up M (mr c) * K) /\
    always (pack_A_single_buf_k_first_blis S (src, 0) (dst, 0) M K p x (mr c1)) m (fun _ m2 => same_mem m1 m2)).
Proof.
  destruct (legal_plan _ _ _ _ _ _ _ _ _ _ _ _ _ L E) as (Hc1 & HP & Hs & Hsch & Hmr & Hnr & _).
  destruct L as (Har & Hc & HM & HN & HK & Hp & Ht).
  assert (Es : sch x = KMN) by (apply Hsch; discriminate). rewrite Es in HP.
  destruct (plan_padded _ _ _ _ _ _ _ Hmr Hnr HP) as (E1 & E2).
  assert (Emr : mr c1 = mr c) by apply Hs. rewrite Emr in E1. rewrite <- E1. cbn [plan] in HP. destruct HP as (FF & _).
  intros Hne (ba & HLa & Hba) Hh (bp & HLp & Hbp). apply pok_always.
  eapply pok_mono; [eapply (pack_A_k_first_spec S x M N K p (mr c1) (nr c1)); eauto|].
  cbn. intros _ m1 (H1 & H2 & H3). split; [now apply only_changed_intro|].
  apply pok_always. eapply pok_mono; [eapply (pack_A_k_first_blis_spec S M N K p (mr c1) (nr c1) x FF); eauto|].
  cbn. intros _ m2 (H4 & H5 & H6). eapply (same_packed m m1 m2); eauto. eapply packedA_agree; eauto.
Qed.

Lemma blisB_same src dst (B : Z -> Z -> elt S) m : src <> dst -> at_least m src (K * N) -> holds m src K N B ->
  at_least m dst (K * round_up N (nr c)) ->
  always (pack_B_k_first S (src, 0) (dst, 0) K N x (nr c1)) m (fun _ m1 =>
    only_changed m m1 dst (K * round_up N (nr c)) /\
    always (pack_B_k_first_blis S (src, 0) (dst, 0) K N x (nr c1)) m (fun _ m2 => same_mem m1 m2)).
Proof.
  destruct (legal_plan _ _ _ _ _ _ _ _ _ _ _ _ _ L E) as (Hc1 & HP & Hs & Hsch & Hmr & Hnr & _).
  destruct L as (Har & Hc & HM & HN & HK & Hp & Ht).
  assert (Es : sch x = KMN) by (apply Hsch; discriminate). rewrite Es in HP.
  destruct (plan_padded _ _ _ _ _ _ _ Hmr Hnr HP) as (E1 & E2).
  assert (Enr : nr c1 = nr c) by apply Hs. rewrite Enr in E2. rewrite <- E2. cbn [plan] in HP. destruct HP as (FF & _).
  intros Hne (ba & HLa & Hba) Hh (bp & HLp & Hbp). apply pok_always.
  eapply pok_mono; [eapply (pack_B_k_first_spec S M N K p (mr c1) (nr c1) x FF); eauto|].
  cbn. intros _ m1 (H1 & H2 & H3). split; [now apply only_changed_intro|].
  apply pok_always. eapply pok_mono; [eapply (pack_B_k_first_blis_spec S M N K p (mr c1) (nr c1) x FF); eauto|].
  cbn. intros _ m2 (H4 & H5 & H6). eapply (same_packed m m1 m2); eauto. eapply packedB_agree; eauto.
Qed.
End Blis.

Lemma w_auto M p : auto_tiles wF M p wctx 0 0 0.
Proof.
  split; [auto|split; [cbn; lia|]]. intros q x Hq Hx _. exists (510 * (q * x) / 180). split; [reflexivity|]. apply Z.div_pos; nia.
Qed.
