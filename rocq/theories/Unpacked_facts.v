(** * The K-first schedule that writes straight into C. *)

From Coq Require Import ZArith List Bool Lia Permutation.
From Verif Require Import Lang Lang_facts Spec SpecTop SpecTouch ModelSizing ModelKernel ModelPack ModelSched ModelTop
     ModelUnpacked Kernel_facts Tile_facts Loop_facts Pack_facts Unpack_facts Sizing_facts PackMat_facts PackB_facts
     Order_facts Cphase_facts SchedK_facts Frame_facts Init_facts TopK_facts CallAll_facts
     Mult_facts PackCall_facts Prepack_facts Touch_facts TouchOut_facts BadMap_facts.
Import ListNotations.
Open Scope Z_scope.

Section SU.

Variable S : scalar.
Notation T := (elt S).
Variables (M N K p : Z) (x : blk_dims) (ar : arch) (c : cntx).
Hypothesis F : kmn_facts M N K p (mr c) (nr c) x.
Hypothesis HM0 : 0 <= M.
Hypothesis HN0 : 0 <= N.
Hypothesis HK0 : 0 <= K.
Hypothesis Hp : 0 < p.
Hypothesis Hmr : 0 < mr c.
Hypothesis Hnr : 0 < nr c.
Hypothesis Hkern : kern_is S ar (cake_sgemm_ukernel S ar) (mr c) (nr c).
Hypothesis Hln : 0 < lanes ar.
Hypothesis Hlk : (nr c) mod lanes ar = 0.

Lemma Np_div : (nr c | N_padded x).
Proof.
  pose proof (kf_N _ _ _ _ _ _ _ F) as PN. pose proof (pt_nb _ _ _ _ PN) as Hn.
  pose proof (kf_Np _ _ _ _ _ _ _ F) as H1.
  destruct (Z.eq_dec (Nb x) 0) as [E|E].
  - destruct (Z.eq_dec (N_padded x) 0) as [->|Z]; [apply Z.divide_0_r|].
    destruct (part_cover _ _ _ _ PN 0 ltac:(lia)) as (b & Hb & _). lia.
  - rewrite <- (pt_last _ _ _ _ PN) by lia. apply Z.divide_add_r.
    + apply Z.divide_mul_r. apply (kf_ncd _ _ _ _ _ _ _ F).
    + apply (kf_nr _ _ _ _ _ _ _ F). lia.
Qed.

Section Narrow.

Hypothesis HN1 : 0 < N <= nr c.

Lemma narrow : Nb x = 1 /\ N_padded x = nr c /\ blk_nt x 0 = nr c.
Proof.
  pose proof (kf_N _ _ _ _ _ _ _ F) as PN. pose proof (kf_Np _ _ _ _ _ _ _ F) as H1. pose proof (kf_Npu _ _ _ _ _ _ _ F) as H2.
  destruct (part_cover _ _ _ _ PN 0 ltac:(lia)) as (b & Hb & _).
  assert (Hnc : nr c <= n_c x) by (apply Z.divide_pos_le; [apply (kf_nc _ _ _ _ _ _ _ F)|apply (kf_ncd _ _ _ _ _ _ _ F)]).
  assert (E : N_padded x = nr c).
  { destruct Np_div as [q E]. rewrite E in *. assert (q = 1) by nia. subst. lia. }
  pose proof (pt_last _ _ _ _ PN ltac:(lia)) as L.
  pose proof (pt_w _ _ _ _ PN (Nb x - 1) ltac:(lia)) as W.
  assert (EN : Nb x = 1) by nia. rewrite EN in *. cbn in L. split; [auto|split; [auto|]]. lia.
Qed.

Definition un_val (fA fB fC : Z -> Z -> T) (i j : Z) : T :=
  dot S (fA i) (fun k => fB k j) (kmn_ord p x i j) (fC i j).


(** rows of a matrix with leading dimension n_r, from offset [co] *)
Definition rows (m : mem T) (b : buf) (co n : Z) (f : Z -> Z -> T) : Prop :=
  forall r j, 0 <= r < n -> 0 <= j < nr c -> dat m b (co + r * nr c + j) = Some (f r j).

Lemma row_tiles (ab bb cb : buf) ao bo co kt nm (ai bi' ci : Z -> Z) (fa fb fc : Z -> Z -> T) ba bi bc m :
  (forall q, ai q = ao + q * mr c * kt) -> (forall q, bi' q = bo) -> (forall q, ci q = co + q * mr c * nr c) ->
  0 <= nm -> 0 <= kt -> ab <> cb -> bb <> cb ->
  live m ab = Some ba -> 0 <= ao -> ao + nm * mr c * kt <= blen ba ->
  live m bb = Some bi -> 0 <= bo -> bo + nr c * kt <= blen bi ->
  (lanes ar = 1 \/ b64 bi = true /\ bo mod lanes ar = 0) ->
  live m cb = Some bc -> 0 <= co -> co + nm * mr c * nr c <= blen bc ->
  panels m ab ao (mr c) nm kt fa ->
  panels m bb bo (nr c) 1 kt (fun c kk => fb kk c) ->
  rows m cb co (nm * mr c) fc ->
  twp (rng cb co (co + nm * mr c * nr c))
      (fun b _ => b = ab \/ b = bb)
      (tfor_ 0 nm 1 (fun q => cake_sgemm_ukernel S ar (ab, ai q) (bb, bi' q) (cb, ci q) (mr c) (nr c) kt))
      (fun _ m' => rows m' cb co (nm * mr c)
         (fun r c => dot S (fa r) (fun kk => fb kk c) (zrange 0 kt) (fc r c))) m.
Proof.
  intros Eai Ebi Eci Hnm Hkt Nac Nbc La Ha0 Ha1 Lb Hb0 Hb1 Hal Lc Hc0 Hc1 PA PB PC.
  set (val := fun (done : bool) r c =>
     if done then dot S (fa r) (fun kk => fb kk c) (zrange 0 kt) (fc r c) else fc r c).
  unfold tfor_.
  eapply (twp_tfor1 _ _ (fun cm _ m' => rows m' cb co (nm * mr c) (fun r j => val (r <? cm * mr c) r j))); [lia| | |].
  - intros r j Hr Hj. rewrite PC by auto. unfold val. now replace (r <? 0 * mr c) with false by lia.
  - intros cm _ m2 Hcm HI HL HF. rewrite Hkern, Eai, Ebi, Eci.
    assert (HW : forall b i, b <> cb -> dat m2 b i = dat m b i).
    { intros b i Hb. apply HF. intros (E & _); congruence. }
    assert (B1 : 0 <= cm * mr c * nr c /\ cm * mr c * nr c + mr c * nr c <= nm * mr c * nr c).
    { split; [nia|]. transitivity ((cm + 1) * (mr c * nr c)); [nia|].
      replace (nm * mr c * nr c) with (nm * (mr c * nr c)) by ring. apply Z.mul_le_mono_nonneg_r; nia. }
    assert (B2 : 0 <= cm * mr c * kt /\ cm * mr c * kt + kt * mr c <= nm * mr c * kt).
    { split; [nia|]. transitivity ((cm + 1) * mr c * kt); [nia|]. apply Z.mul_le_mono_nonneg_r; nia. }
    eapply twp_call.
    + eapply (ukernel_spec S ar (mr c) (nr c) ab bb cb _ _ _ (mr c) kt
        (fun i kk => fa (cm * mr c + i) kk) fb (fun i j => fc (cm * mr c + i) j) ba bi bc m2); auto; try lia.
      * rewrite HL. exact La.
      * rewrite HL. exact Lb.
      * rewrite HL. exact Lc.
      * intros i kk Hi Hkk. rewrite HW by auto. apply PA; auto.
      * intros kk j Hkk Hj. rewrite HW by auto. specialize (PB 0 j kk ltac:(lia) Hj Hkk). cbv beta in PB.
        replace (0 * nr c + j) with j in PB by ring. rewrite <- PB. f_equal; ring.
      * intros i j Hi Hj. specialize (HI (cm * mr c + i) j ltac:(nia) Hj). unfold val in HI.
        replace (cm * mr c + i <? cm * mr c) with false in HI by lia. rewrite <- HI. f_equal; ring.
    + intros b i (-> & Hi). split; [auto|]. lia.
    + intros b i [(-> & _)|(-> & _)]; auto.
    + cbn. intros _ m3 H3 HL3 HF3 r j Hr Hj.
      destruct (Z_lt_le_dec r (cm * mr c)) as [H|H]; [|destruct (Z_lt_le_dec r ((cm + 1) * mr c)) as [H'|H']].
      * rewrite HF3. { rewrite HI by auto. unfold val. replace (r <? cm * mr c) with true by lia. now replace (r <? (cm + 1) * mr c) with true by lia. }
        intros (_ & G). nia.
      * specialize (H3 (r - cm * mr c) j ltac:(lia) Hj).
        replace (co + cm * mr c * nr c + (r - cm * mr c) * nr c + j) with (co + r * nr c + j) in H3 by ring.
        rewrite H3. unfold val. replace (r <? (cm + 1) * mr c) with true by lia.
        now replace (cm * mr c + (r - cm * mr c)) with r by ring.
      * rewrite HF3. { rewrite HI by auto. unfold val. replace (r <? cm * mr c) with false by lia. now replace (r <? (cm + 1) * mr c) with false by lia. }
        intros (_ & G). nia.
  - cbn. intros _ m' H _ _ r j Hr Hj. rewrite H by auto. unfold val. now replace (r <? nm * mr c) with true by lia.
Qed.

Lemma core_un_spec (ab bb : buf) fA fB fC ba bi bc m core mm :
  ab <> BufC -> bb <> BufC ->
  0 <= m < Mb x -> 0 <= core < blk_pu x p m ->
  live mm ab = Some ba -> M_padded x * K <= blen ba ->
  live mm bb = Some bi -> K * N_padded x <= blen bi -> (lanes ar = 1 \/ b64 bi = true) ->
  live mm BufC = Some bc -> M_padded x * nr c <= blen bc ->
  packedA_KMN S x p (mr c) K ab fA mm -> packedB_KMN S x (nr c) K bb fB mm ->
  rows mm BufC ((m * p * m_c x + core * core_mx x m) * nr c) (core_mt x m core)
       (fun r j => fC (m * p * m_c x + core * core_mx x m + r) j) ->
  twp (rng BufC ((m * p * m_c x + core * core_mx x m) * nr c)
                ((m * p * m_c x + core * core_mx x m) * nr c + core_mt x m core * nr c)) (fun b _ => b = ab \/ b = bb)
      (unpacked_core S ar (ab, 0) (bb, 0) (BufC, 0) K p c x 0 m core)
      (fun _ m' => rows m' BufC ((m * p * m_c x + core * core_mx x m) * nr c) (core_mt x m core)
         (fun r j => un_val fA fB fC (m * p * m_c x + core * core_mx x m + r) j)) mm.
Proof.
  intros Nab Nbb Hm Hc HLa Hba HLb Hbb Hal HLc Hbk PA PB HZ.
  destruct narrow as (EN & ENp & Ent).
  assert (Hn : 0 <= 0 < Nb x) by lia.
  pose proof (kf_mr _ _ _ _ _ _ _ F m core Hm Hc) as Dm.
  pose proof (div_exact_of _ _ Hmr Dm) as Em.
  pose proof (pt_w _ _ _ _ (kf_C _ _ _ _ _ _ _ F m Hm) core Hc) as Hmt.
  pose proof (kf_mx _ _ _ _ _ _ _ F m Hm) as Hmx.
  pose proof (part_end _ _ _ _ (kf_C _ _ _ _ _ _ _ F m Hm) core Hc) as Hce.
  pose proof (part_end _ _ _ _ (kf_M _ _ _ _ _ _ _ F) m Hm) as Hme.
  pose proof (kf_nc _ _ _ _ _ _ _ F) as Hnc. pose proof (kf_mc _ _ _ _ _ _ _ F) as Hmc.
  pose proof (kf_kc _ _ _ _ _ _ _ F) as Hkc.
  assert (Hnc2 : nr c <= n_c x) by (apply Z.divide_pos_le; [auto|apply (kf_ncd _ _ _ _ _ _ _ F)]).
  pose proof (pt_w _ _ _ _ (kf_M _ _ _ _ _ _ _ F) m Hm) as Hmcb.
  unfold unpacked_core. cbv zeta. rewrite ENp, Ent in *.
  set (mt := core_mt x m core) in *. set (mx := core_mx x m) in *.
  set (mcb := blk_mcb x p (mr c) m) in *.
  assert (Hnm : 0 <= mt / mr c) by (apply Z.div_pos; lia).
  set (rev := inner_rev 0 m).
  set (r0 := m * p * m_c x + core * mx).
  assert (Hr0 : 0 <= r0) by (unfold r0; nn).
  assert (Hr1 : r0 + mt <= M_padded x) by (unfold r0; lia).
  assert (Hq : Z.quot mt (mr c) = mt / mr c) by (apply Z.quot_div_nonneg; lia).
  rewrite Z.quot_same, Hq by lia.
  unfold tfor_ne_.
  eapply (twp_tfor_ne _ _ (fun j _ m' =>
     rows m' BufC (r0 * nr c) mt
       (fun row col => dot S (fA (r0 + row)) (fun k => fB k col)
                           (kord (k_c x) (blk_kt x) rev (Kb x) j) (fC (r0 + row) col))) _ _ _ _ (Kb x)).
  - apply snake_inc.
  - apply (pt_nb _ _ _ _ (kf_K _ _ _ _ _ _ _ F)).
  - apply snake_end.
  - rewrite kord_0. exact HZ.
  - intros j _ m' Hj HI HL HF. fold (sn_at rev (Kb x) j).
    pose proof (sn_at_in rev (Kb x) j Hj) as Hk. set (k := sn_at rev (Kb x) j) in *.
    pose proof (pt_w _ _ _ _ (kf_K _ _ _ _ _ _ _ F) k Hk) as Hkt.
    pose proof (part_end _ _ _ _ (kf_K _ _ _ _ _ _ _ F) k Hk) as Hke.
    set (kt := blk_kt x k) in *.
    set (ao := m * p * m_c x * K + k * mcb * k_c x + core * mx * kt).
    set (bo := k * k_c x * nr c).
    assert (Hao : 0 <= ao) by (unfold ao; clearbody k kt; nn).
    assert (Hbo : 0 <= bo) by (unfold bo; clearbody k kt; nn).
    assert (Hao2 : ao + mt * kt <= M_padded x * K).
    { unfold ao. assert ((core * mx + mt) * kt <= mcb * kt) by (apply Z.mul_le_mono_nonneg_r; lia).
      assert (mcb * (k * k_c x + kt) <= mcb * K) by (apply Z.mul_le_mono_nonneg_l; lia).
      assert ((m * (p * m_c x) + mcb) * K <= M_padded x * K) by (apply Z.mul_le_mono_nonneg_r; lia). lia. }
    assert (Hbo2 : bo + nr c * kt <= K * nr c).
    { unfold bo. assert (nr c * (k * k_c x + kt) <= nr c * K) by (apply Z.mul_le_mono_nonneg_l; lia). lia. }
    eapply (twp_tfor1 _ _ (fun q _ m2 => rows m2 BufC (r0 * nr c) mt
       (fun row col => dot S (fA (r0 + row)) (fun k => fB k col)
                           (kord (k_c x) (blk_kt x) rev (Kb x) (j + q)) (fC (r0 + row) col)))); [lia| | |].
    + rewrite Z.add_0_r. exact HI.
    + intros q _ m2 Hq0 HI2 HL2 HF2. assert (q = 0) by lia. subst q. rewrite Z.add_0_r in HI2. rewrite Z.add_0_l.
      unfold padd. cbn [fst snd].
      eapply twp_call.
      * eapply (row_tiles ab bb BufC ao bo (r0 * nr c) kt (mt / mr c) _ _ _
          (fun row kk => fA (r0 + row) (k * k_c x + kk)) (fun kk col => fB (k * k_c x + kk) col)
          (fun row col => dot S (fA (r0 + row)) (fun k => fB k col)
                           (kord (k_c x) (blk_kt x) rev (Kb x) j) (fC (r0 + row) col)) ba bi bc m2);
        try (rewrite HL2, HL); try rewrite <- Em; auto; try lia.
        -- destruct Hal as [Hal|Hal]; [left; auto|right; split; [auto|]]. unfold bo. apply mod0_mul; auto.
        -- transitivity ((r0 + mt) * nr c); [lia|]. transitivity (M_padded x * nr c); [apply Z.mul_le_mono_nonneg_r; lia|auto].
        -- intros q i kk Hq1 Hi Hkk. rewrite HF2, HF by (intros (E & _); congruence).
           exact (PA m k core Hm Hk Hc q i kk Hq1 Hi Hkk).
        -- intros q i kk Hq1 Hi Hkk. rewrite HF2, HF by (intros (E & _); congruence).
           specialize (PB 0 k Hn Hk q i kk). rewrite Ent in PB. rewrite Z.div_same in PB by lia.
           specialize (PB Hq1 Hi Hkk). cbv beta in PB.
           replace (0 * n_c x + (q * nr c + i)) with (q * nr c + i) in PB by ring.
           rewrite <- PB. unfold bo. f_equal; ring.
      * rewrite <- Em. intros b i (-> & Hi). split; auto.
      * auto.
      * rewrite <- Em. cbn. intros _ m3 H3 _ _ r jj Hr Hjj. rewrite (H3 r jj Hr Hjj).
        f_equal. rewrite kord_snoc by lia. rewrite dot_app. fold k. unfold blk_elems. fold kt.
        apply (dot_shift S (fA (r0 + r)) (fun k => fB k jj)).
    + cbn. intros _ m2 H2 _ _. exact H2.
  - intros _ m' H _ _ r j Hr Hj. rewrite (H r j Hr Hj). do 2 f_equal.
    unfold un_val, kmn_ord.
    replace (j / n_c x) with 0 by (symmetry; apply Z.div_small; lia).
    replace ((r0 + r) / (p * m_c x)) with m.
    2:{ symmetry. apply (part_div _ _ _ _ _ _ (kf_M _ _ _ _ _ _ _ F) Hm). unfold r0. fold mcb. fold mt mx in Hce. nia. }
    reflexivity.
Qed.

Lemma schedule_un_spec (ab bb : buf) fA fB fC ba bi bc mm :
  ab <> BufC -> bb <> BufC ->
  live mm ab = Some ba -> M_padded x * K <= blen ba ->
  live mm bb = Some bi -> K * N_padded x <= blen bi -> (lanes ar = 1 \/ b64 bi = true) ->
  live mm BufC = Some bc -> M_padded x * nr c <= blen bc ->
  packedA_KMN S x p (mr c) K ab fA mm -> packedB_KMN S x (nr c) K bb fB mm ->
  rows mm BufC 0 (M_padded x) fC ->
  pok (schedule_KMN_C_unpacked S ar (ab, 0) (bb, 0) (BufC, 0) M N K p c x) mm
      (fun _ m' => live m' = live mm /\ same_out (rng BufC 0 (M_padded x * nr c)) mm m' /\
                   rows m' BufC 0 (M_padded x) (un_val fA fB fC)).
Proof.
  intros NaC NbC HLa Hba HLb Hbb Hal HLc Hbc PA PB HC.
  destruct narrow as (EN & ENp & Ent).
  pose proof (kf_mc _ _ _ _ _ _ _ F) as Hmc. pose proof (kf_M _ _ _ _ _ _ _ F) as PM.
  pose proof (pt_nb _ _ _ _ PM) as HMb. pose proof (kf_Mp _ _ _ _ _ _ _ F) as HMp.
  unfold schedule_KMN_C_unpacked, pfor_. rewrite EN.
  set (W := rng BufC 0 (M_padded x * nr c)).
  eapply (pok_pfor1 (fun n _ m' => live m' = live mm /\ same_out W mm m' /\
     rows m' BufC 0 (M_padded x) (if n =? 0 then fC else un_val fA fB fC))); [lia| | |].
  - split; [auto|split; [apply same_out_refl|exact HC]].
  - intros n _ m0 Hn (HL0 & HF0 & HC0). assert (n = 0) by lia. subst n. cbn [Z.eqb] in HC0. cbv zeta. unfold pfor_ne_.
    set (st := fun j r cc => if r <? j * (p * m_c x) then un_val fA fB fC r cc else fC r cc).
    eapply (pok_pfor_ne (fun j _ m2 => live m2 = live mm /\ same_out W mm m2 /\
       rows m2 BufC 0 (M_padded x) (st j)) _ _ _ _ (Mb x)).
    + apply snake_inc.
    + lia.
    + apply snake_end.
    + split; [auto|split; [auto|]]. intros r j Hr Hj. rewrite HC0 by auto. unfold st.
      now replace (r <? 0 * (p * m_c x)) with false by lia.
    + intros m _ m1 Hm (HL1 & HF1 & HC1).
      replace (sn_start (snake (odd2 0) (Mb x)) + m * sn_inc (snake (odd2 0) (Mb x))) with m by (cbn; ring).
      assert (HFab : forall i, dat m1 ab i = dat mm ab i) by (intros i; apply HF1; intros (E & _); congruence).
      assert (HFbb : forall i, dat m1 bb i = dat mm bb i) by (intros i; apply HF1; intros (E & _); congruence).
      assert (PA1 : packedA_KMN S x p (mr c) K ab fA m1).
      { intros ? ? ? ? ? ? q i kk ? ? ?. rewrite HFab. now apply PA. }
      assert (PB1 : packedB_KMN S x (nr c) K bb fB m1).
      { intros ? ? ? ? q i kk ? ? ?. rewrite HFbb. now apply PB. }
      pose proof (kf_pu _ _ _ _ _ _ _ F m Hm) as Hpu. pose proof (kf_C _ _ _ _ _ _ _ F m Hm) as PC.
      pose proof (kf_mx _ _ _ _ _ _ _ F m Hm) as Hmx.
      pose proof (part_end _ _ _ _ PM m Hm) as Hme.
      set (r0 := fun core => m * p * m_c x + core * core_mx x m).
      assert (HR : forall core, 0 <= core < blk_pu x p m -> m * (p * m_c x) <= r0 core /\ 0 < core_mt x m core /\
                 r0 core + core_mt x m core <= m * (p * m_c x) + blk_mcb x p (mr c) m).
      { intros core Hc. pose proof (pt_w _ _ _ _ PC core Hc). pose proof (part_end _ _ _ _ PC core Hc). unfold r0. nia. }
      assert (Hm0 : 0 <= m * (p * m_c x)) by nn.
      eapply (pok_par_for 0 (blk_pu x p m) 1 (blk_pu x p m) _ m1
        (fun core => rng BufC (r0 core * nr c) (r0 core * nr c + core_mt x m core * nr c)) (fun _ b _ => b = ab \/ b = bb)
        (fun core m' => rows m' BufC (r0 core * nr c) (core_mt x m core)
           (fun r j => un_val fA fB fC (r0 core + r) j))); try lia.
      * intros core Hc. replace (0 + core * 1) with core by lia. destruct (HR core Hc) as (G1 & G2 & G3).
        eapply (core_un_spec ab bb fA fB fC ba bi bc); auto; try (rewrite HL1; auto).
        intros r j Hr Hj. fold (r0 core). specialize (HC1 (r0 core + r) j ltac:(lia) Hj). unfold st in HC1.
        replace (r0 core + r <? m * (p * m_c x)) with false in HC1 by lia. rewrite <- HC1. f_equal. ring.
      * intros k d b i Hk Hd Hkd (-> & Hi) [(_ & Hi2)|[E|E]]; [|congruence|congruence].
        destruct (Z_lt_le_dec k d) as [H|H].
        -- pose proof (part_sep _ _ _ _ PC k d Hk H). assert (r0 k + core_mt x m k <= r0 d) by (unfold r0; lia). nia.
        -- pose proof (part_sep _ _ _ _ PC d k Hd ltac:(lia)). assert (r0 d + core_mt x m d <= r0 k) by (unfold r0; lia). nia.
      * intros m2 HL2 HT2 HF2. split; [congruence|split].
        -- apply (same_out_trans W mm m1 m2); [auto|]. intros b i Hbi. apply HF2. intros core Hc (-> & Hi).
           destruct (HR core Hc) as (G1 & G2 & G3). apply Hbi. split; [auto|].
           split; [nia|]. assert ((r0 core + core_mt x m core) * nr c <= M_padded x * nr c) by (apply Z.mul_le_mono_nonneg_r; lia). lia.
        -- intros r j Hr Hj. unfold st.
           assert (Hst : r <? (m + 1) * (p * m_c x) = true -> r < m * (p * m_c x) + blk_mcb x p (mr c) m).
           { intros H. destruct (Z.eq_dec (m + 1) (Mb x)) as [E|E].
             - pose proof (pt_last _ _ _ _ PM ltac:(lia)) as L. replace (Mb x - 1) with m in L by lia. lia.
             - rewrite (pt_full _ _ _ _ PM m) by lia. lia. }
           pose proof (pt_w _ _ _ _ PM m Hm) as Wm.
           destruct (Z_lt_le_dec r (m * (p * m_c x))) as [H|H]; [|destruct (Z_lt_le_dec r (m * (p * m_c x) + blk_mcb x p (mr c) m)) as [H'|H']].
           ++ rewrite HF2. { rewrite HC1 by auto. unfold st. replace (r <? m * (p * m_c x)) with true by lia. now replace (r <? (m + 1) * (p * m_c x)) with true by lia. }
              intros core Hc (_ & Hi). destruct (HR core Hc) as (G1 & G2 & G3). nia.
           ++ replace (r <? (m + 1) * (p * m_c x)) with true by lia.
              destruct (part_cover _ _ _ _ PC (r - m * (p * m_c x)) ltac:(lia)) as (core & Hc & Hin).
              destruct (HT2 core Hc) as (ms & Hrow & _ & _ & Hag).
              assert (Hr2 : 0 <= r - r0 core < core_mt x m core) by (unfold r0; lia).
              specialize (Hrow (r - r0 core) j Hr2 Hj).
              replace (r0 core * nr c + (r - r0 core) * nr c + j) with (0 + r * nr c + j) in Hrow by ring.
              rewrite Hag by (split; [auto|nia]). rewrite Hrow. now replace (r0 core + (r - r0 core)) with r by ring.
           ++ rewrite HF2. { rewrite HC1 by auto. unfold st. replace (r <? m * (p * m_c x)) with false by lia.
                destruct (r <? (m + 1) * (p * m_c x)) eqn:E; [specialize (Hst eq_refl); lia|auto]. }
              intros core Hc (_ & Hi). destruct (HR core Hc) as (G1 & G2 & G3). nia.
    + cbn. intros _ m1 (HL1 & HF1 & HC1). split; [auto|split; [auto|]]. intros r j Hr Hj. rewrite HC1 by auto. unfold st.
      replace (r <? Mb x * (p * m_c x)) with true; [auto|]. symmetry. apply Z.ltb_lt.
      destruct (part_cover _ _ _ _ PM r Hr) as (b & Hb & Hin). pose proof (pt_w _ _ _ _ PM b Hb). nia.
  - cbn. intros _ m' H. exact H.
Qed.

End Narrow.

(** ** Wider matrices: the last kernel call reads past the packed B *)

Lemma last_depth : 0 < K -> blk_kt x (Kb x - 1) = (K - 1) mod k_c x + 1.
Proof.
  intros HK. pose proof (kf_K _ _ _ _ _ _ _ F) as PK.
  assert (Hk : 0 < Kb x) by (destruct (part_cover _ _ _ _ PK 0 ltac:(lia)) as (k & Hk & _); lia).
  pose proof (pt_last _ _ _ _ PK Hk) as L. pose proof (pt_w _ _ _ _ PK (Kb x - 1) ltac:(lia)) as W.
  rewrite <- (Z.mod_unique (K - 1) (k_c x) (Kb x - 1) (blk_kt x (Kb x - 1) - 1)); [lia|left; lia|lia].
Qed.

Lemma sched_un_out b o i A_p C_p : 0 < M -> 0 < N -> 0 < K ->
  i = o + K * N_padded x + (blk_kt x (Kb x - 1) - 1) * (N_padded x - nr c) - 1 ->
  pout b i (schedule_KMN_C_unpacked S ar A_p (b, o) C_p M N K p c x).
Proof.
  intros HM HN HK Ei.
  pose proof (kf_M _ _ _ _ _ _ _ F) as PM. pose proof (kf_N _ _ _ _ _ _ _ F) as PN. pose proof (kf_K _ _ _ _ _ _ _ F) as PK.
  pose proof (kf_Mp _ _ _ _ _ _ _ F) as HMp. pose proof (kf_Np _ _ _ _ _ _ _ F) as HNp.
  assert (Hm : 0 < Mb x) by (destruct (part_cover _ _ _ _ PM 0 ltac:(lia)) as (m & Hm & _); lia).
  assert (Hn : 0 < Nb x) by (destruct (part_cover _ _ _ _ PN 0 ltac:(lia)) as (m & Hn & _); lia).
  assert (Hk : 0 < Kb x) by (destruct (part_cover _ _ _ _ PK 0 ltac:(lia)) as (m & Hk & _); lia).
  set (m := Mb x - 1). set (n := Nb x - 1).
  assert (Hm1 : 0 <= m < Mb x) by (unfold m; lia). assert (Hn1 : 0 <= n < Nb x) by (unfold n; lia).
  pose proof (kf_pu _ _ _ _ _ _ _ F m Hm1) as Hpu. pose proof (kf_C _ _ _ _ _ _ _ F m Hm1) as PC.
  assert (Hc : 0 <= 0 < blk_pu x p m) by lia.
  pose proof (kf_mr _ _ _ _ _ _ _ F m 0 Hm1 Hc) as (qm & Eqm). pose proof (kf_nr _ _ _ _ _ _ _ F n Hn1) as (qn & Eqn).
  pose proof (pt_w _ _ _ _ PC 0 Hc) as Wm. pose proof (pt_w _ _ _ _ PN n Hn1) as Wn.
  pose proof (pt_last _ _ _ _ PN Hn) as Ln. pose proof (pt_last _ _ _ _ PK Hk) as Lk. fold n in Ln.
  pose proof (pt_w _ _ _ _ PK (Kb x - 1) ltac:(lia)) as Wk.
  unfold schedule_KMN_C_unpacked, pfor_. apply (pout_pfor1 b i 0 (Nb x) _ _ n); auto.
  { intros. cbv zeta. unfold pfor_ne_. apply small_pfor_ne. intros. apply small_ppar. }
  intros _. cbv zeta. rewrite snake_end. unfold pfor_ne_. destruct (sn_at_surj (odd2 n) (Mb x) m Hm1) as (q & Hq & E).
  apply (pout_pfor_ne b i _ _ _ _ _ q); [apply snake_inc|auto| |].
  { intros. apply small_ppar. }
  intros _. unfold sn_at in E. rewrite E.
  apply (pout_ppar1 b i 0 _ _ 0); [lia|].
  unfold unpacked_core. cbv zeta. rewrite snake_end. unfold tfor_ne_.
  destruct (sn_at_surj (inner_rev n m) (Kb x) (Kb x - 1) ltac:(lia)) as (q' & Hq' & E').
  apply (touches_tfor_ne b i _ (Kb x) _ _ _ q'); [apply snake_inc|lia|]. intros _. unfold sn_at in E'. rewrite E'.
  set (kt := blk_kt x (Kb x - 1)) in *. unfold tfor_.
  assert (0 < qm) by nia. assert (0 < qn) by nia.
  rewrite Eqm, Eqn, !Z.quot_mul by lia.
  apply (touches_tfor1 b i 0 _ _ _ (qn - 1)); [lia|]. intros _.
  apply (touches_tfor1 b i 0 _ _ _ (qm - 1)); [lia|]. intros _.
  rewrite Hkern. unfold padd at 2. cbn [fst snd].
  replace i with (o + (n * K * n_c x + (Kb x - 1) * k_c x * (qn * nr c) + (qn - 1) * kt * nr c) + (kt - 1) * N_padded x + nr c - 1).
  - apply kernel_B_end; lia.
  - rewrite Ei, <- Ln, <- Lk, Eqn. ring.
Qed.

End SU.

Section Flow.

Variable S : scalar.
Notation T := (elt S).

Lemma rows_holds c m b n (f : Z -> Z -> T) : rows S c m b 0 n f <-> holds m b n (nr c) f.
Proof. unfold rows, holds. split; intros H i j Hi Hj; specialize (H i j Hi Hj); rewrite <- H; f_equal; ring. Qed.

Lemma multiply_narrow F ar c M N K p mcu kcu ncu x c1 :
  legal F ar KMN c M N K p mcu kcu ncu -> ctx_min ar c -> N <= nr c ->
  init_block_dims F M N K p c KMN mcu kcu ncu = CRet (x, c1) ->
  exists ord, orders K ord /\
  forall A B C0 (m0 : mem T),
    at_least m0 BufA (M * K) -> holds m0 BufA M K A -> at_least m0 BufB (K * N) -> holds m0 BufB K N B ->
    at_least m0 BufC (round_up M (mr c) * round_up N (nr c)) ->
    holds m0 BufC (round_up M (mr c)) (round_up N (nr c)) C0 ->
    at_least m0 (BufAp 0) (round_up M (mr c) * K) ->
    (exists bi, live m0 BufBp = Some bi /\ K * round_up N (nr c) <= blen bi /\ b64 bi = true) ->
    always (pack_and_multiply S ar M N K p c1 x) m0
      (fun _ m' =>
         (forall i j, 0 <= i < M -> 0 <= j < N ->
            dat m' BufC (i * round_up N (nr c) + j) = Some (product_plus S A B C0 ord i j)) /\
         (forall b, live m' b = live m0 b) /\
         forall b i, ~ (b = BufAp 0 /\ 0 <= i < round_up M (mr c) * K) ->
           ~ (b = BufBp /\ 0 <= i < K * round_up N (nr c)) ->
           ~ (b = BufC /\ 0 <= i < round_up M (mr c) * round_up N (nr c)) -> dat m' b i = dat m0 b i).
Proof.
  intros L Hmin HNr E.
  destruct (legal_plan _ _ _ _ _ _ _ _ _ _ _ _ _ L E) as (Hc1 & HP & Hs & Hsch & Hmr & Hnr & _).
  destruct L as (Har & Hc & HM & HN & HK & Hp & Ht).
  rewrite Hsch in * by discriminate. clear Hsch.
  destruct (plan_padded _ _ _ _ _ _ _ Hmr Hnr HP) as (E1 & E2).
  destruct HP as (Fk & _).
  destruct (ctx_pos ar c1 Har Hc1) as (_ & _ & Hln & Hlk).
  assert (Emr : mr c1 = mr c) by apply Hs. assert (Enr : nr c1 = nr c) by apply Hs.
  assert (Hmin1 : ctx_min ar c1) by (unfold ctx_min in *; now rewrite Emr, Enr).
  rewrite <- Emr, <- Enr in *.
  exists (kmn_ord p x). split; [intros i j; exact (kmn_ord_perm M N K p x c1 Fk i j)|].
  intros A B C0 m0 (ba & HA1 & HA2) HA (bb & HB1 & HB2) HB (bc & HC1 & HC2) HC (bap & HAp1 & HAp2) (bbp & HBp1 & HBp2 & HBp3).
  rewrite <- E1, <- E2 in *. apply pok_always. unfold pack_and_multiply. apply pok_bind.
  eapply pok_mono.
  { cbn [pack_A]. eapply (pack_A_k_first_spec S x M N K p (mr c1) (nr c1) BufA (BufAp 0) A ba bap); eauto. discriminate. }
  cbv beta. intros _ m1 (L1 & D1 & PA). apply pok_bind.
  eapply pok_mono.
  { cbn [pack_B]. eapply (pack_B_k_first_spec S M N K p (mr c1) (nr c1) x Fk HK BufB BufBp B bb bbp); eauto; try discriminate.
    - now rewrite L1.
    - intros i j Hi Hj. rewrite D1 by (intros (G & _); discriminate). auto.
    - now rewrite L1. }
  cbv beta. intros _ m2 (L2 & D2 & PB).
  assert (PA2 : packedA_KMN S x p (mr c1) K (BufAp 0) (padrow S M A) m2).
  { eapply packedA_local; [|exact PA]. intros i. apply D2. intros (G & _); discriminate. }
  assert (HC2' : holds m2 BufC (M_padded x) (N_padded x) C0).
  { intros i j Hi Hj. rewrite D2, D1 by (intros (G & _); discriminate). auto. }
  pose proof (kf_Mp _ _ _ _ _ _ _ Fk) as HMp.
  destruct (Z.eq_dec N 0) as [->|HN1].
  - eapply pok_mono with (Q := fun _ m' => m' = m2).
    { unfold schedule_KMN_C_unpacked, pfor_.
      assert (Nb x = 0) as ->.
      { pose proof (kf_N _ _ _ _ _ _ _ Fk) as PN. pose proof (pt_nb _ _ _ _ PN). 
        destruct (Z.eq_dec (Nb x) 0); auto. exfalso.
        destruct (kf_n1 _ _ _ _ _ _ _ Fk 0 ltac:(lia)) as (_ & G). lia. }
      eapply (pok_pfor1 (fun _ _ m' => m' = m2)); [lia|auto| |]; cbn; intros; [lia|auto]. }
    cbv beta. intros _ m' ->. split; [intros; lia|split; [now rewrite L2, L1|]].
    intros b i G1 G2 G3. rewrite D2, D1; auto; intros (-> & G); auto.
  - destruct (narrow M N K p x c1 Fk HN Hnr ltac:(lia)) as (EN & ENp & Ent).
    eapply pok_mono.
    { eapply (schedule_un_spec S M N K p x ar c1 Fk HN HK Hp Hmr Hnr (ctx_kern_min S ar c1 Hmin1) Hln Hlk ltac:(lia)
        (BufAp 0) BufBp (padrow S M A) (padcol S N B) C0 bap bbp bc m2); auto; try discriminate; try (rewrite L2, L1; auto).
      - now rewrite <- ENp.
      - apply rows_holds. now rewrite <- ENp. }
    cbv beta. intros _ m3 (L3 & D3 & R3). split; [|split].
    + intros i j Hi Hj. pose proof (proj1 (rows_holds _ _ _ _ _) R3) as R4. rewrite ENp. rewrite (R4 i j) by lia. f_equal.
      unfold un_val, product_plus. apply dot_ext. intros k _. unfold padrow, padcol. 
      split; [now replace (i <? M) with true by lia|now replace (j <? N) with true by lia].
    + now rewrite L3, L2, L1.
    + intros b i G1 G2 G3. rewrite D3, D2, D1; auto; intros (-> & G); auto. apply G3. rewrite ENp. auto.
Qed.

Lemma multiply_wide F ar c M N K p mcu kcu ncu x c1 (m0 : mem T) bi :
  legal F ar KMN c M N K p mcu kcu ncu -> ctx_min ar c -> 0 < M -> nr c < N -> 0 < K ->
  init_block_dims F M N K p c KMN mcu kcu ncu = CRet (x, c1) ->
  live m0 BufBp = Some bi ->
  blen bi < K * round_up N (nr c) + ((K - 1) mod k_c x) * (round_up N (nr c) - nr c) ->
  always_undefined (pack_and_multiply S ar M N K p c1 x) m0.
Proof.
  intros L Hmin HM1 HNr HK1 E HB1 HB2.
  destruct (legal_plan _ _ _ _ _ _ _ _ _ _ _ _ _ L E) as (Hc1 & HP & Hs & Hsch & Hmr & Hnr & _).
  destruct L as (Har & Hc & HM & HN & HK & Hp & Ht).
  rewrite Hsch in * by discriminate. clear Hsch.
  destruct (plan_padded _ _ _ _ _ _ _ Hmr Hnr HP) as (E1 & E2).
  destruct HP as (Fk & _).
  assert (Emr : mr c1 = mr c) by apply Hs. assert (Enr : nr c1 = nr c) by apply Hs.
  assert (Hmin1 : ctx_min ar c1) by (unfold ctx_min in *; now rewrite Emr, Enr).
  rewrite <- Enr in *. rewrite <- E2 in *.
  pose proof (last_depth M N K p x c1 Fk HK1) as Hd.
  set (i := 0 + K * N_padded x + (blk_kt x (Kb x - 1) - 1) * (N_padded x - nr c1) - 1).
  pose proof (kf_Np _ _ _ _ _ _ _ Fk) as HNp.
  apply (pout_exec BufBp i).
  - unfold pack_and_multiply. cbn [pack_A pack_B].
    apply pout_bind_r; [apply pack_A_small|]. intros _. apply pout_bind_r; [apply pack_B_small|]. intros _.
    apply (sched_un_out S M N K p x ar c1 Fk); auto; try lia. apply ctx_kern_min; auto.
  - unfold outside. rewrite HB1. unfold i. lia.
Qed.

End Flow.
