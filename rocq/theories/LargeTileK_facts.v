(** * The K-first schedule with an accumulator of a given size per core (adapted from
      SchedK_facts and TopK_facts). *)

From Coq Require Import ZArith List Bool Lia Permutation.
From Verif Require Import Lang Lang_facts Spec SpecTop ModelSizing ModelKernel ModelPack ModelSched ModelTop
     Kernel_facts Tile_facts Loop_facts Pack_facts Unpack_facts Sizing_facts PackMat_facts PackB_facts
     Order_facts Cphase_facts SchedK_facts Frame_facts Init_facts TopK_facts LargeTile_facts.
Import ListNotations.
Open Scope Z_scope.

Section SL.

Variable S : scalar.
Notation T := (elt S).
Variables (M N K p : Z) (x : blk_dims) (ar : arch) (c : cntx).
Hypothesis F : kmn_facts M N K p (mr c) (nr c) x.
Hypothesis HN0 : 0 <= N.
Hypothesis HK0 : 0 <= K.
Hypothesis Hp : 0 < p.
Hypothesis Hmr : 0 < mr c.
Hypothesis Hnr : 0 < nr c.
Hypothesis Hkern : kern_is S ar (kernel_map S ar (m_map c) (n_map c)) (mr c) (nr c).
Hypothesis Hln : 0 < lanes ar.
Hypothesis Hlk : (nr c) mod lanes ar = 0.

Variable L : Z.
Hypothesis HL0 : 0 <= L.
Hypothesis HLs : forall n m core, 0 <= n < Nb x -> 0 <= m < Mb x -> 0 <= core < blk_pu x p m ->
  core_mt x m core * blk_nt x n <= L.

Notation kmn_ord := (kmn_ord p x).
Notation kmn_val := (kmn_val S p x).

Lemma core_L_spec (ab bb : buf) fA fB ba bi bk n m core mm :
  (forall i, ab <> BufCp i) -> (forall i, bb <> BufCp i) ->
  0 <= n < Nb x -> 0 <= m < Mb x -> 0 <= core < blk_pu x p m ->
  live mm ab = Some ba -> M_padded x * K <= blen ba ->
  live mm bb = Some bi -> K * N_padded x <= blen bi -> (lanes ar = 1 \/ b64 bi = true) ->
  live mm (BufCp core) = Some bk -> L <= blen bk ->
  packedA_KMN S x p (mr c) K ab fA mm -> packedB_KMN S x (nr c) K bb fB mm ->
  (forall i, 0 <= i < L -> dat mm (BufCp core) i = Some (zero S)) ->
  twp (rng (BufCp core) 0 (core_mt x m core * blk_nt x n)) (fun b _ => b = ab \/ b = bb)
      (kmn_core S ar (ab, 0) (bb, 0) K p c x n m core)
      (fun _ m' => ctiles m' (BufCp core) 0 (mr c) (nr c) (core_mt x m core / mr c) (blk_nt x n / nr c)
         (fun row col => kmn_val fA fB (m * p * m_c x + core * core_mx x m + row) (n * n_c x + col))) mm.
Proof.
  intros Nab Nbb Hn Hm Hc HLa Hba HLb Hbb Hal HLc Hbk PA PB HZ.
  pose proof (kf_mr _ _ _ _ _ _ _ F m core Hm Hc) as Dm. pose proof (kf_nr _ _ _ _ _ _ _ F n Hn) as Dn.
  pose proof (div_exact_of _ _ Hmr Dm) as Em. pose proof (div_exact_of _ _ Hnr Dn) as En.
  pose proof (pt_w _ _ _ _ (kf_C _ _ _ _ _ _ _ F m Hm) core Hc) as Hmt.
  pose proof (pt_w _ _ _ _ (kf_N _ _ _ _ _ _ _ F) n Hn) as Hnt.
  pose proof (kf_mx _ _ _ _ _ _ _ F m Hm) as Hmx.
  pose proof (part_end _ _ _ _ (kf_C _ _ _ _ _ _ _ F m Hm) core Hc) as Hce.
  pose proof (part_end _ _ _ _ (kf_M _ _ _ _ _ _ _ F) m Hm) as Hme.
  pose proof (part_end _ _ _ _ (kf_N _ _ _ _ _ _ _ F) n Hn) as Hne.
  pose proof (kf_nc _ _ _ _ _ _ _ F) as Hnc. pose proof (kf_mc _ _ _ _ _ _ _ F) as Hmc.
  pose proof (kf_kc _ _ _ _ _ _ _ F) as Hkc.
  pose proof (pt_w _ _ _ _ (kf_M _ _ _ _ _ _ _ F) m Hm) as Hmcb.
  unfold kmn_core. cbv zeta.
  set (mt := core_mt x m core) in *. set (nt := blk_nt x n) in *. set (mx := core_mx x m) in *.
  set (mcb := blk_mcb x p (mr c) m) in *.
  assert (Hnm : 0 <= mt / mr c) by (apply Z.div_pos; lia).
  assert (Hnn : 0 <= nt / nr c) by (apply Z.div_pos; lia).
  assert (Hsz : mt * nt <= L) by (apply HLs; auto).
  set (rev := inner_rev n m).
  set (r0 := m * p * m_c x + core * mx). set (c0 := n * n_c x).
  unfold tfor_ne_.
  eapply (twp_tfor_ne _ _ (fun j _ m' =>
     ctiles m' (BufCp core) 0 (mr c) (nr c) (mt / mr c) (nt / nr c)
       (fun row col => dot S (fA (r0 + row)) (fun k => fB k (c0 + col))
                           (kord (k_c x) (blk_kt x) rev (Kb x) j) (zero S))) _ _ _ _ (Kb x)).
  - apply snake_inc.
  - apply (pt_nb _ _ _ _ (kf_K _ _ _ _ _ _ _ F)).
  - apply snake_end.
  - rewrite kord_0. apply (ctiles_zero S _ _ _ _ _ L); auto. rewrite <- Em, <- En. auto.
  - intros j _ m' Hj HI HL HF. fold (sn_at rev (Kb x) j).
    pose proof (sn_at_in rev (Kb x) j Hj) as Hk. set (k := sn_at rev (Kb x) j) in *.
    pose proof (pt_w _ _ _ _ (kf_K _ _ _ _ _ _ _ F) k Hk) as Hkt.
    pose proof (part_end _ _ _ _ (kf_K _ _ _ _ _ _ _ F) k Hk) as Hke.
    set (kt := blk_kt x k) in *.
    unfold padd. cbn [fst snd]. rewrite !Z.add_0_l.
    set (ao := m * p * m_c x * K + k * mcb * k_c x + core * mx * kt).
    set (bo := n * K * n_c x + k * k_c x * nt).
    assert (Hao : 0 <= ao) by (unfold ao; clearbody k kt; nn).
    assert (Hbo : 0 <= bo) by (unfold bo; clearbody k kt; nn).
    assert (Hao2 : ao + mt * kt <= M_padded x * K).
    { unfold ao. assert ((core * mx + mt) * kt <= mcb * kt) by (apply Z.mul_le_mono_nonneg_r; lia).
      assert (mcb * (k * k_c x + kt) <= mcb * K) by (apply Z.mul_le_mono_nonneg_l; lia).
      assert ((m * (p * m_c x) + mcb) * K <= M_padded x * K) by (apply Z.mul_le_mono_nonneg_r; lia). lia. }
    assert (Hbo2 : bo + nt * kt <= K * N_padded x).
    { unfold bo. assert (nt * (k * k_c x + kt) <= nt * K) by (apply Z.mul_le_mono_nonneg_l; lia).
      assert (K * (n * n_c x + nt) <= K * N_padded x) by (apply Z.mul_le_mono_nonneg_l; lia). lia. }
    eapply twp_call.
    + eapply (tile_loops_spec S ar _ ab bb (BufCp core) ao bo 0 mt nt kt (mr c) (nr c) (mt / mr c) (nt / nr c)
         (fun row kk => fA (r0 + row) (k * k_c x + kk)) (fun kk col => fB (k * k_c x + kk) (c0 + col))
         (fun row col => dot S (fA (r0 + row)) (fun k => fB k (c0 + col))
                           (kord (k_c x) (blk_kt x) rev (Kb x) j) (zero S)) ba bi bk m');
        auto; try (rewrite HL; auto); try lia.
      * destruct Hal as [Hal|Hal]; [left; auto|right; split; [auto|]].
        unfold bo. replace (n * K * n_c x + k * k_c x * nt) with (n * K * (n_c x) + k * k_c x * nt) by ring.
        apply mod0_add; auto.
        -- destruct (kf_ncd _ _ _ _ _ _ _ F) as [u ->]. rewrite Z.mul_assoc. apply mod0_mul; auto.
        -- apply mod0_mul; auto. rewrite En. apply mod0_mul; auto.
      * intros q i kk Hq Hi Hkk. rewrite HF by (intros (E & _); now apply (Nab core)).
        exact (PA m k core Hm Hk Hc q i kk Hq Hi Hkk).
      * intros q i kk Hq Hi Hkk. rewrite HF by (intros (E & _); now apply (Nbb core)).
        exact (PB n k Hn Hk q i kk Hq Hi Hkk).
    + intros b i (-> & Hi). split; auto.
    + intros b i [(-> & _)|(-> & _)]; auto.
    + cbn. intros _ m2 H2 _ _ qm i qn jj Hqm Hi Hqn Hjj. rewrite (H2 qm i qn jj Hqm Hi Hqn Hjj).
      f_equal. rewrite kord_snoc by lia. rewrite dot_app. fold k. unfold blk_elems. fold kt.
      apply (dot_shift S (fA (r0 + (qm * mr c + i))) (fun k => fB k (c0 + (qn * nr c + jj)))).
  - intros _ m' H _ _ qm i qn j Hqm Hi Hqn Hj. rewrite (H qm i qn j Hqm Hi Hqn Hj). do 2 f_equal.
    unfold SchedK_facts.kmn_val, SchedK_facts.kmn_ord. fold r0 c0.
    assert (Hrow : 0 <= qm * mr c + i < mt) by (rewrite Em; nia).
    assert (Hcol : 0 <= qn * nr c + j < nt) by (rewrite En; nia).
    replace ((c0 + (qn * nr c + j)) / n_c x) with n.
    2:{ symmetry. apply (part_div _ _ _ _ _ _ (kf_N _ _ _ _ _ _ _ F) Hn). unfold c0. fold nt. lia. }
    replace ((r0 + (qm * mr c + i)) / (p * m_c x)) with m.
    2:{ symmetry. apply (part_div _ _ _ _ _ _ (kf_M _ _ _ _ _ _ _ F) Hm). unfold r0. fold mcb. fold mt mx in Hce. nia. }
    reflexivity.
Qed.

Definition inv_L (mm m' : mem T) : Prop :=
  live m' = live mm /\ same_out (cwrites M N p) mm m' /\ cpzero S m' p L.

Lemma schedule_L_spec (ab bb : buf) fA fB ba bi bc mm :
  (forall i, ab <> BufCp i) -> (forall i, bb <> BufCp i) -> ab <> BufC -> bb <> BufC ->
  live mm ab = Some ba -> M_padded x * K <= blen ba ->
  live mm bb = Some bi -> K * N_padded x <= blen bi -> (lanes ar = 1 \/ b64 bi = true) ->
  live mm BufC = Some bc -> M * N <= blen bc ->
  (forall k, 0 <= k < p -> exists bk, live mm (BufCp k) = Some bk /\ L <= blen bk) ->
  packedA_KMN S x p (mr c) K ab fA mm -> packedB_KMN S x (nr c) K bb fB mm ->
  cpzero S mm p L ->
  pok (schedule_L S L ar (ab, 0) (bb, 0) (BufC, 0) M N K p c x) mm
      (fun _ m' => live m' = live mm /\ same_out (cwrites M N p) mm m' /\
                   holds m' BufC M N (kmn_val fA fB)).
Proof.
  intros Nab Nbb NaC NbC HLa Hba HLb Hbb Hal HLc Hbc HLp PA PB HZ.
  unfold schedule_L.
  pose proof (kf_nc _ _ _ _ _ _ _ F) as Hnc. pose proof (kf_mc _ _ _ _ _ _ _ F) as Hmc.
  eapply (grid_loop S (fun n m =>
      pbind (ppar_for 0 (blk_pu x p m) 1 (kmn_core S ar (ab, 0) (bb, 0) K p c x n m)) (fun _ =>
       ppar_for 0 (blk_pu x p m) 1 (kmn_unpack_L S L (BufC, 0) M N p c x n m)))
     (Nb x) (n_c x) (N_padded x) (blk_nt x) (Mb x) (p * m_c x) (M_padded x) (blk_mcb x p (mr c)) M N
     (kmn_val fA fB) (fun _ _ => inv_L mm)).
  - apply (kf_N _ _ _ _ _ _ _ F).
  - apply (kf_M _ _ _ _ _ _ _ F).
  - apply (kf_Mp _ _ _ _ _ _ _ F).
  - apply (kf_Np _ _ _ _ _ _ _ F).
  - split; [auto|split; [apply same_out_refl|auto]].
  - intros n j Dn m1 Hn Hj (HL1 & HF1 & HZ1) HD1.
    pose proof (sn_at_in (odd2 n) (Mb x) j Hj) as Hm. set (m := sn_at (odd2 n) (Mb x) j) in *.
    assert (HFab : forall i, dat m1 ab i = dat mm ab i).
    { intros i. apply HF1. intros [(E & _)|(k & E & _)]; [now apply NaC|now apply (Nab k)]. }
    assert (HFbb : forall i, dat m1 bb i = dat mm bb i).
    { intros i. apply HF1. intros [(E & _)|(k & E & _)]; [now apply NbC|now apply (Nbb k)]. }
    assert (PA1 : packedA_KMN S x p (mr c) K ab fA m1).
    { intros ? ? ? ? ? ? q i kk ? ? ?. rewrite HFab. now apply PA. }
    assert (PB1 : packedB_KMN S x (nr c) K bb fB m1).
    { intros ? ? ? ? q i kk ? ? ?. rewrite HFbb. now apply PB. }
    pose proof (kf_pu _ _ _ _ _ _ _ F m Hm) as Hpu.
    pose proof (kf_C _ _ _ _ _ _ _ F m Hm) as HC.
    pose proof (pt_w _ _ _ _ (kf_N _ _ _ _ _ _ _ F) n Hn) as Hnt.
    pose proof (kf_mx _ _ _ _ _ _ _ F m Hm) as Hmx.
    pose proof (kf_nr _ _ _ _ _ _ _ F n Hn) as Dnt.
    assert (Hcm : forall core, 0 <= core < blk_pu x p m ->
       0 < core_mt x m core <= m_c x /\ core_mt x m core * blk_nt x n <= L).
    { intros core Hc. pose proof (pt_w _ _ _ _ HC core Hc).
      split; [lia|]. apply HLs; auto. }
    apply pok_bind.
    eapply (pok_par_for 0 (blk_pu x p m) 1 (blk_pu x p m) _ m1
       (fun core => rng (BufCp core) 0 (core_mt x m core * blk_nt x n)) (fun _ b _ => b = ab \/ b = bb)
       (fun core m' => ctiles m' (BufCp core) 0 (mr c) (nr c) (core_mt x m core / mr c) (blk_nt x n / nr c)
         (fun row col => kmn_val fA fB (m * p * m_c x + core * core_mx x m + row) (n * n_c x + col)))); try lia.
    + intros core Hc. replace (0 + core * 1) with core by lia.
      destruct (HLp core ltac:(lia)) as (bk & HLk & Hbk).
      eapply (core_L_spec ab bb fA fB ba bi bk); auto; try (rewrite HL1; auto).
      intros i Hi. apply HZ1; lia.
    + intros k d b i Hk Hd Hkd (-> & Hi) [(E & _)|[E|E]].
      * congruence.
      * now apply (Nab k).
      * now apply (Nbb k).
    + intros m2 HL2 HT2 HF2.
      eapply (unpack_phase S (kmn_unpack_L S L (BufC, 0) M N p c x n m) (blk_pu x p m) p L M N (mr c) (nr c)
         (fun core => m * p * m_c x + core * core_mx x m) (fun _ => n * n_c x)
         (core_mt x m) (fun _ => blk_nt x n) (kmn_val fA fB) Dn bc m2); auto; try lia.
      * intros k Hk. destruct (kf_n1 _ _ _ _ _ _ _ F n Hn) as (En & _). destruct (kf_m1 _ _ _ _ _ _ _ F m Hm) as (Em & _).
        exists (blk_m1 x M p m), (k * core_mx x m), (blk_n1 x N n).
        split; [rewrite Em; ring|split; [auto|]]. unfold kmn_unpack_L. cbv zeta.
        unfold padd. cbn [fst snd].
        replace (0 + (m * p * m_c x * N + n * n_c x + k * core_mx x m * N))
          with ((m * p * m_c x + k * core_mx x m) * N + n * n_c x) by ring. reflexivity.
      * intros k Hk. destruct (Hcm k Hk). repeat split; auto; try lia; try nn.
        apply (kf_mr _ _ _ _ _ _ _ F); auto.
      * intros k d Hk Hd Hkd. destruct (Z_lt_le_dec k d) as [H|H].
        -- pose proof (part_sep _ _ _ _ HC k d Hk H). lia.
        -- pose proof (part_sep _ _ _ _ HC d k Hd ltac:(lia)). lia.
      * rewrite HL2, HL1. auto.
      * intros k Hk. rewrite HL2, HL1. auto.
      * intros k Hk. destruct (HT2 k Hk) as (ms & Hct & _ & _ & Hag).
        eapply ctiles_stable; [lia|lia| | | |exact Hct].
        -- apply Z.div_pos; [destruct (Hcm k Hk)|]; lia.
        -- apply Z.div_pos; lia.
        -- intros i Hi. apply Hag. split; auto.
           rewrite <- (div_exact_of _ _ Hmr (kf_mr _ _ _ _ _ _ _ F m k Hm Hk)) in Hi.
           rewrite <- (div_exact_of _ _ Hnr Dnt) in Hi. lia.
      * intros k i Hk Hi. rewrite HF2; [apply HZ1; lia|]. intros d Hd (E & _). injection E; lia.
      * intros r cc Hr Hcc HDn. rewrite HF2; [apply HD1; auto|]. intros d Hd (E & _). discriminate.
      * intros m3 HL3 HF3 HZ3 HD3. split.
        -- split; [congruence|split; [|auto]].
           apply (same_out_trans (cwrites M N p) mm m1 m3); [auto|].
           intros b i Hbi. rewrite HF3 by auto. apply HF2. intros d Hd (-> & _).
           apply Hbi. right. exists d. split; auto. lia.
        -- intros r cc Hr Hcc [HDn|(Hr' & Hc')]; apply HD3; auto. right.
           destruct (part_cover _ _ _ _ HC (r - m * (p * m_c x)) ltac:(lia)) as (core & Hc & Hin).
           exists core. split; [auto|]. split; [|auto]. nia.
  - auto.
  - intros m' (HL & HF' & _) HD. split; [auto|split; [auto|]].
    intros i j Hi Hj. apply HD; auto.
Qed.

End SL.

Section TL.

Variable S : scalar.
Notation T := (elt S).
Variables (ar : arch) (nz : T -> bool) (M N K p : Z) (x : blk_dims) (c : cntx).
Hypothesis HM0 : 0 <= M.
Hypothesis HN0 : 0 <= N.
Hypothesis HK0 : 0 <= K.
Hypothesis Hp : 0 < p.
Hypothesis Har : arch_ok ar.
Hypothesis Hc : ctx_ok ar c.
Hypothesis F : kmn_facts M N K p (mr c) (nr c) x.
Hypothesis Hs : sch x = KMN.
Variable L : Z.
Hypothesis HL0 : 0 <= L.
Hypothesis HLs : forall n m core, 0 <= n < Nb x -> 0 <= m < Mb x -> 0 <= core < blk_pu x p m ->
  core_mt x m core * blk_nt x n <= L.

Lemma after_L_spec pa pb be A B m0 :
  opA S M K p x c pa A m0 -> opB S N K x c pb B m0 -> at_least m0 BufC (M * N) ->
  (forall b, used p b -> b <> BufX 0 -> live m0 b = None) -> live m0 (BufX 0) <> None ->
  pok (after_L S L ar nz M N K p pa pb be (x, c)) m0
      (fun r m' => r = c /\ holds m' BufC M N (product S A B (kmn_ord p x)) /\
         (forall b, live m' b = if buf_eqb (BufX 0) b then None else live m0 b) /\
         (forall b i, ~ used p b -> ~ (b = BufC /\ 0 <= i < M * N) -> dat m' b i = dat m0 b i)).
Proof.
  intros HA HB HC Hfr HX.
  destruct (ctx_pos ar c Har Hc) as (Hmr & Hnr & Hln & Hlk).
  pose proof (ctx_kern S ar c Hc) as Hk.
  unfold after_L. cbn [fst snd]. rewrite Hs.
  pose proof (kf_mc _ _ _ _ _ _ _ F) as Hmc. pose proof (kf_nc _ _ _ _ _ _ _ F) as Hnc.
  pose proof (kf_Mp _ _ _ _ _ _ _ F) as HMp. pose proof (kf_Np _ _ _ _ _ _ _ F) as HNp.
  eapply (sgemm_rest_spec S pa pb _ _ (M_padded x * K) (K * N_padded x) (M * K) (K * N) _ _ _ c M N p
    (fun b => packedA_KMN S x p (mr c) K b (padrow S M A))
    (fun b => packedB_KMN S x (nr c) K b (padcol S N B))
    (fun m => holds m BufA M K A) (fun m => holds m BufB K N B)
    (fun m => holds m BufC M N (product S A B (kmn_ord p x))) (fun _ => True)); auto.
  - apply (kf_sA _ _ _ _ _ _ _ F).
  - apply (kf_sB _ _ _ _ _ _ _ F).
  - nia.
  - nia.
  - intros b. apply packedA_local.
  - intros b. apply packedB_local.
  - apply holds_local.
  - apply holds_local.
  - apply holds_local.
  - intros m m' _ _. exact I.
  - intros _ m ba HL Hl Hh HLp. cbn [pack_A].
    eapply (pack_A_k_first_spec S x M N K p (mr c) (nr c) BufA (BufAp 0) A ba); eauto; [discriminate|cbn; lia].
  - intros _ m bb HL Hl Hh HLp. cbn [pack_B].
    eapply (pack_B_k_first_spec S M N K p (mr c) (nr c) x F HK0 BufB BufBp B bb); eauto; [discriminate|cbn; lia].
  - intros ab bb ba bi m Hab Hbb HLa Hba PA HLb Hbb' Hal PB (bc & HLc & Hbc) HCp _.
    unfold mid_L. rewrite Hs.
    apply pok_bind. unfold alloc_Cp. apply alloc_fam; auto; try lia.
    + intros i j E. now injection E.
    + intros m1 G1 G2 G3 G4.
      assert (Nab : forall k, ab <> BufCp k) by (intros k; destruct Hab as [-> | ->]; discriminate).
      assert (Nbb : forall k, bb <> BufCp k) by (intros k; destruct Hbb as [-> | ->]; discriminate).
      apply pok_bind. eapply pok_mono.
      * eapply (schedule_L_spec S M N K p x ar c F HN0 HK0 Hp Hmr Hnr Hk Hln Hlk L HLs ab bb
           (padrow S M A) (padcol S N B) ba bi bc m1); auto.
        -- destruct Hab as [-> | ->]; discriminate.
        -- destruct Hbb as [-> | ->]; discriminate.
        -- rewrite G3; auto.
        -- rewrite G3; auto.
        -- rewrite G3; auto. discriminate.
        -- intros k Hkk. eexists. split; [apply G1; auto|cbn; lia].
        -- eapply packedA_local; [|exact PA]. intros i. rewrite G4; auto.
        -- eapply packedB_local; [|exact PB]. intros i. rewrite G4; auto.
        -- intros k i Hkk Hi. apply G2; auto.
      * cbv beta. intros _ m2 (E1 & E2 & E3). unfold free_Cp. apply free_fam; try lia.
        -- intros i j E. now injection E.
        -- intros k Hkk. rewrite E1, G1 by auto. discriminate.
        -- intros m3 I1 I2 I3. split; [|split].
           ++ intros b.
              destruct (bounded_dec p (fun k => b = BufCp k)) as [(k & Hkk & ->)|Hno].
              { intros k. destruct (buf_eqb_spec b (BufCp k)); auto. }
              ** rewrite I1, HCp; auto.
              ** rewrite I2 by (intros k Hkk E; apply (Hno k Hkk E)). rewrite E1. apply G3.
                 intros k Hkk E. apply (Hno k Hkk E).
           ++ intros b i Hb HnC. rewrite I3 by auto. rewrite E2, G4; auto.
              intros [HC'|(k & E & Hkk)].
              ** auto.
              ** now apply (Hb k).
           ++ intros i j Hi Hj. rewrite I3 by discriminate. rewrite (E3 i j Hi Hj). f_equal.
              unfold kmn_val, product. apply dot_ext.
              intros k _. unfold padrow, padcol. destruct (Z.ltb_spec i M); [|lia]. destruct (Z.ltb_spec j N); [auto|lia].
Qed.

End TL.
