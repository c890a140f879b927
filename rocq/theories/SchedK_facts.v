(** * The K-first schedule on packed operands. *)

From Coq Require Import ZArith List Bool Lia Permutation.
From Verif Require Import Lang Lang_facts Spec ModelSizing ModelKernel ModelPack ModelSched
     Kernel_facts Tile_facts Loop_facts Pack_facts Unpack_facts Sizing_facts PackMat_facts
     Order_facts Cphase_facts.
Import ListNotations.
Open Scope Z_scope.

(** ** Loops over the blocks of C *)
Section Grid.

Variable S : scalar.
Notation T := (elt S).

Lemma grid_loop (body : Z -> Z -> prog T unit) nN tN DN wN nM tM DM wM M N (val : Z -> Z -> T)
      (I : Z -> Z -> mem T -> Prop) m (Post : unit -> mem T -> Prop) :
  part nN tN DN wN -> part nM tM DM wM -> M <= DM -> N <= DN ->
  I 0 0 m ->
  (forall n j Dn m', 0 <= n < nN -> 0 <= j < nM -> I n j m' -> cdone S m' M N val Dn ->
     pok (body n (sn_at (odd2 n) nM j)) m' (fun _ m'' => I n (j + 1) m'' /\
       cdone S m'' M N val (fun r c => Dn r c \/
         (let mb := sn_at (odd2 n) nM j in
          mb * tM <= r < mb * tM + wM mb /\ n * tN <= c < n * tN + wN n)))) ->
  (forall n m', 0 <= n < nN -> I n nM m' -> I (n + 1) 0 m') ->
  (forall m', I nN 0 m' -> cdone S m' M N val (fun _ _ => True) -> Post tt m') ->
  pok (pfor_ 0 nN 1 (fun n =>
        let ms := snake (odd2 n) nM in
        pfor_ne_ (sn_start ms) (sn_end ms) (sn_inc ms) (fun mb => body n mb))) m Post.
Proof.
  intros HN HM HMD HND HI0 Hstep Hturn HPost.
  pose proof (pt_nb _ _ _ _ HN) as HnN. pose proof (pt_nb _ _ _ _ HM) as HnM.
  unfold pfor_.
  eapply (pok_pfor1 (fun n _ m' => I n 0 m' /\ cdone S m' M N val (fun _ c => c < n * tN))); [lia| | |].
  - split; [auto|]. intros r c Hr Hc. lia.
  - intros n _ m' Hn (HI & HD). cbv zeta. unfold pfor_ne_.
    eapply (pok_pfor_ne (fun j _ m2 => I n j m2 /\ cdone S m2 M N val (fun r c => c < n * tN \/
         (n * tN <= c < n * tN + wN n /\ exists j', 0 <= j' < j /\
           let mb := sn_at (odd2 n) nM j' in mb * tM <= r < mb * tM + wM mb))) _ _ _ _ nM).
    + apply snake_inc.
    + lia.
    + apply snake_end.
    + split; [auto|]. intros r c Hr Hc [H|(_ & j' & H & _)]; [|lia]. apply HD; auto.
    + intros j _ m2 Hj (HI2 & HD2). fold (sn_at (odd2 n) nM j).
      eapply pok_mono; [apply (Hstep n j _ m2 Hn Hj HI2 HD2)|].
      cbn. intros _ m3 (HI3 & HD3). split; [auto|].
      intros r c Hr Hc H. apply HD3; auto.
      destruct H as [H|(H & j' & Hj' & Hb)]; [left; left; auto|].
      destruct (Z.eq_dec j' j) as [->|]; [right; auto|left; right]. split; [auto|]. exists j'. split; [lia|auto].
    + intros _ m2 (HI2 & HD2). split; [apply Hturn; auto|].
      intros r c Hr Hc H. apply HD2; auto.
      destruct (Z_lt_le_dec c (n * tN)); [auto|right].
      split.
      * split; [auto|]. destruct (Z.eq_dec n (nN - 1)) as [->|].
        -- rewrite (pt_last _ _ _ _ HN) by lia. lia.
        -- rewrite (pt_full _ _ _ _ HN n) by lia. lia.
      * destruct (part_cover _ _ _ _ HM r ltac:(lia)) as (b & Hb & Hr').
        destruct (sn_at_surj (odd2 n) nM b Hb) as (j & Hj & <-). exists j. auto.
  - intros [] m' (HI & HD). apply HPost; auto.
    intros r c Hr Hc _. apply HD; auto.
    destruct (part_cover _ _ _ _ HN c ltac:(lia)) as (b & Hb & Hc').
    pose proof (pt_w _ _ _ _ HN b Hb). nia.
Qed.

End Grid.

Section SK.

Variable S : scalar.
Notation T := (elt S).
Variables (M N K p : Z) (x : blk_dims) (ar : arch) (c : cntx).
Hypothesis F : kmn_facts M N K p (mr c) (nr c) x.
Hypothesis HN0 : 0 <= N.
Hypothesis HK0 : 0 <= K.
Hypothesis Hp : 0 < p.
Hypothesis Hmr : 0 < mr c.
Hypothesis Hnr : 0 < nr c.
Hypothesis Hkern : kern_is S ar (kernel_map S ar (m_map c) (n_map c)) (mr c) (nr c).
Hypothesis Hln : 0 < lanes ar.
Hypothesis Hlk : (nr c) mod lanes ar = 0.

(** The k order used for element (i,j). *)
Definition kmn_ord (i j : Z) : list Z :=
  kord (k_c x) (blk_kt x) (inner_rev (j / n_c x) (i / (p * m_c x))) (Kb x) (Kb x).

Lemma kmn_ord_perm i j : Permutation (kmn_ord i j) (zrange 0 K).
Proof. apply kord_perm. apply (kf_K _ _ _ _ _ _ _ F). Qed.

Definition kmn_val (fA fB : Z -> Z -> T) (i j : Z) : T :=
  dot S (fA i) (fun k => fB k j) (kmn_ord i j) (zero S).

Lemma kmn_core_spec (ab bb : buf) fA fB ba bi bk n m core mm :
  (forall i, ab <> BufCp i) -> (forall i, bb <> BufCp i) ->
  0 <= n < Nb x -> 0 <= m < Mb x -> 0 <= core < blk_pu x p m ->
  live mm ab = Some ba -> M_padded x * K <= blen ba ->
  live mm bb = Some bi -> K * N_padded x <= blen bi -> (lanes ar = 1 \/ b64 bi = true) ->
  live mm (BufCp core) = Some bk -> m_c x * n_c x <= blen bk ->
  packedA_KMN S x p (mr c) K ab fA mm -> packedB_KMN S x (nr c) K bb fB mm ->
  (forall i, 0 <= i < m_c x * n_c x -> dat mm (BufCp core) i = Some (zero S)) ->
  twp (rng (BufCp core) 0 (core_mt x m core * blk_nt x n)) (fun b _ => b = ab \/ b = bb)
      (kmn_core S ar (ab, 0) (bb, 0) K p c x n m core)
      (fun _ m' => ctiles m' (BufCp core) 0 (mr c) (nr c) (core_mt x m core / mr c) (blk_nt x n / nr c)
         (fun row col => kmn_val fA fB (m * p * m_c x + core * core_mx x m + row) (n * n_c x + col))) mm.
Proof.
  intros Nab Nbb Hn Hm Hc HLa Hba HLb Hbb Hal HLc Hbk PA PB HZ.
  pose proof (kf_mr _ _ _ _ _ _ _ F m core Hm Hc) as Dm. pose proof (kf_nr _ _ _ _ _ _ _ F n Hn) as Dn.
  pose proof (div_exact_of _ _ Hmr Dm) as Em. pose proof (div_exact_of _ _ Hnr Dn) as En.
  pose proof (pt_w _ _ _ _ (kf_C _ _ _ _ _ _ _ F m Hm) core Hc) as Hmt.
  pose proof (pt_w _ _ _ _ (kf_N _ _ _ _ _ _ _ F) n Hn) as Hnt.
  pose proof (kf_mx _ _ _ _ _ _ _ F m Hm) as Hmx.
  pose proof (part_end _ _ _ _ (kf_C _ _ _ _ _ _ _ F m Hm) core Hc) as Hce.
  pose proof (part_end _ _ _ _ (kf_M _ _ _ _ _ _ _ F) m Hm) as Hme.
  pose proof (part_end _ _ _ _ (kf_N _ _ _ _ _ _ _ F) n Hn) as Hne.
  pose proof (kf_nc _ _ _ _ _ _ _ F) as Hnc. pose proof (kf_mc _ _ _ _ _ _ _ F) as Hmc.
  pose proof (kf_kc _ _ _ _ _ _ _ F) as Hkc.
  pose proof (pt_w _ _ _ _ (kf_M _ _ _ _ _ _ _ F) m Hm) as Hmcb.
  unfold kmn_core. cbv zeta.
  set (mt := core_mt x m core) in *. set (nt := blk_nt x n) in *. set (mx := core_mx x m) in *.
  set (mcb := blk_mcb x p (mr c) m) in *.
  assert (Hnm : 0 <= mt / mr c) by (apply Z.div_pos; lia).
  assert (Hnn : 0 <= nt / nr c) by (apply Z.div_pos; lia).
  assert (Hsz : mt * nt <= m_c x * n_c x) by (apply Z.mul_le_mono_nonneg; lia).
  set (rev := inner_rev n m).
  set (r0 := m * p * m_c x + core * mx). set (c0 := n * n_c x).
  unfold tfor_ne_.
  eapply (twp_tfor_ne _ _ (fun j _ m' =>
     ctiles m' (BufCp core) 0 (mr c) (nr c) (mt / mr c) (nt / nr c)
       (fun row col => dot S (fA (r0 + row)) (fun k => fB k (c0 + col))
                           (kord (k_c x) (blk_kt x) rev (Kb x) j) (zero S))) _ _ _ _ (Kb x)).
  - apply snake_inc.
  - apply (pt_nb _ _ _ _ (kf_K _ _ _ _ _ _ _ F)).
  - apply snake_end.
  - rewrite kord_0. apply (ctiles_zero S _ _ _ _ _ (m_c x * n_c x)); auto. rewrite <- Em, <- En. auto.
  - intros j _ m' Hj HI HL HF. fold (sn_at rev (Kb x) j).
    pose proof (sn_at_in rev (Kb x) j Hj) as Hk. set (k := sn_at rev (Kb x) j) in *.
    pose proof (pt_w _ _ _ _ (kf_K _ _ _ _ _ _ _ F) k Hk) as Hkt.
    pose proof (part_end _ _ _ _ (kf_K _ _ _ _ _ _ _ F) k Hk) as Hke.
    set (kt := blk_kt x k) in *.
    unfold padd. cbn [fst snd]. rewrite !Z.add_0_l.
    set (ao := m * p * m_c x * K + k * mcb * k_c x + core * mx * kt).
    set (bo := n * K * n_c x + k * k_c x * nt).
    assert (Hao : 0 <= ao) by (unfold ao; clearbody k kt; nn).
    assert (Hbo : 0 <= bo) by (unfold bo; clearbody k kt; nn).
    assert (Hao2 : ao + mt * kt <= M_padded x * K).
    { unfold ao. assert ((core * mx + mt) * kt <= mcb * kt) by (apply Z.mul_le_mono_nonneg_r; lia).
      assert (mcb * (k * k_c x + kt) <= mcb * K) by (apply Z.mul_le_mono_nonneg_l; lia).
      assert ((m * (p * m_c x) + mcb) * K <= M_padded x * K) by (apply Z.mul_le_mono_nonneg_r; lia). lia. }
    assert (Hbo2 : bo + nt * kt <= K * N_padded x).
    { unfold bo. assert (nt * (k * k_c x + kt) <= nt * K) by (apply Z.mul_le_mono_nonneg_l; lia).
      assert (K * (n * n_c x + nt) <= K * N_padded x) by (apply Z.mul_le_mono_nonneg_l; lia). lia. }
    eapply twp_call.
    + eapply (tile_loops_spec S ar _ ab bb (BufCp core) ao bo 0 mt nt kt (mr c) (nr c) (mt / mr c) (nt / nr c)
         (fun row kk => fA (r0 + row) (k * k_c x + kk)) (fun kk col => fB (k * k_c x + kk) (c0 + col))
         (fun row col => dot S (fA (r0 + row)) (fun k => fB k (c0 + col))
                           (kord (k_c x) (blk_kt x) rev (Kb x) j) (zero S)) ba bi bk m');
        auto; try (rewrite HL; auto); try lia.
      * destruct Hal as [Hal|Hal]; [left; auto|right; split; [auto|]].
        unfold bo. replace (n * K * n_c x + k * k_c x * nt) with (n * K * (n_c x) + k * k_c x * nt) by ring.
        apply mod0_add; auto.
        -- destruct (kf_ncd _ _ _ _ _ _ _ F) as [u ->]. rewrite Z.mul_assoc. apply mod0_mul; auto.
        -- apply mod0_mul; auto. rewrite En. apply mod0_mul; auto.
      * intros q i kk Hq Hi Hkk. rewrite HF by (intros (E & _); now apply (Nab core)).
        exact (PA m k core Hm Hk Hc q i kk Hq Hi Hkk).
      * intros q i kk Hq Hi Hkk. rewrite HF by (intros (E & _); now apply (Nbb core)).
        exact (PB n k Hn Hk q i kk Hq Hi Hkk).
    + intros b i (-> & Hi). split; auto.
    + intros b i [(-> & _)|(-> & _)]; auto.
    + cbn. intros _ m2 H2 _ _ qm i qn jj Hqm Hi Hqn Hjj. rewrite (H2 qm i qn jj Hqm Hi Hqn Hjj).
      f_equal. rewrite kord_snoc by lia. rewrite dot_app. fold k. unfold blk_elems. fold kt.
      apply (dot_shift S (fA (r0 + (qm * mr c + i))) (fun k => fB k (c0 + (qn * nr c + jj)))).
  - intros _ m' H _ _ qm i qn j Hqm Hi Hqn Hj. rewrite (H qm i qn j Hqm Hi Hqn Hj). do 2 f_equal.
    unfold kmn_val, kmn_ord. fold r0 c0.
    assert (Hrow : 0 <= qm * mr c + i < mt) by (rewrite Em; nia).
    assert (Hcol : 0 <= qn * nr c + j < nt) by (rewrite En; nia).
    replace ((c0 + (qn * nr c + j)) / n_c x) with n.
    2:{ symmetry. apply (part_div _ _ _ _ _ _ (kf_N _ _ _ _ _ _ _ F) Hn). unfold c0. fold nt. lia. }
    replace ((r0 + (qm * mr c + i)) / (p * m_c x)) with m.
    2:{ symmetry. apply (part_div _ _ _ _ _ _ (kf_M _ _ _ _ _ _ _ F) Hm). unfold r0. fold mcb. fold mt mx in Hce. nia. }
    reflexivity.
Qed.

Definition kmn_inv (mm m' : mem T) : Prop :=
  live m' = live mm /\ same_out (cwrites M N p) mm m' /\ cpzero S m' p (m_c x * n_c x).

Lemma schedule_KMN_spec (ab bb : buf) fA fB ba bi bc mm :
  (forall i, ab <> BufCp i) -> (forall i, bb <> BufCp i) -> ab <> BufC -> bb <> BufC ->
  live mm ab = Some ba -> M_padded x * K <= blen ba ->
  live mm bb = Some bi -> K * N_padded x <= blen bi -> (lanes ar = 1 \/ b64 bi = true) ->
  live mm BufC = Some bc -> M * N <= blen bc ->
  (forall k, 0 <= k < p -> exists bk, live mm (BufCp k) = Some bk /\ m_c x * n_c x <= blen bk) ->
  packedA_KMN S x p (mr c) K ab fA mm -> packedB_KMN S x (nr c) K bb fB mm ->
  cpzero S mm p (m_c x * n_c x) ->
  pok (schedule_KMN S ar (ab, 0) (bb, 0) (BufC, 0) M N K p c x) mm
      (fun _ m' => live m' = live mm /\ same_out (cwrites M N p) mm m' /\
                   holds m' BufC M N (kmn_val fA fB)).
Proof.
  intros Nab Nbb NaC NbC HLa Hba HLb Hbb Hal HLc Hbc HLp PA PB HZ.
  unfold schedule_KMN.
  pose proof (kf_nc _ _ _ _ _ _ _ F) as Hnc. pose proof (kf_mc _ _ _ _ _ _ _ F) as Hmc.
  eapply (grid_loop S (fun n m =>
      pbind (ppar_for 0 (blk_pu x p m) 1 (kmn_core S ar (ab, 0) (bb, 0) K p c x n m)) (fun _ =>
       ppar_for 0 (blk_pu x p m) 1 (kmn_unpack S (BufC, 0) M N p c x n m)))
     (Nb x) (n_c x) (N_padded x) (blk_nt x) (Mb x) (p * m_c x) (M_padded x) (blk_mcb x p (mr c)) M N
     (kmn_val fA fB) (fun _ _ => kmn_inv mm)).
  - apply (kf_N _ _ _ _ _ _ _ F).
  - apply (kf_M _ _ _ _ _ _ _ F).
  - apply (kf_Mp _ _ _ _ _ _ _ F).
  - apply (kf_Np _ _ _ _ _ _ _ F).
  - split; [auto|split; [apply same_out_refl|auto]].
  - intros n j Dn m1 Hn Hj (HL1 & HF1 & HZ1) HD1.
    pose proof (sn_at_in (odd2 n) (Mb x) j Hj) as Hm. set (m := sn_at (odd2 n) (Mb x) j) in *.
    assert (HFab : forall i, dat m1 ab i = dat mm ab i).
    { intros i. apply HF1. intros [(E & _)|(k & E & _)]; [now apply NaC|now apply (Nab k)]. }
    assert (HFbb : forall i, dat m1 bb i = dat mm bb i).
    { intros i. apply HF1. intros [(E & _)|(k & E & _)]; [now apply NbC|now apply (Nbb k)]. }
    assert (PA1 : packedA_KMN S x p (mr c) K ab fA m1).
    { intros ? ? ? ? ? ? q i kk ? ? ?. rewrite HFab. now apply PA. }
    assert (PB1 : packedB_KMN S x (nr c) K bb fB m1).
    { intros ? ? ? ? q i kk ? ? ?. rewrite HFbb. now apply PB. }
    pose proof (kf_pu _ _ _ _ _ _ _ F m Hm) as Hpu.
    pose proof (kf_C _ _ _ _ _ _ _ F m Hm) as HC.
    pose proof (pt_w _ _ _ _ (kf_N _ _ _ _ _ _ _ F) n Hn) as Hnt.
    pose proof (kf_mx _ _ _ _ _ _ _ F m Hm) as Hmx.
    pose proof (kf_nr _ _ _ _ _ _ _ F n Hn) as Dnt.
    assert (Hcm : forall core, 0 <= core < blk_pu x p m ->
       0 < core_mt x m core <= m_c x /\ core_mt x m core * blk_nt x n <= m_c x * n_c x).
    { intros core Hc. pose proof (pt_w _ _ _ _ HC core Hc).
      split; [lia|]. apply Z.mul_le_mono_nonneg; lia. }
    apply pok_bind.
    eapply (pok_par_for 0 (blk_pu x p m) 1 (blk_pu x p m) _ m1
       (fun core => rng (BufCp core) 0 (core_mt x m core * blk_nt x n)) (fun _ b _ => b = ab \/ b = bb)
       (fun core m' => ctiles m' (BufCp core) 0 (mr c) (nr c) (core_mt x m core / mr c) (blk_nt x n / nr c)
         (fun row col => kmn_val fA fB (m * p * m_c x + core * core_mx x m + row) (n * n_c x + col)))); try lia.
    + intros core Hc. replace (0 + core * 1) with core by lia.
      destruct (HLp core ltac:(lia)) as (bk & HLk & Hbk).
      eapply (kmn_core_spec ab bb fA fB ba bi bk); auto; try (rewrite HL1; auto).
      intros i Hi. apply HZ1; lia.
    + intros k d b i Hk Hd Hkd (-> & Hi) [(E & _)|[E|E]].
      * congruence.
      * now apply (Nab k).
      * now apply (Nbb k).
    + intros m2 HL2 HT2 HF2.
      eapply (unpack_phase S (kmn_unpack S (BufC, 0) M N p c x n m) (blk_pu x p m) p (m_c x * n_c x) M N (mr c) (nr c)
         (fun core => m * p * m_c x + core * core_mx x m) (fun _ => n * n_c x)
         (core_mt x m) (fun _ => blk_nt x n) (kmn_val fA fB) Dn bc m2); auto; try lia.
      * intros k Hk. destruct (kf_n1 _ _ _ _ _ _ _ F n Hn) as (En & _). destruct (kf_m1 _ _ _ _ _ _ _ F m Hm) as (Em & _).
        exists (blk_m1 x M p m), (k * core_mx x m), (blk_n1 x N n).
        split; [rewrite Em; ring|split; [auto|]]. unfold kmn_unpack. cbv zeta.
        unfold padd. cbn [fst snd].
        replace (0 + (m * p * m_c x * N + n * n_c x + k * core_mx x m * N))
          with ((m * p * m_c x + k * core_mx x m) * N + n * n_c x) by ring. reflexivity.
      * intros k Hk. destruct (Hcm k Hk). repeat split; auto; try lia; try nn.
        apply (kf_mr _ _ _ _ _ _ _ F); auto.
      * intros k d Hk Hd Hkd. destruct (Z_lt_le_dec k d) as [H|H].
        -- pose proof (part_sep _ _ _ _ HC k d Hk H). lia.
        -- pose proof (part_sep _ _ _ _ HC d k Hd ltac:(lia)). lia.
      * rewrite HL2, HL1. auto.
      * intros k Hk. rewrite HL2, HL1. auto.
      * intros k Hk. destruct (HT2 k Hk) as (ms & Hct & _ & _ & Hag).
        eapply ctiles_stable; [lia|lia| | | |exact Hct].
        -- apply Z.div_pos; [destruct (Hcm k Hk)|]; lia.
        -- apply Z.div_pos; lia.
        -- intros i Hi. apply Hag. split; auto.
           rewrite <- (div_exact_of _ _ Hmr (kf_mr _ _ _ _ _ _ _ F m k Hm Hk)) in Hi.
           rewrite <- (div_exact_of _ _ Hnr Dnt) in Hi. lia.
      * intros k i Hk Hi. rewrite HF2; [apply HZ1; lia|]. intros d Hd (E & _). injection E; lia.
      * intros r cc Hr Hcc HDn. rewrite HF2; [apply HD1; auto|]. intros d Hd (E & _). discriminate.
      * intros m3 HL3 HF3 HZ3 HD3. split.
        -- split; [congruence|split; [|auto]].
           apply (same_out_trans (cwrites M N p) mm m1 m3); [auto|].
           intros b i Hbi. rewrite HF3 by auto. apply HF2. intros d Hd (-> & _).
           apply Hbi. right. exists d. split; auto. lia.
        -- intros r cc Hr Hcc [HDn|(Hr' & Hc')]; apply HD3; auto. right.
           destruct (part_cover _ _ _ _ HC (r - m * (p * m_c x)) ltac:(lia)) as (core & Hc & Hin).
           exists core. split; [auto|]. split; [|auto]. nia.
  - auto.
  - intros m' (HL & HF' & _) HD. split; [auto|split; [auto|]].
    intros i j Hi Hj. apply HD; auto.
Qed.

End SK.
