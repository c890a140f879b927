(** * The K-first schedule that packs blocks while it multiplies. *)

From Coq Require Import ZArith List Bool Lia Permutation.
From Verif Require Import Lang Lang_facts Spec ModelSizing ModelKernel ModelPack ModelSched
     Kernel_facts Tile_facts Loop_facts Pack_facts Unpack_facts Sizing_facts PackMat_facts
     Order_facts Cphase_facts SchedK_facts PackBlis_facts Reuse_facts.
Import ListNotations.
Open Scope Z_scope.

Section SO.

Variable S : scalar.
Notation T := (elt S).
Variables (so : bool) (M N K p : Z) (x : blk_dims) (ar : arch) (c : cntx).
Hypothesis F : kmn_facts M N K p (mr c) (nr c) x.
Hypothesis HN0 : 0 <= N.
Hypothesis HK0 : 0 <= K.
Hypothesis Hp : 0 < p.
Hypothesis Hso : so = true -> forall n m j, 0 <= n < Nb x -> 0 <= m < Mb x -> 0 <= j < Kb x -> blk_pu x p m <= 1.
Hypothesis Hmr : 0 < mr c.
Hypothesis Hnr : 0 < nr c.
Hypothesis Hkern : kern_is S ar (kernel_map S ar (m_map c) (n_map c)) (mr c) (nr c).
Hypothesis Hln : 0 < lanes ar.
Hypothesis Hlk : (nr c) mod lanes ar = 0.
Variables (fA fB : Z -> Z -> T) (mm : mem T) (ba bi bpk bc : binfo).
Hypothesis HLa : live mm BufA = Some ba.
Hypothesis HLb : live mm BufB = Some bi.
Hypothesis HA : forall i k, 0 <= i < M_padded x -> 0 <= k < K ->
  dat mm BufA (i * K + k) = Some (fA i k) /\ i * K + k < blen ba.
Hypothesis HB : forall k j, 0 <= k < K -> 0 <= j < N_padded x ->
  dat mm BufB (k * N + j) = Some (fB k j) /\ k * N + j < blen bi.
Hypothesis HLbp : live mm BufBp = Some bpk.
Hypothesis Hbpk : k_c x * n_c x <= blen bpk.
Hypothesis Hal : lanes ar = 1 \/ b64 bpk = true.
Hypothesis HLc : live mm BufC = Some bc.
Hypothesis Hbc : M * N <= blen bc.
Hypothesis HLap : forall i, 0 <= i < p -> exists bk, live mm (BufAp i) = Some bk /\ m_c x * k_c x <= blen bk.
Hypothesis HLcp : forall i, 0 <= i < p -> exists bk, live mm (BufCp i) = Some bk /\ m_c x * n_c x <= blen bk.
Hypothesis HLso : so = true -> exists bs, live mm (BufX 2) = Some bs /\ 0 < blen bs.

Definition owrites : region := fun b i =>
  cwrites M N p b i \/ (exists core, b = BufAp core /\ 0 <= core < p) \/ b = BufBp \/ (so = true /\ b = BufX 2).

Definition oA (m k : Z) (m' : mem T) : Prop := forall core, 0 <= core < blk_pu x p m ->
  panels m' (BufAp core) 0 (mr c) (core_mt x m core / mr c) (blk_kt x k)
    (fun row kk => fA (m * p * m_c x + core * core_mx x m + row) (k * k_c x + kk)).
Definition oB (n k : Z) (m' : mem T) : Prop :=
  panels m' BufBp 0 (nr c) (blk_nt x n / nr c) (blk_kt x k)
    (fun col kk => fB (k * k_c x + kk) (n * n_c x + col)).
Definition oBase (m' : mem T) : Prop := live m' = live mm /\ same_out owrites mm m'.
Definition oval (n m core j row col : Z) : T :=
  dot S (fA (m * p * m_c x + core * core_mx x m + row)) (fun k => fB k (n * n_c x + col))
    (kord (k_c x) (blk_kt x) (inner_rev n m) (Kb x) j) (zero S).
Definition oAcc (n m j : Z) (m' : mem T) : Prop :=
  (forall core, 0 <= core < blk_pu x p m ->
     ctiles m' (BufCp core) 0 (mr c) (nr c) (core_mt x m core / mr c) (blk_nt x n / nr c) (oval n m core j)) /\
  (forall core i, blk_pu x p m <= core < p -> 0 <= i < m_c x * n_c x -> dat m' (BufCp core) i = Some (zero S)).

Let PK := kf_K _ _ _ _ _ _ _ F.
Let PN := kf_N _ _ _ _ _ _ _ F.
Let PM := kf_M _ _ _ _ _ _ _ F.
Let Hmc := kf_mc _ _ _ _ _ _ _ F.
Let Hkc := kf_kc _ _ _ _ _ _ _ F.
Let Hnc := kf_nc _ _ _ _ _ _ _ F.

Lemma oA_ok m' i k : oBase m' -> 0 <= i < M_padded x -> 0 <= k < K ->
  src_ok S m' (fun b _ => b = BufA) false BufA (i * K + k) (fA i k).
Proof.
  intros (HL & HF) Hi Hk. destruct (HA i k Hi Hk) as (E & Hb).
  split; [auto|split].
  - rewrite HF; auto. intros [[(E1 & _)|(? & E1 & _)]|[(? & E1 & _)|[E1|(_ & E1)]]]; discriminate.
  - exists ba. rewrite HL. split; [auto|]. split; [|auto]. nn.
Qed.
Lemma oB_ok m' k j : oBase m' -> 0 <= k < K -> 0 <= j < N_padded x ->
  src_ok S m' (fun b _ => b = BufB) false BufB (k * N + j) (fB k j).
Proof.
  intros (HL & HF) Hi Hk. destruct (HB k j Hi Hk) as (E & Hb).
  split; [auto|split].
  - rewrite HF; auto. intros [[(E1 & _)|(? & E1 & _)]|[(? & E1 & _)|[E1|(_ & E1)]]]; discriminate.
  - exists bi. rewrite HL. split; [auto|]. split; [|auto]. nn.
Qed.

Lemma online_packB_spec n k m' : 0 <= n < Nb x -> 0 <= k < Kb x -> oBase m' ->
  pok (online_packB S (BufB, 0) N c x n k) m' (fun _ m'' =>
     live m'' = live m' /\ same_out (fun b _ => b = BufBp) m' m'' /\ oB n k m'').
Proof.
  intros Hn Hk HBs.
  pose proof (kf_nr _ _ _ _ _ _ _ F n Hn) as Dn. pose proof (div_exact_of _ _ Hnr Dn) as En.
  pose proof (pt_w _ _ _ _ PN n Hn) as Hnt. pose proof (pt_w _ _ _ _ PK k Hk) as Hkt.
  pose proof (part_end _ _ _ _ PN n Hn) as Hne. pose proof (part_end _ _ _ _ PK k Hk) as Hke.
  destruct (kf_n1 _ _ _ _ _ _ _ F n Hn) as (E1 & _).
  unfold online_packB. cbv zeta. rewrite E1. rewrite En at 1.
  assert (Hnn : 0 <= blk_nt x n / nr c) by (apply Z.div_pos; lia).
  eapply pok_mono.
  - eapply (par_packB_panels S _ BufB BufBp (n * n_c x + k * k_c x * N) 0 N (blk_kt x k) (nr c) (blk_nt x n / nr c)
      (fun kk col => fB (k * k_c x + kk) (n * n_c x + col)) bpk m'); try lia; try easy.
    + destruct HBs as (HL & _). now rewrite HL.
    + rewrite <- En. assert (blk_nt x n * blk_kt x k <= n_c x * k_c x) by (apply Z.mul_le_mono_nonneg; lia). lia.
    + intros kk col Hc Hkk. rewrite <- En in Hc.
      replace (n * n_c x + k * k_c x * N + (kk * N + col)) with ((k * k_c x + kk) * N + (n * n_c x + col)) by ring.
      assert (0 <= k * k_c x) by nn. assert (0 <= n * n_c x) by nn.
      apply oB_ok; auto; lia.
  - cbn. intros _ m2 (HL2 & HF2 & HP2). split; [auto|split; [|auto]].
    intros b i Hb. apply HF2. intros (-> & _). auto.
Qed.

Definition core_W (core : Z) : region := fun b i =>
  rng (BufCp core) 0 (m_c x * n_c x) b i \/ rng (BufAp core) 0 (m_c x * k_c x) b i \/
  (so = true /\ b = BufX 2).

Lemma oBase_step m' m'' (W : region) : oBase m' -> live m'' = live m' ->
  (forall b i, ~ W b i -> dat m'' b i = dat m' b i) -> (forall b i, W b i -> owrites b i) -> oBase m''.
Proof.
  intros (HL & HF) HL' HF' HW. split; [congruence|].
  intros b i Hb. rewrite HF'; auto.
Qed.

Lemma core_W_in core : 0 <= core < p -> forall b i, core_W core b i -> owrites b i.
Proof.
  intros Hc b i [(-> & _)|[(-> & _)|(Es & ->)]].
  - left. right. eauto.
  - right. left. eauto.
  - right. right. right. auto.
Qed.

Lemma online_core_spec n m j ra core m' :
  0 <= n < Nb x -> 0 <= m < Mb x -> 0 <= j < Kb x -> 0 <= core < blk_pu x p m ->
  oBase m' -> 
  let k := sn_at (inner_rev n m) (Kb x) j in 0 <= k < Kb x ->
  ctiles m' (BufCp core) 0 (mr c) (nr c) (core_mt x m core / mr c) (blk_nt x n / nr c) (oval n m core j) ->
  oB n k m' ->
  (ra = true -> panels m' (BufAp core) 0 (mr c) (core_mt x m core / mr c) (blk_kt x k)
      (fun row kk => fA (m * p * m_c x + core * core_mx x m + row) (k * k_c x + kk))) ->
  twp (core_W core) (fun b _ => b = BufA \/ b = BufBp)
    (online_core S so ar (BufA, 0) K p c x n m k ra core)
    (fun _ m'' =>
       panels m'' (BufAp core) 0 (mr c) (core_mt x m core / mr c) (blk_kt x k)
         (fun row kk => fA (m * p * m_c x + core * core_mx x m + row) (k * k_c x + kk)) /\
       ctiles m'' (BufCp core) 0 (mr c) (nr c) (core_mt x m core / mr c) (blk_nt x n / nr c) (oval n m core (j + 1))) m'.
Proof.
  intros Hn Hm Hj Hc HBs k Hk HT HPB HPA.
  pose proof (kf_nr _ _ _ _ _ _ _ F n Hn) as Dn. pose proof (div_exact_of _ _ Hnr Dn) as En.
  pose proof (kf_mr _ _ _ _ _ _ _ F m core Hm Hc) as Dm. pose proof (div_exact_of _ _ Hmr Dm) as Em.
  pose proof (pt_w _ _ _ _ PN n Hn) as Hnt. pose proof (pt_w _ _ _ _ PK k Hk) as Hkt.
  pose proof (pt_w _ _ _ _ (kf_C _ _ _ _ _ _ _ F m Hm) core Hc) as Hmt.
  pose proof (kf_mx _ _ _ _ _ _ _ F m Hm) as Hmx. pose proof (kf_pu _ _ _ _ _ _ _ F m Hm) as Hpu.
  pose proof (part_end _ _ _ _ PK k Hk) as Hke.
  pose proof (part_end _ _ _ _ (kf_C _ _ _ _ _ _ _ F m Hm) core Hc) as Hce.
  pose proof (part_end _ _ _ _ PM m Hm) as Hme.
  destruct (HLap core ltac:(lia)) as (bka & HLka & Hbka).
  destruct (HLcp core ltac:(lia)) as (bkc & HLkc & Hbkc).
  unfold online_core. cbv zeta.
  set (mt := core_mt x m core) in *. set (nt := blk_nt x n) in *. set (mx := core_mx x m) in *. set (kt := blk_kt x k) in *.
  assert (Hnm : 0 <= mt / mr c) by (apply Z.div_pos; lia).
  assert (Hnn : 0 <= nt / nr c) by (apply Z.div_pos; lia).
  assert (Hk0 : 0 <= k * k_c x) by (clearbody k; nn).
  set (r0 := m * p * m_c x + core * mx) in *.
  assert (Hr0 : 0 <= r0) by (unfold r0; nn).
  assert (Hr1 : r0 + mt <= M_padded x) by (unfold r0; lia).
  assert (S1 : mt * kt <= m_c x * k_c x) by (apply Z.mul_le_mono_nonneg; lia).
  assert (S2 : nt * kt <= n_c x * k_c x) by (apply Z.mul_le_mono_nonneg; lia).
  assert (S3 : mt * nt <= m_c x * n_c x) by (apply Z.mul_le_mono_nonneg; lia).
  pose proof HBs as (HL & HF0).
  (* the shared variable *)
  apply twp_bind.
  apply (twp_mono _ _ _ (fun _ m1 => oBase m1 /\
     ctiles m1 (BufCp core) 0 (mr c) (nr c) (mt / mr c) (nt / nr c) (oval n m core j) /\ oB n k m1 /\
     (ra = true -> panels m1 (BufAp core) 0 (mr c) (mt / mr c) kt (fun row kk => fA (r0 + row) (k * k_c x + kk))))).
  { destruct so eqn:Es.
    - destruct (HLso eq_refl) as (bs & HLs & Hbs).
      eapply twp_store; [right; right; auto|rewrite HL; eauto|lia|].
      assert (Eo : forall b i, b <> BufX 2 -> dat (upd m' (BufX 2) 0 (zero S)) b i = dat m' b i).
      { intros b i Hb. apply dat_upd_other. left. congruence. }
      split; [|split; [|split]].
      + eapply (oBase_step m' _ (fun b _ => b = BufX 2)); auto.
        intros b i ->. right. right. right. auto.
      + intros qm i qn jj ? ? ? ?. rewrite Eo by discriminate. auto.
      + intros q i kk ? ? ?. rewrite Eo by discriminate. apply HPB; auto.
      + intros E q i kk ? ? ?. rewrite Eo by discriminate. apply HPA; auto.
    - apply twp_ret. auto. }
  intros _ m1 (HBs1 & HT1 & HPB1 & HPA1). pose proof HBs1 as (HL1 & HF1).
  (* the rows of A *)
  apply twp_bind.
  apply (twp_mono _ _ _ (fun _ m2 => oBase m2 /\
     ctiles m2 (BufCp core) 0 (mr c) (nr c) (mt / mr c) (nt / nr c) (oval n m core j) /\ oB n k m2 /\
     panels m2 (BufAp core) 0 (mr c) (mt / mr c) kt (fun row kk => fA (r0 + row) (k * k_c x + kk)))).
  { destruct ra.
    - apply twp_ret. auto.
    - rewrite Em at 1.
      eapply twp_call.
      + eapply (packA_panels S _ (fun b _ => b = BufA) BufA (BufAp core)
          (m * p * m_c x * K + k * k_c x + core * mx * K) 0 K kt (mr c) (mt / mr c)
          (fun row kk => fA (r0 + row) (k * k_c x + kk)) bka m1); try lia; try easy.
        * now rewrite HL1.
        * intros row kk Hrow Hkk. rewrite <- Em in Hrow.
          replace (m * p * m_c x * K + k * k_c x + core * mx * K + (row * K + kk))
            with ((r0 + row) * K + (k * k_c x + kk)) by (unfold r0; ring).
          apply oA_ok; auto; lia.
      + intros b i (-> & Hi). right. left. split; [auto|]. rewrite <- Em in Hi. lia.
      + intros b i ->. auto.
      + cbv beta. intros _ m2 HP2 HL2 HF2.
        assert (Eo : forall b i, b <> BufAp core -> dat m2 b i = dat m1 b i).
        { intros b i Hb. apply HF2. intros (E & _). auto. }
        split; [|split; [|split; [|auto]]].
        * eapply (oBase_step m1 _ (fun b _ => b = BufAp core)); auto.
          intros b i ->. right. left. exists core. split; [auto|]. lia.
        * intros qm i qn jj ? ? ? ?. rewrite Eo by discriminate. auto.
        * intros q i kk ? ? ?. rewrite Eo by discriminate. apply HPB1; auto. }
  intros _ m2 (HBs2 & HT2 & HPB2 & HPA2). pose proof HBs2 as (HL2 & HF2).
  eapply twp_call.
  - eapply (tile_loops_spec S ar _ (BufAp core) BufBp (BufCp core) 0 0 0 mt nt kt (mr c) (nr c) (mt / mr c) (nt / nr c)
       (fun row kk => fA (r0 + row) (k * k_c x + kk)) (fun kk col => fB (k * k_c x + kk) (n * n_c x + col))
       (oval n m core j) bka bpk bkc m2); auto; try (rewrite HL2; auto); try lia; try discriminate.
    destruct Hal as [H|H]; [left; auto|right; split; auto].
  - intros b i (-> & Hi). left. split; [auto|]. lia.
  - intros b i [(-> & Hi)|(-> & Hi)]; [right; right; left; split; [auto|lia]|left; auto].
  - cbv beta. intros _ m3 HT3 HL3 HF3. split.
    + intros q i kk ? ? ?. rewrite HF3 by (intros (E & _); discriminate). apply HPA2; auto.
    + intros qm i qn jj Hqm Hi Hqn Hjj. rewrite (HT3 qm i qn jj Hqm Hi Hqn Hjj). f_equal.
      unfold oval. rewrite kord_snoc by lia. rewrite dot_app. fold k. unfold blk_elems. fold kt. fold mx r0.
      apply (dot_shift S (fA (r0 + (qm * mr c + i))) (fun k => fB k (n * n_c x + (qn * nr c + jj)))).
Qed.

Lemma schedule_online_spec : cpzero S mm p (m_c x * n_c x) ->
  pok (schedule_KMN_online S so ar (BufA, 0) (BufB, 0) (BufC, 0) M N K p c x) mm
      (fun _ m' => live m' = live mm /\ same_out owrites mm m' /\
                   holds m' BufC M N (kmn_val S p x fA fB)).
Proof.
  intros HZ. unfold schedule_KMN_online.
  eapply (reuse_grid S
    (fun n m k rb ra => pbind (if rb then PRet tt else online_packB S (BufB, 0) N c x n k)
       (fun _ => ppar_for 0 (blk_pu x p m) 1 (online_core S so ar (BufA, 0) K p c x n m k ra)))
    (fun n m => ppar_for 0 (blk_pu x p m) 1 (kmn_unpack S (BufC, 0) M N p c x n m))
    (Nb x) (n_c x) (N_padded x) (blk_nt x) (Mb x) (p * m_c x) (M_padded x) (blk_mcb x p (mr c)) (Kb x) M N
    (kmn_val S p x fA fB) oBase (fun m' => cpzero S m' p (m_c x * n_c x)) oAcc oA oB).
  - exact PN.
  - exact PM.
  - apply (kf_Mp _ _ _ _ _ _ _ F).
  - apply (kf_Np _ _ _ _ _ _ _ F).
  - apply (pt_nb _ _ _ _ PK).
  - split; [auto|apply same_out_refl].
  - auto.
  - (* cleared buffers *)
    intros n m m' Hn Hm HBs HZ'. pose proof (kf_pu _ _ _ _ _ _ _ F m Hm) as Hpu. split.
    + intros core Hc.
      pose proof (kf_nr _ _ _ _ _ _ _ F n Hn) as Dn. pose proof (div_exact_of _ _ Hnr Dn) as En.
      pose proof (kf_mr _ _ _ _ _ _ _ F m core Hm Hc) as Dm. pose proof (div_exact_of _ _ Hmr Dm) as Em.
      pose proof (pt_w _ _ _ _ PN n Hn) as Hnt.
      pose proof (pt_w _ _ _ _ (kf_C _ _ _ _ _ _ _ F m Hm) core Hc) as Hmt.
      pose proof (kf_mx _ _ _ _ _ _ _ F m Hm) as Hmx.
      apply (ctiles_zero S _ _ _ _ _ (m_c x * n_c x)); auto.
      * apply Z.div_pos; lia.
      * apply Z.div_pos; lia.
      * rewrite <- Em, <- En. apply Z.mul_le_mono_nonneg; lia.
      * intros i Hi. apply HZ'; auto. lia.
    + intros core i Hc Hi. apply HZ'; auto. lia.
  - (* one k block *)
    intros n m j rb ra m1 Hn Hm Hj HBs1 (HT1 & HZ1) k Hk HPB1 HPA1.
    pose proof (kf_pu _ _ _ _ _ _ _ F m Hm) as Hpu.
    apply pok_bind.
    apply (pok_mono _ _ (fun _ m2 => oBase m2 /\ oAcc n m j m2 /\ oB n k m2 /\ (ra = true -> oA m k m2) /\
       (forall i, dat m2 BufC i = dat m1 BufC i))).
    { destruct rb.
      - apply pok_ret. split; [auto|]. split; [split; auto|]. auto.
      - eapply pok_mono; [apply (online_packB_spec n k m1 Hn Hk HBs1)|].
        cbn. intros _ m2 (HL2 & HF2 & HP2).
        assert (Eo : forall b i, b <> BufBp -> dat m2 b i = dat m1 b i) by (intros; now apply HF2).
        split; [|split; [split|split; [|split]]].
        + eapply (oBase_step m1 _ (fun b _ => b = BufBp)); auto.
          intros b i ->. right. right. left. auto.
        + intros core Hc qm i qn jj ? ? ? ?. rewrite Eo by discriminate. apply (HT1 core Hc); auto.
        + intros core i ? ?. rewrite Eo by discriminate. auto.
        + auto.
        + intros E core Hc q i kk ? ? ?. rewrite Eo by discriminate. apply (HPA1 E core Hc); auto.
        + intros i. apply Eo. discriminate. }
    intros _ m2 (HBs2 & (HT2 & HZ2) & HPB2 & HPA2 & HC2).
    eapply (pok_par_for 0 (blk_pu x p m) 1 (blk_pu x p m) _ m2 core_W (fun _ b _ => b = BufA \/ b = BufBp)
      (fun core m'' =>
         panels m'' (BufAp core) 0 (mr c) (core_mt x m core / mr c) (blk_kt x k)
           (fun row kk => fA (m * p * m_c x + core * core_mx x m + row) (k * k_c x + kk)) /\
         ctiles m'' (BufCp core) 0 (mr c) (nr c) (core_mt x m core / mr c) (blk_nt x n / nr c) (oval n m core (j + 1)))); try lia.
    + intros core Hc. replace (0 + core * 1) with core by lia.
      apply (online_core_spec n m j ra core m2); auto. intros E. apply HPA2; auto.
    + intros a d b i Ha Hd Had HW HWR.
      assert (so = true -> False).
      { intros Es. assert (Q : blk_pu x p m <= 1) by (apply (Hso Es n m j); auto). lia. }
      destruct HW as [(-> & _)|[(-> & _)|(Es & _)]]; [| |tauto];
        destruct HWR as [[(E & _)|[(E & _)|(Es & _)]]|[E|E]]; try discriminate; try tauto; injection E; lia.
    + intros m3 HL3 HT3 HF3.
      assert (Eo : forall b i, (forall core, b <> BufCp core) -> (forall core, b <> BufAp core) -> b <> BufX 2 -> dat m3 b i = dat m2 b i).
      { intros b i N1 N2 N3. apply HF3. intros core Hc [(E & _)|[(E & _)|(_ & E)]];
        [now apply (N1 core)|now apply (N2 core)|auto]. }
      split; [|split; [split|split; [|split]]].
      * destruct HBs2 as (HL2 & HF2). split; [congruence|].
        intros b i Hb. rewrite HF3; auto. intros core Hc HW. apply Hb. apply (core_W_in core); auto. lia.
      * intros core Hc. destruct (HT3 core Hc) as (ms & (_ & Hct) & _ & _ & Hag).
        pose proof (kf_nr _ _ _ _ _ _ _ F n Hn) as Dn. pose proof (div_exact_of _ _ Hnr Dn) as En.
        pose proof (kf_mr _ _ _ _ _ _ _ F m core Hm Hc) as Dm. pose proof (div_exact_of _ _ Hmr Dm) as Em.
        pose proof (pt_w _ _ _ _ PN n Hn) as Hnt.
        pose proof (pt_w _ _ _ _ (kf_C _ _ _ _ _ _ _ F m Hm) core Hc) as Hmt.
        pose proof (kf_mx _ _ _ _ _ _ _ F m Hm) as Hmx.
        eapply ctiles_stable; [lia|lia| | | |exact Hct].
        -- apply Z.div_pos; lia.
        -- apply Z.div_pos; lia.
        -- intros i Hi. apply Hag. left. split; [auto|].
           rewrite <- Em, <- En in Hi.
           assert (core_mt x m core * blk_nt x n <= m_c x * n_c x) by (apply Z.mul_le_mono_nonneg; lia). lia.
      * intros core i Hc Hi. rewrite HF3; [apply HZ2; auto|].
        intros d Hd [(E & _)|[(E & _)|(_ & E)]]; try discriminate. injection E; lia.
      * intros q i kk ? ? ?. rewrite Eo by (intros; discriminate). apply HPB2; auto.
      * intros core Hc. destruct (HT3 core Hc) as (ms & (Hpa & _) & _ & _ & Hag).
        pose proof (kf_mr _ _ _ _ _ _ _ F m core Hm Hc) as Dm. pose proof (div_exact_of _ _ Hmr Dm) as Em.
        pose proof (pt_w _ _ _ _ PK k Hk) as Hkt.
        pose proof (pt_w _ _ _ _ (kf_C _ _ _ _ _ _ _ F m Hm) core Hc) as Hmt.
        pose proof (kf_mx _ _ _ _ _ _ _ F m Hm) as Hmx.
        revert Hpa. apply panels_stable; try lia; try (apply Z.div_pos; lia).
        intros i Hi. symmetry. apply Hag. right. left. split; [auto|].
        rewrite <- Em in Hi.
        assert (core_mt x m core * blk_kt x k <= m_c x * k_c x) by (apply Z.mul_le_mono_nonneg; lia). lia.
      * intros i. rewrite Eo by (intros; discriminate). auto.
  - (* unpacking *)
    intros n m Dn m2 Hn Hm HBs2 (HT2 & HZ2) HD2. pose proof HBs2 as (HL2 & HF2).
    pose proof (kf_pu _ _ _ _ _ _ _ F m Hm) as Hpu.
    pose proof (kf_C _ _ _ _ _ _ _ F m Hm) as HC.
    pose proof (pt_w _ _ _ _ PN n Hn) as Hnt.
    pose proof (kf_mx _ _ _ _ _ _ _ F m Hm) as Hmx.
    pose proof (kf_nr _ _ _ _ _ _ _ F n Hn) as Dnt.
    pose proof (pt_w _ _ _ _ PM m Hm) as Hmcb.
    assert (Hcm : forall core, 0 <= core < blk_pu x p m ->
       0 < core_mt x m core <= m_c x /\ core_mt x m core * blk_nt x n <= m_c x * n_c x).
    { intros core Hc. pose proof (pt_w _ _ _ _ HC core Hc).
      split; [lia|]. apply Z.mul_le_mono_nonneg; lia. }
    eapply (unpack_phase S (kmn_unpack S (BufC, 0) M N p c x n m) (blk_pu x p m) p (m_c x * n_c x) M N (mr c) (nr c)
         (fun core => m * p * m_c x + core * core_mx x m) (fun _ => n * n_c x)
         (core_mt x m) (fun _ => blk_nt x n) (kmn_val S p x fA fB) Dn bc m2); auto; try lia.
    + intros k Hk. destruct (kf_n1 _ _ _ _ _ _ _ F n Hn) as (En & _). destruct (kf_m1 _ _ _ _ _ _ _ F m Hm) as (Em & _).
      exists (blk_m1 x M p m), (k * core_mx x m), (blk_n1 x N n).
      split; [rewrite Em; ring|split; [auto|]]. unfold kmn_unpack. cbv zeta.
      unfold padd. cbn [fst snd].
      replace (0 + (m * p * m_c x * N + n * n_c x + k * core_mx x m * N))
        with ((m * p * m_c x + k * core_mx x m) * N + n * n_c x) by ring. reflexivity.
    + intros k Hk. destruct (Hcm k Hk). repeat split; auto; try lia; try nn.
      apply (kf_mr _ _ _ _ _ _ _ F); auto.
    + intros k d Hk Hd Hkd. destruct (Z_lt_le_dec k d) as [H|H].
      * pose proof (part_sep _ _ _ _ HC k d Hk H). lia.
      * pose proof (part_sep _ _ _ _ HC d k Hd ltac:(lia)). lia.
    + now rewrite HL2.
    + intros k Hk. rewrite HL2. auto.
    + intros core Hc qm i qn jj Hqm Hi Hqn Hjj. rewrite (HT2 core Hc qm i qn jj Hqm Hi Hqn Hjj).
      f_equal. unfold oval, kmn_val, kmn_ord.
      pose proof (part_end _ _ _ _ HC core Hc) as Hce.
      pose proof (div_exact_of _ _ Hmr (kf_mr _ _ _ _ _ _ _ F m core Hm Hc)) as Em.
      pose proof (div_exact_of _ _ Hnr Dnt) as En.
      destruct (Hcm core Hc) as (Hmt & _).
      assert (Hrow : 0 <= qm * mr c + i < core_mt x m core) by (rewrite Em; nia).
      assert (Hcol : 0 <= qn * nr c + jj < blk_nt x n) by (rewrite En; nia).
      replace ((n * n_c x + (qn * nr c + jj)) / n_c x) with n.
      2:{ symmetry. apply (part_div _ _ _ _ _ _ PN Hn). lia. }
      replace ((m * p * m_c x + core * core_mx x m + (qm * mr c + i)) / (p * m_c x)) with m.
      2:{ symmetry. apply (part_div _ _ _ _ _ _ PM Hm). nia. }
      reflexivity.
    + intros m3 HL3 HF3 HZ3 HD3. split; [|split; [auto|split; [|split]]].
      * eapply (oBase_step m2 _ (cwrites M N p)); auto. intros b i Hb. left. auto.
      * intros r cc Hr Hcc [HDn|(Hr' & Hc')]; apply HD3; auto. right.
        destruct (part_cover _ _ _ _ HC (r - m * (p * m_c x)) ltac:(lia)) as (core & Hc & Hin).
        exists core. split; [auto|]. split; [|auto]. nia.
      * intros k Hk HP q i kk ? ? ?. rewrite HF3; [apply HP; auto|].
        intros [(E & _)|(? & E & _)]; discriminate.
      * intros k Hk HP core Hc q i kk ? ? ?. rewrite HF3; [apply (HP core Hc); auto|].
        intros [(E & _)|(? & E & _)]; discriminate.
  - intros m' (HL & HF') HD. split; [auto|split; [auto|]].
    intros i j Hi Hj. apply HD; auto.
Qed.

End SO.
