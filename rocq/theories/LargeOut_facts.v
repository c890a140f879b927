(** * K-first, tiles whose share does not fit the accumulator: always undefined. *)

From Coq Require Import ZArith List Bool Lia.
From Verif Require Import Lang Lang_facts Spec SpecTop SpecMisfit SpecTouch ModelSizing ModelKernel ModelPack ModelSched ModelTop
     Loop_facts Sizing_facts SizingMN_facts PackMat_facts Order_facts Frame_facts Init_facts TopK_facts CallAll_facts Mult_facts
     Touch_facts TouchMN_facts TouchOut_facts NfOver_facts BadMap_facts LargeTile_facts LargeCall_facts.
Import ListNotations.
Open Scope Z_scope.

Local Transparent tbind tload tload_al tstore pbind tfor.

(** The share of core 0 in the first block is the largest one. *)
Lemma first_share M N K p mcu kcu ncu mc nc m_r n_r x :
  0 < M -> 0 < N -> 0 < p -> 0 < mcu -> 0 < kcu -> 0 < ncu -> 0 < m_r -> 0 < n_r ->
  (mc = mcu \/ M < p * mcu /\ M < p * mc) -> (nc = ncu \/ N < ncu /\ N < nc) -> mcu <= mc -> ncu <= nc ->
  dims_KMN M N K p mc kcu nc m_r n_r = CRet x -> kmn_facts M N K p m_r n_r x ->
  0 < Mb x /\ 0 < Nb x /\ core_mt x 0 0 = share_rows p m_r M mcu /\ blk_nt x 0 = share_columns n_r N ncu.
Proof.
  intros HM HN Hp Hm Hk Hn Hmr Hnr Em En Lm Ln E F.
  pose proof (kf_M _ _ _ _ _ _ _ F) as PM. pose proof (kf_N _ _ _ _ _ _ _ F) as PN.
  pose proof (kf_Mp _ _ _ _ _ _ _ F) as HMp. pose proof (kf_Np _ _ _ _ _ _ _ F) as HNp.
  assert (Hm0 : 0 < Mb x) by (destruct (part_cover _ _ _ _ PM 0 ltac:(lia)) as (m & Hm' & _); lia).
  assert (Hn0 : 0 < Nb x) by (destruct (part_cover _ _ _ _ PN 0 ltac:(lia)) as (m & Hm' & _); lia).
  destruct (dims_single KMN M N K p mc kcu nc m_r n_r x) as (_ & E1 & _ & E3 & E4 & E5); auto; try lia.
  cbn [block_rows] in E4. split; [auto|split; [auto|split]].
  - unfold share_rows. destruct (Z.ltb_spec M (p * mcu)) as [L|L].
    + assert (L' : M < p * mc) by nia. destruct (E4 L' 0 ltac:(lia)) as (_ & El). unfold core_mt. rewrite El.
      unfold dims_KMN in E. assert (0 < p * mc) by nia. rewrite !imod_pos, !idiv_pos in E by lia. cbn [cbind] in E.
      rewrite !(iceil_pos _ m_r), !(iceil_pos _ n_r) in E by lia. cbn [cbind] in E.
      rewrite (iceil_pos _ p) in E by lia. cbn [cbind] in E. rewrite (Z.rem_small M (p * mc)) in E by lia.
      assert (0 < cdiv M m_r) by (apply cdiv_pos; lia). assert (0 < cdiv (cdiv M m_r) p) by (apply cdiv_pos; lia).
      assert (Et : truthy (cdiv (cdiv M m_r) p) = true) by (unfold truthy; destruct (Z.eqb_spec (cdiv (cdiv M m_r) p) 0); [lia|reflexivity]).
      rewrite Et, iceil_pos in E by lia. cbn [cbind] in E. injection E as <-. cbn [p_l m_c1 m_c1_last_core].
      rewrite !ceil_div_cdiv by lia. destruct (Z.eqb_spec 0 (cdiv (cdiv M m_r) (cdiv (cdiv M m_r) p) - 1)) as [Ep|Ep]; [|reflexivity].
      set (q := cdiv M m_r) in *. set (r := cdiv q p) in *.
      pose proof (cdiv_spec q r ltac:(lia)) as C1. pose proof (cdiv_spec q p ltac:(lia)) as C2. fold r in C2.
      assert (E1' : cdiv q r = 1) by lia. rewrite E1' in *.
      assert (r - 1 <= (r - 1) * p) by nia. assert (r = q) by lia. nia.
    + destruct Em as [->|Em]; [|lia]. unfold core_mt.
      destruct (is_last 0 (Mb x) (m_pad x)) eqn:El; [|now rewrite E1].
      exfalso. unfold is_last in El. apply andb_true_iff in El as (A1 & A2). apply Z.eqb_eq in A1.
      pose proof (kf_Mq _ _ _ _ _ _ _ F) as Q. pose proof (kf_mpad _ _ _ _ _ _ _ F) as Q'. rewrite E1 in *.
      assert (1 <= Z.quot M (p * mcu)) by (apply Z.quot_le_lower_bound; nia).
      unfold pad01 in Q'. unfold truthy in A2. destruct (truthy _) in Q'; rewrite Q' in *; cbn in A2; try discriminate; lia.
  - unfold share_columns. destruct (Z.ltb_spec N ncu) as [L|L].
    + assert (L' : N < nc) by lia. destruct (E5 L' 0 ltac:(lia)) as (_ & El). unfold blk_nt. rewrite El.
      rewrite (kf_nc1 _ _ _ _ _ _ _ F), E3, Z.rem_small by lia. unfold round_up. rewrite ceil_div_cdiv by lia. reflexivity.
    + destruct En as [->|En]; [|lia]. unfold blk_nt.
      destruct (is_last 0 (Nb x) (n_pad x)) eqn:El; [|now rewrite E3].
      exfalso. unfold is_last in El. apply andb_true_iff in El as (A1 & A2). apply Z.eqb_eq in A1.
      pose proof (kf_Nq _ _ _ _ _ _ _ F) as Q. pose proof (kf_npad _ _ _ _ _ _ _ F) as Q'. rewrite E3 in *.
      assert (1 <= Z.quot N ncu) by (apply Z.quot_le_lower_bound; nia).
      unfold pad01 in Q'. unfold truthy in A2. destruct (truthy _) in Q'; rewrite Q' in *; cbn in A2; try discriminate; lia.
Qed.

Section Out.

Variable S : scalar.
Notation T := (elt S).

Lemma kernel_map_C b i o ar c A B k : ctx_ok ar c -> o <= i < o + mr c * nr c ->
  touches b i (kernel_map S ar (m_map c) (n_map c) A B (b, o) (mr c) (nr c) k).
Proof.
  intros Hc Hi. unfold kernel_map. destruct (_ && _); [|exact I]. apply ukernel_touches_C.
  destruct Hc as (_ & _ & E1 & E2). rewrite E1, E2 in Hi. exact Hi.
Qed.

Lemma schedule_L_out L ar A_p B_p C M N K p c x :
  ctx_ok ar c -> 0 < K -> 0 < mr c -> 0 < nr c -> kmn_facts M N K p (mr c) (nr c) x -> 0 < Mb x -> 0 < Nb x ->
  pout (BufCp 0) (core_mt x 0 0 * blk_nt x 0 - 1) (schedule_L S L ar A_p B_p C M N K p c x).
Proof.
  intros Hc HK Hmr Hnr F Hm Hn.
  pose proof (kf_K _ _ _ _ _ _ _ F) as PK.
  assert (Hk : 0 < Kb x) by (destruct (part_cover _ _ _ _ PK 0 ltac:(lia)) as (m & Hk & _); lia).
  pose proof (kf_pu _ _ _ _ _ _ _ F 0 ltac:(lia)) as Hpu. pose proof (kf_C _ _ _ _ _ _ _ F 0 ltac:(lia)) as PC.
  pose proof (kf_mr _ _ _ _ _ _ _ F 0 0 ltac:(lia) ltac:(lia)) as (qm & Eqm). pose proof (kf_nr _ _ _ _ _ _ _ F 0 ltac:(lia)) as (qn & Eqn).
  pose proof (pt_w _ _ _ _ PC 0 ltac:(lia)) as Wm. pose proof (pt_w _ _ _ _ (kf_N _ _ _ _ _ _ _ F) 0 ltac:(lia)) as Wn.
  unfold schedule_L, pfor_. apply (pout_pfor1 _ _ 0 (Nb x) _ _ 0); [lia| |].
  { intros. cbv zeta. unfold pfor_ne_. apply small_pfor_ne. intros. apply small_bind; intros; apply small_ppar. }
  intros _. cbv zeta. rewrite snake_end. unfold pfor_ne_. destruct (sn_at_surj (odd2 0) (Mb x) 0 ltac:(lia)) as (q & Hq & E).
  apply (pout_pfor_ne _ _ _ _ _ _ _ q); [apply snake_inc|auto| |].
  { intros. apply small_bind; intros; apply small_ppar. }
  intros _. unfold sn_at in E. rewrite E. apply pout_bind_l.
  apply (pout_ppar1 _ _ 0 _ _ 0); [lia|].
  unfold kmn_core. cbv zeta. rewrite snake_end. unfold tfor_ne_.
  destruct (sn_at_surj (inner_rev 0 0) (Kb x) 0 ltac:(lia)) as (q' & Hq' & E').
  apply (touches_tfor_ne _ _ _ (Kb x) _ _ _ q'); [apply snake_inc|lia|]. intros _. unfold sn_at in E'. rewrite E'.
  unfold tile_loops, tfor_. assert (0 < qm) by nia. assert (0 < qn) by nia.
  rewrite Eqm, Eqn, !Z.quot_mul by lia.
  apply (touches_tfor1 _ _ 0 _ _ _ (qn - 1)); [lia|]. intros _.
  apply (touches_tfor1 _ _ 0 _ _ _ (qm - 1)); [lia|]. intros _.
  unfold padd at 3. cbn [fst snd]. apply kernel_map_C; [auto|]. assert (0 < mr c * nr c) by nia.
  cbn [snd]. replace (0 + ((qn - 1) * (qm * mr c) * nr c + (qm - 1) * mr c * nr c)) with (qm * mr c * (qn * nr c) - mr c * nr c) by ring. lia.
Qed.

Theorem share_too_big F ar q nz M N K p c al be mcu kcu ncu (m0 : mem T) :
  arch_ok ar -> ctx_ok ar c -> 0 < M -> 0 < N -> 0 < K -> 0 < p -> 0 < mcu -> 0 < kcu -> 0 < ncu ->
  ~ misfit KMN p (mr c) (nr c) M N mcu ncu -> ~ share_fits p (mr c) (nr c) M N mcu ncu ->
  live m0 (BufCp 0) = None ->
  always_undefined (cake_sgemm S F ar q nz M N K p (Some c) false false al be KMN mcu kcu ncu) m0.
Proof.
  intros Har Hc HM HN HK Hp Hm Hk Hn Hf Hsh LC.
  destruct (ctx_for_pos ar KMN c Har Hc) as (Hmr & Hnr). unfold misfit in Hf.
  destruct (legal_rows KMN p (mr c) M mcu Hp Hmr Hm ltac:(discriminate)) as (mc & Lm & Dm & Em); [tauto|].
  destruct (legal_columns (nr c) N ncu Hnr Hn) as (nc & Ln & Dn & En); [tauto|].
  set (c' := Cntx (1, 1) (mr c) (nr c) (m_map c) (n_map c) (L1 c) (L2 c) (L3 c) (ncores c)).
  destruct (plan_any M N K p c' KMN mc kcu nc) as (x & Ex & HP & X1 & X2 & X3); auto; try lia; try discriminate.
  cbn [c' mr nr] in Ex.
  destruct (same_program S ar nz M N K p false false be KMN mcu kcu ncu mc nc c x) as (x0 & Ex0 & Eprog); auto; try lia; try discriminate; try congruence.
  assert (Hi : init_block_dims F M N K p c KMN mcu kcu ncu = CRet (x0, c')).
  { rewrite init_any by (auto; try lia; discriminate). rewrite Ex0. reflexivity. }
  cbn [plan] in HP. destruct HP as (Fk & Es).
  destruct (first_share M N K p mcu kcu ncu mc nc (mr c) (nr c) x) as (Hm0 & Hn0 & E1 & E2); auto.
  unfold share_fits in Hsh. rewrite <- E1, <- E2 in Hsh.
  apply (pout_exec (BufCp 0) (core_mt x 0 0 * blk_nt x 0 - 1)).
  2:{ unfold outside. now rewrite LC. }
  rewrite cake_sgemm_unfold. unfold get_ctx. cbn [pbind]. unfold palloc. cbn [pbind pout].
  split; [left; discriminate|]. rewrite Hi. cbn [lift pbind]. rewrite (Eprog c' eq_refl eq_refl).
  unfold after_L, sgemm_rest. cbn [fst snd].
  rewrite Es, (kf_sA _ _ _ _ _ _ _ Fk), (kf_sB _ _ _ _ _ _ _ Fk). cbn [lift pbind]. unfold palloc. cbn [pbind pout].
  split; [left; discriminate|]. cbn [pack_A pack_B].
  apply pout_bind_ret; [apply pack_A_small|].
  split; [left; discriminate|].
  apply pout_bind_ret; [apply pack_B_small|].
  apply pout_bind_l. unfold mid_L. rewrite Es.
  apply pout_bind_r.
  { unfold alloc_Cp, pfor_, palloc. apply small_pfor. intros. split; [right; lia|exact I]. }
  intros _. apply pout_bind_l. apply schedule_L_out; auto.
Qed.

End Out.
