(** * Running out of memory for the accumulators of the other multiplication functions. *)

From Coq Require Import ZArith List Bool Lia.
From Verif Require Import Lang Lang_facts Exec Exec_facts Spec SpecTop SpecOnline SpecTouch SpecAlloc ModelAlloc ModelSizing ModelKernel ModelPack ModelSched ModelTop
     Loop_facts Sizing_facts SizingMN_facts PackMat_facts Order_facts Frame_facts Init_facts TopK_facts TopMN_facts CallAll_facts PackCall_facts
     Touch_facts TouchOut_facts SmallOver_facts NfOver_facts BadMap_facts LargeTile_facts LargeCall_facts LargeOut_facts Alloc_facts AllocCall_facts
     AllocOut_facts Grid2_facts Top2d_facts Small2d_facts.
Import ListNotations.
Open Scope Z_scope.

Lemma partz_first nb t D w : partz nb t D w -> 0 < nb -> 0 < t -> 0 < D -> 0 < w 0.
Proof.
  intros [H1 H2 H3 H4 H5] Hn Ht HD. destruct (Z.eq_dec nb 1) as [->|].
  - specialize (H4 Hn). change (1 - 1) with 0 in H4. lia.
  - rewrite H3; lia.
Qed.

Section Out.

Variable S : scalar.
Notation T := (elt S).

Lemma map_tiles_first b ar c A B mt nt kt : ctx_ok ar c -> 0 < mr c -> 0 < nr c -> (mr c | mt) -> (nr c | nt) -> 0 < mt -> 0 < nt ->
  touches b 0 (tile_loops S (kernel_map S ar (m_map c) (n_map c)) A B (b, 0) mt nt kt (mr c) (nr c)).
Proof.
  intros Hc Hm Hn (u & ->) (w & ->) Hmt Hnt. assert (0 < u) by nia. assert (0 < w) by nia.
  unfold tile_loops, tfor_. rewrite !Z.quot_mul by lia.
  apply (touches_tfor1 b 0 _ _ _ _ 0); [lia|]. intros _. apply (touches_tfor1 b 0 _ _ _ _ 0); [lia|]. intros _.
  unfold padd at 3. cbn [fst snd]. apply kernel_map_C; [auto|]. nia.
Qed.

Lemma online_first so ar A B C M N K p c x : ctx_ok ar c -> 0 < mr c -> 0 < nr c -> 0 < M -> 0 < N -> 0 < K ->
  kmn_facts M N K p (mr c) (nr c) x -> pout (BufCp 0) 0 (schedule_KMN_online S so ar A B C M N K p c x).
Proof.
  intros Hc Hmr Hnr HM HN HK F.
  assert (Hm : 0 < Mb x) by (eapply part_first; [apply F|]; pose proof (kf_Mp _ _ _ _ _ _ _ F); lia).
  assert (Hn : 0 < Nb x) by (eapply part_first; [apply (kf_N _ _ _ _ _ _ _ F)|]; pose proof (kf_Np _ _ _ _ _ _ _ F); lia).
  assert (Hk : 0 < Kb x) by (eapply part_first; [apply (kf_K _ _ _ _ _ _ _ F)|lia]).
  pose proof (kf_pu _ _ _ _ _ _ _ F 0 ltac:(lia)) as Hpu. pose proof (kf_C _ _ _ _ _ _ _ F 0 ltac:(lia)) as PC.
  pose proof (kf_mr _ _ _ _ _ _ _ F 0 0 ltac:(lia) ltac:(lia)) as Dm. pose proof (kf_nr _ _ _ _ _ _ _ F 0 ltac:(lia)) as Dn.
  pose proof (pt_w _ _ _ _ PC 0 ltac:(lia)) as Wm. pose proof (pt_w _ _ _ _ (kf_N _ _ _ _ _ _ _ F) 0 ltac:(lia)) as Wn.
  unfold schedule_KMN_online, pfor_.
  assert (Sk : forall n m k ks ms, small (V := T) (BufCp 0) 0 (pbind
      (if (k =? sn_start ks) && negb (m =? sn_start ms) then PRet tt else online_packB S B N c x n k)
      (fun _ => ppar_for 0 (blk_pu x p m) 1
          (online_core S so ar A K p c x n m k ((k =? sn_start ks) && (m =? sn_start ms) && negb (n =? 0)))))).
  { intros. apply small_bind; [destruct (_ && _); [exact I|unfold online_packB; apply small_ppar]|intros; apply small_ppar]. }
  assert (Sm : forall n m ms, small (V := T) (BufCp 0) 0 (pbind
      (pfor_ne_ (sn_start (snake (inner_rev n m) (Kb x))) (sn_end (snake (inner_rev n m) (Kb x))) (sn_inc (snake (inner_rev n m) (Kb x)))
        (fun k => pbind (if (k =? sn_start (snake (inner_rev n m) (Kb x))) && negb (m =? sn_start ms) then PRet tt else online_packB S B N c x n k)
          (fun _ => ppar_for 0 (blk_pu x p m) 1
            (online_core S so ar A K p c x n m k ((k =? sn_start (snake (inner_rev n m) (Kb x))) && (m =? sn_start ms) && negb (n =? 0))))))
      (fun _ => ppar_for 0 (blk_pu x p m) 1 (kmn_unpack S C M N p c x n m)))).
  { intros. apply small_bind; [unfold pfor_ne_; apply small_pfor_ne; intros; apply Sk|intros; apply small_ppar]. }
  apply (pout_pfor1 _ _ 0 (Nb x) _ _ 0); [lia| |].
  { intros. cbv zeta. unfold pfor_ne_ at 1. apply small_pfor_ne. intros. apply Sm. }
  intros _. cbv zeta. rewrite snake_end. unfold pfor_ne_ at 1. destruct (sn_at_surj (odd2 0) (Mb x) 0 ltac:(lia)) as (q & Hq & E).
  apply (pout_pfor_ne _ _ _ _ _ _ _ q); [apply snake_inc|auto| |].
  { intros. apply Sm. }
  intros _. unfold sn_at in E. rewrite E. apply pout_bind_l.
  destruct (sn_at_surj (inner_rev 0 0) (Kb x) 0 ltac:(lia)) as (q' & Hq' & E'). rewrite snake_end. unfold pfor_ne_.
  apply (pout_pfor_ne _ _ _ (Kb x) _ _ _ q'); [apply snake_inc|lia| |].
  { intros. apply Sk. }
  intros _. unfold sn_at in E'. rewrite E'. apply pout_bind_r.
  { destruct (_ && _); [exact I|unfold online_packB; apply small_ppar]. }
  intros _. apply (pout_ppar1 _ _ 0 _ _ 0); [lia|]. unfold online_core. cbv zeta.
  apply touches_bind_r. intros _. apply touches_bind_r. intros _. apply map_tiles_first; auto; lia.
Qed.

Lemma g2_first ar A B C M N K p c x : arch_ok ar -> 0 < mr c -> 0 < nr c -> 0 < M -> 0 < N -> 0 < K ->
  g2_facts M N K p (mr c) (nr c) x -> pout (BufCp 0) 0 (schedule_KMN_2d S ar A B C M N K c x).
Proof.
  intros Har Hmr Hnr HM HN HK F. pose proof (gf_M _ _ _ _ _ _ _ F) as FM. pose proof (gf_N _ _ _ _ _ _ _ F) as FN.
  pose proof (df_Dp _ _ _ _ _ _ _ _ _ _ _ FM). pose proof (df_Dp _ _ _ _ _ _ _ _ _ _ _ FN).
  assert (Hm : 0 < Mb x) by (eapply part_first; [apply (df_P _ _ _ _ _ _ _ _ _ _ _ FM)|lia]).
  assert (Hn : 0 < Nb x) by (eapply part_first; [apply (df_P _ _ _ _ _ _ _ _ _ _ _ FN)|lia]).
  assert (Hk : 0 < Kb x) by (eapply part_first; [apply (gf_K _ _ _ _ _ _ _ F)|lia]).
  pose proof (df_pu _ _ _ _ _ _ _ _ _ _ _ FM 0 ltac:(lia)) as Pm. pose proof (df_pu _ _ _ _ _ _ _ _ _ _ _ FN 0 ltac:(lia)) as Pn.
  pose proof (df_mx _ _ _ _ _ _ _ _ _ _ _ FM 0 ltac:(lia)) as Xm. pose proof (df_mx _ _ _ _ _ _ _ _ _ _ _ FN 0 ltac:(lia)) as Xn.
  pose proof (df_r _ _ _ _ _ _ _ _ _ _ _ FM 0 0 ltac:(lia) ltac:(lia)) as Dm. pose proof (df_r _ _ _ _ _ _ _ _ _ _ _ FN 0 0 ltac:(lia) ltac:(lia)) as Dn.
  pose proof (pt_w _ _ _ _ (df_P _ _ _ _ _ _ _ _ _ _ _ FM) 0 ltac:(lia)) as Bm.
  pose proof (pt_w _ _ _ _ (df_P _ _ _ _ _ _ _ _ _ _ _ FN) 0 ltac:(lia)) as Bn.
  pose proof (partz_first _ _ _ _ (df_C _ _ _ _ _ _ _ _ _ _ _ FM 0 ltac:(lia)) ltac:(lia) ltac:(lia) ltac:(lia)) as Wm.
  pose proof (partz_first _ _ _ _ (df_C _ _ _ _ _ _ _ _ _ _ _ FN 0 ltac:(lia)) ltac:(lia) ltac:(lia) ltac:(lia)) as Wn.
  assert (R : 0 < MR_MIN ar /\ 0 < NR_MIN ar) by (unfold arch_ok in Har; lia). destruct R as (R1 & R2).
  unfold schedule_KMN_2d, pfor_. apply (pout_pfor1 _ _ 0 (Nb x) _ _ 0); [lia| |].
  { intros. cbv zeta. unfold pfor_ne_, g2_packA, g2_packB. repeat (cbv zeta; match goal with
    | |- small _ _ (PRet _) => exact I
    | |- small _ _ (ppar_for _ _ _ _) => apply small_ppar
    | |- small _ _ (pfor_ne _ _ _ _ _) => apply small_pfor_ne; intros
    | |- small _ _ (pbind _ _) => apply small_bind; intros
    | |- small _ _ (match ?x with _ => _ end) => destruct x
    end). }
  intros _. cbv zeta. rewrite snake_end. unfold pfor_ne_ at 1. destruct (sn_at_surj (odd2 0) (Mb x) 0 ltac:(lia)) as (q & Hq & E).
  apply (pout_pfor_ne _ _ _ _ _ _ _ q); [apply snake_inc|auto| |].
  { intros. cbv zeta. unfold pfor_ne_, g2_packA, g2_packB. repeat (cbv zeta; match goal with
    | |- small _ _ (PRet _) => exact I
    | |- small _ _ (ppar_for _ _ _ _) => apply small_ppar
    | |- small _ _ (pfor_ne _ _ _ _ _) => apply small_pfor_ne; intros
    | |- small _ _ (pbind _ _) => apply small_bind; intros
    | |- small _ _ (match ?x with _ => _ end) => destruct x
    end). }
  intros _. unfold sn_at in E. rewrite E. apply pout_bind_l.
  destruct (sn_at_surj (inner_rev 0 0) (Kb x) 0 ltac:(lia)) as (q' & Hq' & E'). rewrite snake_end. unfold pfor_ne_.
  apply (pout_pfor_ne _ _ _ (Kb x) _ _ _ q'); [apply snake_inc|lia| |].
  { intros. unfold g2_packA, g2_packB. repeat (cbv zeta; match goal with
    | |- small _ _ (PRet _) => exact I
    | |- small _ _ (ppar_for _ _ _ _) => apply small_ppar
    | |- small _ _ (pbind _ _) => apply small_bind; intros
    | |- small _ _ (match ?x with _ => _ end) => destruct x
    end). }
  intros _. unfold sn_at in E'. rewrite E'. apply pout_bind_r.
  { destruct (_ && _); [exact I|unfold g2_packB; apply small_ppar]. }
  intros _. apply pout_bind_r.
  { destruct (_ && _); [exact I|unfold g2_packA; apply small_ppar]. }
  intros _. apply (pout_ppar1 _ _ 0 _ _ 0); [nia|]. unfold g2_core. cbv zeta.
  rewrite Z.quot_0_l, Z.rem_0_l by lia. apply tiles_first; auto.
Qed.

Section Fail.
Variable fl : buf -> bool.
Hypothesis Hfl : forall b, fl b = true -> exists i, b = BufCp i.
Hypothesis H0 : fl (BufCp 0) = true.

Lemma flX i : fl (BufX i) = false.
Proof. destruct (fl (BufX i)) eqn:E; auto. destruct (Hfl _ E); discriminate. Qed.
Lemma flA i : fl (BufAp i) = false.
Proof. destruct (fl (BufAp i)) eqn:E; auto. destruct (Hfl _ E); discriminate. Qed.
Lemma flB : fl BufBp = false.
Proof. destruct (fl BufBp) eqn:E; auto. destruct (Hfl _ E); discriminate. Qed.

Lemma Cp_small p n : small (BufCp 0) 0 (out_of_memory fl (alloc_Cp S p n)).
Proof.
  unfold alloc_Cp, pfor_. apply oom_pfor_small. intros z. unfold palloc. cbn [out_of_memory].
  destruct (fl (BufCp z)) eqn:Ez; [exact I|]. split; [left; congruence|exact I].
Qed.

Lemma gen_out sa sb sc p body : no_heap body -> pout (BufCp 0) 0 body ->
  pout (BufCp 0) 0 (out_of_memory fl (tail_gen S sa sb sc p body)).
Proof.
  intros Hn Hb. unfold tail_gen, palloc. cbn [pbind out_of_memory]. rewrite flA. cbn [pout]. split; [left; discriminate|].
  rewrite flB. cbn [pout]. split; [left; discriminate|]. rewrite oom_bind. apply pout_bind_r; [apply Cp_small|].
  intros _. rewrite oom_bind. apply pout_bind_l. now rewrite no_heap_oom.
Qed.

Lemma no_accumulator_2d F ar q rows M N K p c mcu kcu ncu (m0 : mem T) :
  legal_2d F ar rows c M N K p mcu kcu ncu -> 0 < K -> live m0 (BufCp 0) = None ->
  always_undefined (out_of_memory fl (cake_sgemm_2d S F ar q rows M N K p (Some c) mcu kcu ncu)) m0.
Proof.
  intros L HK HL. destruct (legal_2d_dims F ar rows c M N K p mcu kcu ncu L) as (Hmr & Hnr & x & E & G).
  destruct L as (Har & Hc & HM & HN & _).
  apply (pout_exec (BufCp 0) 0); [|unfold outside; now rewrite HL].
  rewrite unfold_2d. unfold get_ctx. cbn [pbind]. unfold palloc, xbuf. cbn [pbind out_of_memory].
  rewrite flX. cbn [pout]. split; [left; discriminate|]. rewrite E. cbn [lift pbind].
  apply gen_out; [apply nh_2d|]. eapply g2_first; eauto.
Qed.

Lemma no_accumulator_2d_small F ar q rows M N K p pn c (m0 : mem T) :
  legal_small F ar rows c M N K p pn -> 0 < K -> live m0 (BufCp 0) = None ->
  always_undefined (out_of_memory fl (cake_sgemm_2d_small S F ar q rows M N K p (Some c))) m0.
Proof.
  intros L HK HL. destruct (small_dims F ar rows c M N K p pn L) as (x & E & G & Ep & Hkb & DM & DN & Em & En & BM & BN).
  destruct L as (Har & Hc & HM & HN & _). destruct (ctx_pos_min ar c Har Hc) as (Hmr & Hnr & _).
  apply (pout_exec (BufCp 0) 0); [|unfold outside; now rewrite HL].
  rewrite unfold_small. unfold get_ctx. cbn [pbind]. unfold palloc, xbuf. cbn [pbind out_of_memory].
  rewrite flX. cbn [pout]. split; [left; discriminate|]. rewrite E. cbn [lift pbind].
  unfold tail_small. apply gen_out; [apply nh_2d_small|].
  rewrite small_as_2d; auto; try lia. eapply g2_first; eauto.
Qed.

Lemma no_accumulator_online so F ar q M N K p c mcu kcu ncu (m0 : mem T) :
  legal F ar KMN c M N K p mcu kcu ncu -> 0 < M -> 0 < N -> 0 < K -> live m0 (BufCp 0) = None ->
  always_undefined (out_of_memory fl (cake_sgemm_online S so F ar q M N K p (Some c) mcu kcu ncu)) m0.
Proof.
  intros (Har & Hc & HM0 & HN0 & HK0 & Hp & Ht) HM HN HK HL.
  destruct (plan_ok F ar M N K p c KMN mcu kcu ncu Har Hc HM0 HN0 HK0 Hp Ht)
    as (s' & x & c' & Hna & Hs' & Hc' & Hi & _ & HP & _).
  specialize (Hs' ltac:(discriminate)). subst s'. destruct (ctx_for_pos ar KMN c' Har Hc') as (Hmr & Hnr). destruct HP as (Fk & _).
  apply (pout_exec (BufCp 0) 0); [|unfold outside; now rewrite HL].
  unfold cake_sgemm_online, get_ctx. cbn [pbind]. unfold palloc at 1, xbuf at 1. cbn [pbind out_of_memory].
  rewrite flX. cbn [pout]. split; [left; discriminate|]. rewrite Hi. cbn [lift pbind fst snd].
  rewrite oom_bind. apply pout_bind_r.
  { unfold pfor_. apply oom_pfor_small. intros z. unfold palloc. cbn [out_of_memory]. rewrite flA. split; [left; discriminate|exact I]. }
  intros _. unfold palloc at 1. cbn [pbind out_of_memory]. rewrite flB. cbn [pout]. split; [left; discriminate|].
  rewrite oom_bind. apply pout_bind_r; [apply Cp_small|]. intros _.
  rewrite oom_bind. apply pout_bind_r.
  { destruct so; cbn [out_of_memory]; [|exact I]. unfold palloc. cbn [out_of_memory]. rewrite flX. split; [left; discriminate|exact I]. }
  intros _. rewrite oom_bind. apply pout_bind_l. rewrite no_heap_oom by apply nh_online.
  apply online_first; auto.
Qed.
End Fail.
End Out.
