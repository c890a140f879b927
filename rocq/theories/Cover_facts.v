(** * Blocks and shares cover every dimension exactly; tile sizes are legal. *)

From Coq Require Import ZArith List Bool Lia.
From Verif Require Import Lang Spec SpecTop SpecSizing ModelSizing ModelPack ModelSched Sizing_facts SizingMN_facts
     Init_facts SchedMN_facts TopMN_facts CallAll_facts.
Open Scope Z_scope.

Lemma cover_two p nb t D w cores cs sh : part nb t D w ->
  (forall b, 0 <= b < nb -> part (cores b) (cs b) (w b) (sh b)) ->
  (forall b, 0 <= b < nb -> 1 <= cores b <= p) ->
  exact_cover p (Dim D nb t cores cs sh).
Proof.
  intros P Q Hc. unfold exact_cover, at_place. cbn [d_len d_blocks d_step d_cores d_cstep d_share].
  split; [|split; [|split; [|split]]]; auto.
  - intros i Hi. destruct (part_cover _ _ _ _ P i Hi) as (b & Hb & Hi').
    destruct (part_cover _ _ _ _ (Q b Hb) (i - b * t) ltac:(lia)) as (c & Hc' & Hj).
    exists b, c, (i - b * t - c * cs b). repeat split; try lia.
  - intros i b c o (Hb & Hc' & Ho & ->).
    pose proof (part_end _ _ _ _ P b Hb). pose proof (part_end _ _ _ _ (Q b Hb) c Hc').
    pose proof (pt_w _ _ _ _ P b Hb). pose proof (pt_w _ _ _ _ (Q b Hb) c Hc').
    assert (0 <= c * cs b) by nia. assert (0 <= b * t) by nia. lia.
  - intros i b c o b' c' o' (Hb & Hc1 & Ho & E) (Hb' & Hc1' & Ho' & E').
    pose proof (part_end _ _ _ _ (Q b Hb) c Hc1). pose proof (part_end _ _ _ _ (Q b' Hb') c' Hc1').
    pose proof (pt_w _ _ _ _ (Q b Hb) c Hc1). pose proof (pt_w _ _ _ _ (Q b' Hb') c' Hc1').
    assert (0 <= c * cs b) by nia. assert (0 <= c' * cs b') by nia.
    assert (b = b') by (apply (part_uniq _ _ _ _ P b b' i); auto; lia). subst b'.
    assert (c = c') by (apply (part_uniq _ _ _ _ (Q b Hb) c c' (i - b * t)); auto; lia). subst c'. lia.
  - intros b c Hb Hc'. pose proof (pt_w _ _ _ _ (Q b Hb) c Hc'). lia.
Qed.

Lemma cover_one p nb t D w : 1 <= p -> part nb t D w ->
  exact_cover p (Dim D nb t (fun _ => 1) (fun _ => 0) (fun b _ => w b)).
Proof.
  intros Hp P. unfold exact_cover, at_place. cbn [d_len d_blocks d_step d_cores d_cstep d_share].
  split; [|split; [|split; [|split]]].
  - intros i Hi. destruct (part_cover _ _ _ _ P i Hi) as (b & Hb & Hi').
    exists b, 0, (i - b * t). repeat split; try lia.
  - intros i b c o (Hb & Hc' & Ho & ->). pose proof (part_end _ _ _ _ P b Hb).
    pose proof (pt_w _ _ _ _ P b Hb). assert (0 <= b * t) by nia. lia.
  - intros i b c o b' c' o' (Hb & Hc1 & Ho & E) (Hb' & Hc1' & Ho' & E').
    assert (b = b') by (apply (part_uniq _ _ _ _ P b b' i); auto; lia). subst b'. lia.
  - intros. lia.
  - intros b c Hb _. pose proof (pt_w _ _ _ _ P b Hb). lia.
Qed.

Theorem blocks_cover F ar s c M N K p mcu kcu ncu : legal F ar s c M N K p mcu kcu ncu ->
  exists x c', init_block_dims F M N K p c s mcu kcu ncu = CRet (x, c') /\
    exact_cover p (rows p x) /\ exact_cover p (columns x) /\ exact_cover p (depth K p x) /\
    M <= M_padded x < M + mr c /\ N <= N_padded x < N + nr c /\
    (forall b w, 0 <= b < d_blocks (rows p x) -> 0 <= w < d_cores (rows p x) b -> (mr c | d_share (rows p x) b w)) /\
    (forall b, 0 <= b < d_blocks (columns x) -> (nr c | d_share (columns x) b 0)).
Proof.
  intros (Har & Hc & HM & HN & HK & Hp & Ht).
  destruct (plan_ok F ar M N K p c s mcu kcu ncu) as (s' & x & c' & N1 & N2 & Hc' & Hi & Hsame & HP & Hu & Hg & _); auto.
  destruct Hsame as (E1 & E2 & _). exists x, c'. split; [exact Hi|]. rewrite <- E1, <- E2.
  destruct s'; cbn [plan swap_of sch_s tM_s mt_s] in HP; [| | |congruence].
  - destruct HP as (G & Hs). unfold rows, columns, depth. rewrite Hs.
    split; [|split; [|split; [|split; [|split; [|split]]]]].
    + eapply cover_two; [apply (kf_M _ _ _ _ _ _ _ G)|intros b Hb; apply (kf_C _ _ _ _ _ _ _ G b Hb)|
        intros b Hb; apply (kf_pu _ _ _ _ _ _ _ G b Hb)].
    + apply cover_one; [lia|apply (kf_N _ _ _ _ _ _ _ G)].
    + apply cover_one; [lia|apply (kf_K _ _ _ _ _ _ _ G)].
    + pose proof (kf_Mp _ _ _ _ _ _ _ G). pose proof (kf_Mpu _ _ _ _ _ _ _ G). lia.
    + pose proof (kf_Np _ _ _ _ _ _ _ G). pose proof (kf_Npu _ _ _ _ _ _ _ G). lia.
    + intros b w Hb Hw. apply (kf_mr _ _ _ _ _ _ _ G b w Hb Hw).
    + intros b Hb. apply (kf_nr _ _ _ _ _ _ _ G b Hb).
  - destruct HP as (G & Hs & _). unfold rows, columns, depth. rewrite Hs.
    split; [|split; [|split; [|split; [|split; [|split]]]]].
    + apply cover_one; [lia|apply (bf_M _ _ _ _ _ _ _ _ _ G)].
    + apply cover_one; [lia|apply (bf_N _ _ _ _ _ _ _ _ _ G)].
    + eapply cover_two; [apply (bf_K _ _ _ _ _ _ _ _ _ G)|intros b Hb; apply (bf_C _ _ _ _ _ _ _ _ _ G b Hb)|
        intros b Hb; apply (bf_pk _ _ _ _ _ _ _ _ _ G b Hb)].
    + apply (bf_Mp _ _ _ _ _ _ _ _ _ G).
    + apply (bf_Np _ _ _ _ _ _ _ _ _ G).
    + intros b w Hb Hw. apply (bf_mr _ _ _ _ _ _ _ _ _ G b Hb).
    + intros b Hb. apply (bf_nr _ _ _ _ _ _ _ _ _ G b Hb).
  - destruct HP as (G & Hs & _). unfold rows, columns, depth. rewrite Hs.
    split; [|split; [|split; [|split; [|split; [|split]]]]].
    + apply cover_one; [lia|apply (bf_M _ _ _ _ _ _ _ _ _ G)].
    + apply cover_one; [lia|apply (bf_N _ _ _ _ _ _ _ _ _ G)].
    + eapply cover_two; [apply (bf_K _ _ _ _ _ _ _ _ _ G)|intros b Hb; apply (bf_C _ _ _ _ _ _ _ _ _ G b Hb)|
        intros b Hb; apply (bf_pk _ _ _ _ _ _ _ _ _ G b Hb)].
    + apply (bf_Mp _ _ _ _ _ _ _ _ _ G).
    + apply (bf_Np _ _ _ _ _ _ _ _ _ G).
    + intros b w Hb Hw. apply (bf_mr _ _ _ _ _ _ _ _ _ G b Hb).
    + intros b Hb. apply (bf_nr _ _ _ _ _ _ _ _ _ G b Hb).
Qed.

(** ** C19 *)

Lemma dims_fields s M N K p mc kc nc m_r n_r x : dims_of s M N K p mc kc nc m_r n_r = CRet x ->
  m_c x = mc /\ k_c x = kc /\ n_c x = nc /\ sch x = s.
Proof.
  assert (B : forall A B (a : comp A) (f : A -> comp B) y, cbind a f = CRet y -> exists v, a = CRet v /\ f v = CRet y).
  { intros A B [v| |] f y; cbn; intros E; try discriminate. eauto. }
  destruct s; cbn; unfold dims_KMN, dims_MKN, dims_NKM; intros E; try discriminate;
    repeat (apply B in E; destruct E as (? & _ & E)); injection E as <-; auto.
Qed.

Theorem auto_legal F c s M N K p mcu kcu ncu :
  0 <= M -> 0 <= N -> 0 <= K -> 0 < p -> 0 < mr c -> 0 < nr c -> auto_tiles F M p c mcu kcu ncu ->
  exists x c', init_block_dims F M N K p c s mcu kcu ncu = CRet (x, c') /\
    0 < m_c x /\ 0 < k_c x /\ 0 < n_c x /\ (mr c | m_c x) /\ (nr c | n_c x) /\
    sch x <> NA /\ (s <> NA -> sch x = s).
Proof.
  intros HM HN HK Hp Hmr Hnr Ht.
  destruct (init_ok F M N K p c s mcu kcu ncu HM Hp Hmr Hnr (or_intror Ht))
    as (mc & kc & nc & al' & s' & E & H1 & H2 & H3 & H4 & H5 & Hna & H6 & Hu).
  assert (D : exists x, dims_of s' M N K p mc kc nc (mr c) (nr c) = CRet x).
  { destruct s'; cbn [dims_of]; [| | |congruence].
    - apply dims_KMN_total; lia.
    - destruct (dims_MKN_facts M N K p mc kc nc (mr c) (nr c)) as (x & Ex & _); auto. eauto.
    - destruct (dims_NKM_facts M N K p mc kc nc (mr c) (nr c)) as (x & Ex & _); auto. eauto. }
  destruct D as (x & Ex). destruct (dims_fields _ _ _ _ _ _ _ _ _ _ _ Ex) as (X1 & X2 & X3 & X4).
  rewrite Ex in E. cbn [cbind] in E. exists x. eexists. rewrite X1, X2, X3, X4. eauto 12.
Qed.

(** Too small an L2: the ratio alpha_n has denominator 0. *)
Theorem small_L2_UB F c s M N K p mcu kcu ncu :
  0 <= M -> 0 < p -> 0 < mr c -> 0 < nr c ->
  (mcu = 0 \/ kcu = 0 \/ ncu = 0) -> 0 <= fp_mcL2 F (nr c) (L2 c) < mr c ->
  (forall a q x, fp_mul F (a, 0) q x = None) ->
  init_block_dims F M N K p c s mcu kcu ncu = CUB.
Proof.
  intros HM Hp Hmr Hnr Hu HL Hfp. unfold init_block_dims, get_cache_dims. rewrite !imod_pos by lia. cbn [cbind].
  rewrite (Z.rem_small (fp_mcL2 F (nr c) (L2 c))) by lia. rewrite Z.sub_diag.
  destruct (clip_mc_spec M p (mr c) 0 HM Hp Hmr) as (mc & -> & _). cbn [cbind].
  replace (truthy mcu && truthy ncu && truthy kcu) with false.
  2:{ unfold truthy. destruct (Z.eqb_spec mcu 0), (Z.eqb_spec ncu 0), (Z.eqb_spec kcu 0); (reflexivity || lia). }
  set (m3 := fp_mcL3 F (L3 c) (ncores c) - _).
  set (s' := match s with NA => _ | _ => _ end).
  assert (Hs' : s' <> NA).
  { unfold s', derive_schedule. destruct s; try discriminate. now destruct (fp_mkn F M N K p mc (m3, 0)), (fp_nkm F M N K p mc (m3, 0)). }
  clearbody s'. destruct s'; try congruence; rewrite ?imod_pos by lia; cbn [cbind]; rewrite Hfp; reflexivity.
Qed.
