(** * cake_sgemm_2d as the user calls it. *)

From Coq Require Import ZArith List Bool Lia Permutation.
From Verif Require Import Lang Lang_facts Spec SpecTop SpecOnline ModelSizing ModelKernel ModelPack ModelSched ModelTop
     Kernel_facts Tile_facts Loop_facts Pack_facts Unpack_facts Sizing_facts PackMat_facts PackB_facts
     Order_facts Cphase_facts SchedK_facts Frame_facts Init_facts TopK_facts TopMN_facts Call_facts CallAll_facts
     PackCall_facts Mult_facts TopOnline_facts Grid2_facts Grid_tab_facts SchedG2_facts.
Import ListNotations.
Open Scope Z_scope.

Section Top.

Variable S : scalar.
Notation T := (elt S).

(** allocate the packing buffers, run the schedule, free *)
Definition tail_gen (sa sb sc p : Z) (body : prog T unit) : prog T unit :=
  (palloc (BufAp 0) sa true None ;;;
  palloc BufBp sb true None ;;;
  alloc_Cp S p sc ;;;
  body ;;;
  pfree (BufAp 0) ;;;
  free_Cp S p ;;;
  pfree BufBp ;;;
  pfree xbuf)%prog.

Definition tail_2d (ar : arch) (M N K p : Z) (c : cntx) (x : blk_dims) : prog T unit :=
  tail_gen (pm x * m_c x * k_c x) (pn x * n_c x * k_c x) (m_c x * n_c x) p
    (schedule_KMN_2d S ar (BufA, 0) (BufB, 0) (BufC, 0) M N K c x).

Lemma unfold_2d F ar q rows M N K p oc mcu kcu ncu :
  cake_sgemm_2d S F ar q rows M N K p oc mcu kcu ncu =
  pbind (get_ctx S q oc) (fun c0 =>
    pbind (palloc xbuf 1 false None) (fun _ =>
      pbind (lift S (init_block_dims_2d F M N K p rows c0 KMN mcu kcu ncu)) (tail_2d ar M N K p c0))).
Proof. reflexivity. Qed.

Lemma tail_gen_spec ar M N K p x c sa sb A B m1 :
  0 <= M -> 0 <= N -> 0 <= K -> 0 < p -> arch_ok ar -> ctx_min ar c ->
  g2_facts M N K p (mr c) (nr c) x ->
  0 <= sa -> (forall m, 0 <= m < Mb x -> g2_mcb x (mr c) m * k_c x <= sa) ->
  0 <= sb -> (forall n, 0 <= n < Nb x -> g2_ncb x (nr c) n * k_c x <= sb) ->
  at_least m1 BufA (M * K) -> holds m1 BufA M K A -> at_least m1 BufB (K * N) -> holds m1 BufB K N B ->
  at_least m1 BufC (M * N) ->
  A_rim m1 M K (mr c) -> B_rim m1 N K (nr c) 0 ->
  (forall b, scratch b -> b <> BufX 0 -> live m1 b = None) -> live m1 (BufX 0) <> None ->
  pok (tail_gen sa sb (m_c x * n_c x) p (schedule_KMN_2d S ar (BufA, 0) (BufB, 0) (BufC, 0) M N K c x)) m1
      (fun r m' => r = tt /\ holds m' BufC M N (product S A B (g2_ord x)) /\
         (forall b, scratch b -> live m' b = None) /\
         (forall b, ~ scratch b -> live m' b = live m1 b) /\
         (forall b i, ~ scratch b -> ~ (b = BufC /\ 0 <= i < M * N) -> dat m' b i = dat m1 b i)).
Proof.
  intros HM HN HK Hp Har Hc F Z1 Hsa Z2 Hsb (ba & LA & LA1) HA (bb & LB & LB1) HB (bc & LC & LC1) RA RB Hfr HX.
  destruct (ctx_pos_min ar c Har Hc) as (Hmr & Hnr & Hln & Hlk).
  pose proof (ctx_kern_min S ar c Hc) as Hk.
  pose proof (gf_mc _ _ _ _ _ _ _ F) as Hmc. pose proof (gf_nc _ _ _ _ _ _ _ F) as Hnc. pose proof (gf_kc _ _ _ _ _ _ _ F) as Hkc.
  pose proof (gf_pm _ _ _ _ _ _ _ F) as Hpm. pose proof (gf_pn _ _ _ _ _ _ _ F) as Hpn.
  pose proof (gf_M _ _ _ _ _ _ _ F) as FM. pose proof (gf_N _ _ _ _ _ _ _ F) as FN.
  assert (EM : forall i, M <= i < M_padded x -> M <= i < round_up M (mr c)).
  { intros i Hi. rewrite (roundup_uniq M (mr c) (M_padded x)); auto.
    - apply (df_Dd _ _ _ _ _ _ _ _ _ _ _ FM).
    - apply (df_Dp _ _ _ _ _ _ _ _ _ _ _ FM). }
  assert (EN : forall i, N <= i < N_padded x -> N <= i < round_up N (nr c)).
  { intros i Hi. rewrite (roundup_uniq N (nr c) (N_padded x)); auto.
    - apply (df_Dd _ _ _ _ _ _ _ _ _ _ _ FN).
    - apply (df_Dp _ _ _ _ _ _ _ _ _ _ _ FN). }
  unfold tail_gen.
  apply pok_bind. apply pok_alloc; [lia| |].
  { apply Hfr; [split; [exact I|discriminate]|discriminate]. }
  set (m2 := do_alloc m1 (BufAp 0) sa true None).
  assert (P1 : live m2 (BufAp 0) = Some (BInfo sa true)) by reflexivity.
  assert (P3 : forall b, b <> BufAp 0 -> live m2 b = live m1 b).
  { intros b Hb. unfold m2. rewrite live_alloc. destruct (buf_eqb_spec (BufAp 0) b); congruence. }
  assert (P4 : forall b i, b <> BufAp 0 -> dat m2 b i = dat m1 b i).
  { intros b i Hb. unfold m2. rewrite dat_alloc. destruct (buf_eqb_spec (BufAp 0) b); congruence. }
  clearbody m2.
  apply pok_bind. apply pok_alloc; [lia| |].
  { rewrite P3 by discriminate. apply Hfr; [split; [exact I|discriminate]|discriminate]. }
  set (m3 := do_alloc m2 BufBp sb true None).
  assert (Q1 : live m3 BufBp = Some (BInfo sb true)) by reflexivity.
  assert (Q3 : forall b, b <> BufBp -> live m3 b = live m2 b).
  { intros b Hb. unfold m3. rewrite live_alloc. destruct (buf_eqb_spec BufBp b); congruence. }
  assert (Q4 : forall b i, b <> BufBp -> dat m3 b i = dat m2 b i).
  { intros b i Hb. unfold m3. rewrite dat_alloc. destruct (buf_eqb_spec BufBp b); congruence. }
  clearbody m3.
  apply pok_bind. unfold alloc_Cp. apply alloc_fam; try lia.
  { intros i j E. now injection E. }
  { intros k Hk'. rewrite Q3, P3 by discriminate. apply Hfr; [split; [exact I|discriminate]|discriminate]. }
  intros m4 R1 R2 R3 R4.
  assert (NN : forall b, ~ scratch b -> (forall k, b <> BufAp k) /\ (forall k, b <> BufCp k) /\ b <> BufBp /\ b <> xbuf).
  { intros b Hb. split; [intros k|split; [intros k|split]]; intros ->; apply Hb; (split; [exact I || (cbn; lia)|discriminate]). }
  assert (Lu : forall b, b = BufX 0 \/ ~ scratch b -> live m4 b = live m1 b).
  { intros b Hb. assert (N' : (forall k, b <> BufAp k) /\ (forall k, b <> BufCp k) /\ b <> BufBp).
    { destruct Hb as [->|Hb]; [split; [intros k|split; [intros k|]]; discriminate|]. destruct (NN b Hb) as (? & ? & ? & _). auto. }
    destruct N' as (N1 & N2 & N3). rewrite R3, Q3, P3; auto. }
  assert (Du : forall b i, ~ scratch b -> dat m4 b i = dat m1 b i).
  { intros b i Hb. destruct (NN b Hb) as (N1 & N2 & N3 & _). rewrite R4, Q4, P4; auto. }
  assert (NSA : ~ scratch BufA) by (intros ([] & _)).
  assert (NSB : ~ scratch BufB) by (intros ([] & _)).
  assert (NSC : ~ scratch BufC) by (intros ([] & _)).
  apply pok_bind. eapply pok_mono.
  - eapply (schedule_2d_spec S M N K p x ar c F HN HK Hmr Hnr Hk Hln Hlk
      (fromA S K m1) (fromB S N m1) m4 ba bb (BInfo sa true) (BInfo sb true) bc).
    + rewrite Lu; auto.
    + rewrite Lu; auto.
    + intros i k Hi Hkk. rewrite Du by auto. unfold fromA.
      destruct (Z_lt_le_dec i M).
      * rewrite (HA i k) by lia. split; [auto|nia].
      * destruct (RA i k (EM i ltac:(lia)) Hkk) as (b' & v & E1 & E2 & E3).
        rewrite LA in E1. injection E1 as <-. rewrite E3. auto.
    + intros k j Hkk Hj. rewrite Du by auto. unfold fromB.
      destruct (Z_lt_le_dec j N).
      * rewrite (HB k j) by lia. split; [auto|nia].
      * destruct (RB k j ltac:(lia) (EN j ltac:(lia))) as (b' & v & E1 & E2 & E3).
        rewrite LB in E1. injection E1 as <-. rewrite E3. auto.
    + rewrite R3, Q3 by (intros; discriminate). exact P1.
    + exact Hsa.
    + rewrite R3 by (intros; discriminate). exact Q1.
    + exact Hsb.
    + right. reflexivity.
    + rewrite Lu; auto.
    + auto.
    + intros i Hi. eexists. split; [apply R1; auto|cbn; lia].
    + intros k i Hkk Hi. apply R2; auto.
  - cbv beta. intros _ m6 (HL6 & HF6 & HC6).
    apply pok_bind. apply pok_free.
    { rewrite HL6, R3, Q3, P1 by (intros; discriminate). discriminate. }
    apply pok_bind. unfold free_Cp. apply (free_fam S); try lia.
    { intros i j E. now injection E. }
    { intros k Hkk. rewrite live_free, buf_eqb_neq by discriminate. rewrite HL6, R1 by auto. discriminate. }
    intros m8 V1 V3 V4.
    apply pok_bind. apply pok_free.
    { rewrite V3, live_free, buf_eqb_neq by (intros; discriminate).
      rewrite HL6, R3, Q1 by (intros; discriminate). discriminate. }
    apply pok_free.
    { rewrite live_free, buf_eqb_neq by discriminate.
      rewrite V3, live_free, buf_eqb_neq by (intros; discriminate). rewrite HL6, Lu by auto. auto. }
    assert (Lf : forall b, live (do_free (do_free m8 BufBp) xbuf) b =
      if buf_eqb xbuf b then None else if buf_eqb BufBp b then None else live m8 b).
    { intros b. now rewrite !live_free. }
    assert (Df : forall b i, ~ scratch b -> dat (do_free (do_free m8 BufBp) xbuf) b i = dat m6 b i).
    { intros b i Hb. destruct (NN b Hb) as (N1 & N2 & N3 & N4). rewrite !dat_free.
      rewrite buf_eqb_neq, buf_eqb_neq by congruence. rewrite V4 by auto. rewrite dat_free, buf_eqb_neq; auto. }
    split; [auto|split; [|split; [|split]]].
    + intros i j Hi Hj. rewrite Df by auto. rewrite (HC6 i j Hi Hj). f_equal.
      unfold g2_val, product. apply dot_ext.
      intros k Hin.
      assert (Hk2 : 0 <= k < K).
      { pose proof (g2_ord_perm M N K p x c F i j) as Hpm'.
        apply (Permutation_in _ Hpm') in Hin. rewrite in_zrange in Hin. lia. }
      unfold fromA, fromB. rewrite (HA i k), (HB k j) by lia. auto.
    + intros b Hb. rewrite Lf.
      destruct (buf_eqb_spec xbuf b) as [E|N0]; auto. destruct (buf_eqb_spec BufBp b) as [E|N1]; auto.
      destruct (fam_case BufCp p b) as [(k & Hkk & ->)|N3]; [auto|].
      rewrite V3 by auto. rewrite live_free. destruct (buf_eqb_spec (BufAp 0) b) as [E|N2]; auto.
      rewrite HL6, R3, Q3, P3 by auto. apply Hfr; auto.
    + intros b Hb. destruct (NN b Hb) as (N1 & N2 & N3 & N4). rewrite Lf.
      rewrite buf_eqb_neq, buf_eqb_neq by congruence. rewrite V3 by auto. rewrite live_free, buf_eqb_neq by congruence.
      rewrite HL6. auto.
    + intros b i Hb HnC. rewrite Df by auto. rewrite HF6; [apply Du; auto|].
      destruct (NN b Hb) as (N1 & N2 & N3 & N4).
      intros [[HW|(k & -> & _)]|[-> | ->]]; auto.
      * now apply (N2 k).
      * now apply (N1 0).
Qed.

Lemma tail_2d_spec ar M N K p x c A B m1 :
  0 <= M -> 0 <= N -> 0 <= K -> 0 < p -> arch_ok ar -> ctx_min ar c ->
  g2_facts M N K p (mr c) (nr c) x ->
  at_least m1 BufA (M * K) -> holds m1 BufA M K A -> at_least m1 BufB (K * N) -> holds m1 BufB K N B ->
  at_least m1 BufC (M * N) ->
  A_rim m1 M K (mr c) -> B_rim m1 N K (nr c) 0 ->
  (forall b, scratch b -> b <> BufX 0 -> live m1 b = None) -> live m1 (BufX 0) <> None ->
  pok (tail_2d ar M N K p c x) m1
      (fun r m' => r = tt /\ holds m' BufC M N (product S A B (g2_ord x)) /\
         (forall b, scratch b -> live m' b = None) /\
         (forall b, ~ scratch b -> live m' b = live m1 b) /\
         (forall b i, ~ scratch b -> ~ (b = BufC /\ 0 <= i < M * N) -> dat m' b i = dat m1 b i)).
Proof.
  intros. unfold tail_2d. 
  pose proof (gf_mc _ _ _ _ _ _ _ H5) as Hmc. pose proof (gf_nc _ _ _ _ _ _ _ H5) as Hnc. pose proof (gf_kc _ _ _ _ _ _ _ H5) as Hkc.
  pose proof (gf_pm _ _ _ _ _ _ _ H5) as Hpm. pose proof (gf_pn _ _ _ _ _ _ _ H5) as Hpn.
  apply tail_gen_spec; auto; try nn.
  - intros m Hm. pose proof (pt_w _ _ _ _ (df_P _ _ _ _ _ _ _ _ _ _ _ (gf_M _ _ _ _ _ _ _ H5)) m Hm).
    apply Z.mul_le_mono_nonneg_r; lia.
  - intros n Hn. pose proof (pt_w _ _ _ _ (df_P _ _ _ _ _ _ _ _ _ _ _ (gf_N _ _ _ _ _ _ _ H5)) n Hn).
    apply Z.mul_le_mono_nonneg_r; lia.
Qed.

Lemma want_aim F M N p : 0 < p -> 0 <= fp_pn F p N M -> want F M N p = aim F M N p.
Proof.
  intros Hp H. unfold want, aim. destruct (Z.eqb_spec (fp_pn F p N M) 0) as [E|E].
  - rewrite E. destruct (Z.ltb_spec p 1); lia.
  - destruct (Z.ltb_spec p (fp_pn F p N M)); lia.
Qed.

Lemma legal_2d_dims F ar rows c M N K p mcu kcu ncu :
  legal_2d F ar rows c M N K p mcu kcu ncu ->
  0 < mr c /\ 0 < nr c /\
  exists x, init_block_dims_2d F M N K p rows c KMN mcu kcu ncu = CRet x /\ g2_facts M N K p (mr c) (nr c) x.
Proof.
  intros (Har & Hc & HM & HN & HK & Hp & (G1 & G2 & G3) & Ht).
  destruct (ctx_pos_min ar c Har Hc) as (Hmr & Hnr & _). split; [auto|split; [auto|]].
  destruct (grid_def F M N p (ncores c) rows ltac:(lia) Hp G2) as (D1 & D2). rewrite (want_aim F M N p Hp G2) in *.
  destruct (proj2 D1 (conj G1 G3)) as (v & Ev). destruct (D2 v Ev) as (Hv & _).
  assert (Hmk : 0 < fst (mk2d F c mcu kcu ncu) /\ (mr c | fst (mk2d F c mcu kcu ncu)) /\ 0 < snd (mk2d F c mcu kcu ncu)).
  { unfold mk2d, truthy. destruct Ht as [(T1 & T2 & T3 & T4)|(T0 & T1 & T2)].
    - rewrite (proj2 (Z.eqb_neq mcu 0)), (proj2 (Z.eqb_neq ncu 0)), (proj2 (Z.eqb_neq kcu 0)) by lia. cbn. auto.
    - replace (negb (mcu =? 0) && negb (ncu =? 0) && negb (kcu =? 0)) with false.
      2:{ destruct T0 as [-> | [-> | ->]]; cbn; now rewrite ?andb_false_r. }
      cbn [fst snd]. set (a := fp_mc2d F (nr c) (L2 c)) in *.
      pose proof (Z.quot_rem a (mr c) ltac:(lia)) as Q. pose proof (Z.rem_bound_pos a (mr c) ltac:(lia) Hmr) as B.
      assert (1 <= Z.quot a (mr c)) by (apply Z.quot_le_lower_bound; lia).
      split; [nia|split; [|auto]]. exists (Z.quot a (mr c)). lia. }
  destruct Hmk as (K1 & K2 & K3).
  destruct (dims_2d_ok F M N K p rows c mcu kcu ncu v) as (x & Ex & Fx & _); auto; try lia.
  exists x. auto.
Qed.

Theorem ok_2d F ar q rows M N K p oc c mcu kcu ncu :
  match oc with Some c1 => c = c1 | None => c = q end ->
  legal_2d F ar rows c M N K p mcu kcu ncu ->
  exists ord, orders K ord /\
    forall A B m0, caller m0 M N K A B -> A_rim m0 M K (mr c) -> B_rim m0 N K (nr c) 0 ->
      always (cake_sgemm_2d S F ar q rows M N K p oc mcu kcu ncu) m0
        (fun _ m' => holds m' BufC M N (product S A B ord) /\ only_C_changed (start S m0 oc) m' M N).
Proof.
  intros Eoc HL. destruct (legal_2d_dims _ _ _ _ _ _ _ _ _ _ _ HL) as (Hmr & Hnr & x & Ex & Fx).
  destruct HL as (Har & Hc & HM & HN & HK & Hp & _).
  exists (g2_ord x). split; [intros i j; eapply g2_ord_perm; eauto|].
  intros A B m0 Hcl RA RB. eapply always_mono.
  - apply pok_always. rewrite unfold_2d.
    assert (Ec : match oc with Some c1 => c1 | None => q end = c) by (destruct oc; auto).
    apply (call_shape S M N K (fun c0 => init_block_dims_2d F M N K p rows c0 KMN mcu kcu ncu)
             (tail_2d ar M N K p) q oc x tt (fun A B => product S A B (g2_ord x)) A B m0); auto.
    { now rewrite Ec. }
    intros m1 H1 H2 H3 H4 H5 H6 H7 H8 H9. rewrite Ec.
    apply (tail_2d_spec ar M N K p x c A B m1); auto; try lia.
    + intros i k Hi' Hk'. destruct (RA i k Hi' Hk') as (bi & v & E1 & E2 & E3).
      exists bi, v. rewrite H7, H6 by (intros []). auto.
    + intros k j Hk' Hj'. destruct (RB k j Hk' Hj') as (bi & v & E1 & E2 & E3).
      exists bi, v. rewrite H7, H6 by (intros []). auto.
  - cbv beta. intros r m' (_ & H). exact H.
Qed.

End Top.
