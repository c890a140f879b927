(** * cake_sgemm_2d_small with neither columns nor anything to sum: returns and changes nothing. *)

From Coq Require Import ZArith List Bool Lia.
From Verif Require Import Lang Lang_facts Spec SpecTop SpecOnline ModelSizing ModelKernel ModelPack ModelSched ModelTop
     Kernel_facts Loop_facts Unpack_facts Sizing_facts Frame_facts Call_facts TopOnline_facts Online_facts Grid_call_facts Grid2_facts Top2d_facts Small2d_facts Mult_facts.
Import ListNotations.
Open Scope Z_scope.

Section EmptySmall.
Variable S : scalar.
Notation T := (elt S).

Lemma tfor_pure {X} lo hi step (f : Z -> X -> thr T X) : 0 < step -> (forall i s, lo <= i -> exists s', f i s = TRet s') ->
  forall s, exists s', tfor lo hi step s f = TRet s'.
Proof.
  Local Transparent tfor tbind. intros Hs Hf. unfold tfor. replace (0 <? step) with true by (symmetry; apply Z.ltb_lt; lia).
  generalize (loop_count lo hi step). intros n. revert lo Hf. induction n as [|n IH]; intros lo Hf s; cbn [titer]; [eauto|].
  destruct (Hf lo s) as (s' & ->); [lia|]. cbn [tbind]. apply IH. intros. apply Hf. lia.
Qed.

(** Nothing is copied to a result without columns. *)
Lemma unpack_nothing C P M m1 n1 m2 mc nc m_r n_r : 0 <= n1 -> 0 < m_r -> 0 < n_r ->
  unpack_ob_C_single_buf S C P M 0 m1 n1 m2 mc nc m_r n_r = TRet tt.
Proof.
  intros Hn Hm Hr. unfold unpack_ob_C_single_buf.
  match goal with |- tbind ?t _ = _ => assert (E : exists s, t = TRet s) end.
  { apply tfor_pure; [lia|]. intros n2 s2 H2. apply tfor_pure; [lia|]. intros m3 s3 _.
    apply tfor_pure; [lia|]. intros i s4 _. apply tfor_pure; [lia|]. intros j s5 Hj.
    replace (n1 + n2 + j <? 0) with false by (symmetry; apply Z.ltb_ge; lia). cbn [andb tbind]. eauto. }
  destruct E as (s & ->). reflexivity.
Qed.

Record none_at_all (c : cntx) (x : blk_dims) : Prop := {
  nal_Np : N_padded x = 0;
  nal_Mp : 0 <= M_padded x;
  nal_kc : 0 <= k_c x;
  nal_kb : Kb x = 0;
  nal_pn : 1 <= pn x;
  nal_m : 0 <= m_c x;
  nal_n : 0 <= n_c x }.

Lemma small_none F M p rows c g : 0 < M -> 0 < p -> 0 < mr c -> 0 < nr c -> 0 <= fp_pn F p 0 M ->
  0 < fp_kcmax F (L1 c) (mr c) (nr c) -> grid_dims_2d F M 0 p (ncores c) rows = CRet g ->
  exists x, init_block_dims_2d_small F M 0 0 p rows c KMN = CRet x /\ none_at_all c x.
Proof.
  intros HM Hp Hmr Hnr Hf Hkm Eg. unfold init_block_dims_2d_small. cbv zeta. rewrite Eg.
  destruct (grid_found F M 0 p (ncores c) rows HM Hp Hf g Eg) as (Hg & _). cbn [cbind]. rewrite idiv_pos by lia. cbn [cbind].
  pose proof (Z.quot_rem p g ltac:(lia)) as Qp. pose proof (Z.rem_bound_pos p g ltac:(lia) ltac:(lia)) as Bp.
  set (pm0 := Z.quot p g) in *. assert (Hpm : 1 <= pm0) by nia.
  destruct (roundup_ok M (mr c) ltac:(lia) Hmr) as (Mp & -> & DMp & BMp). cbn [cbind].
  assert (ER : roundup 0 (nr c) = CRet 0).
  { unfold roundup. rewrite imod_pos by lia. cbn [cbind]. rewrite Z.rem_0_l by lia. reflexivity. }
  rewrite ER. cbn [cbind]. rewrite !idiv_pos by lia. cbn [cbind]. rewrite !(imod_pos _ (mr c)), !(imod_pos _ (nr c)) by lia. cbn [cbind].
  rewrite (Z.quot_0_l g), (Z.rem_0_l (nr c)) by lia.
  set (mc0 := Z.quot Mp pm0). assert (Hmc0 : 0 <= mc0) by (apply Z.quot_pos; lia).
  pose proof (Z.rem_bound_pos mc0 (mr c) Hmc0 Hmr) as Bm.
  set (mc := mc0 + (mr c - Z.rem mc0 (mr c))). assert (Hmc : 0 < mc) by (unfold mc; lia). clearbody mc.
  set (kc := if fp_kcmax F (L1 c) (mr c) (nr c) <? mc then fp_kcmax F (L1 c) (mr c) (nr c) else mc).
  assert (Hkc : 0 < kc) by (unfold kc; destruct (_ <? mc); lia). clearbody kc.
  rewrite !imod_pos, idiv_pos by lia. cbn [cbind]. replace (0 + (nr c - 0)) with (nr c) by lia.
  rewrite (Z.rem_0_l kc), (Z.quot_0_l kc) by lia.
  eexists. split; [reflexivity|]. constructor; cbn [N_padded M_padded k_c Kb pn m_c n_c]; try lia. reflexivity.
Qed.

Lemma sched_none ar c M p x (m : mem T) (Post : unit -> mem T -> Prop) : 0 < p -> 0 < mr c -> 0 < nr c -> none_at_all c x ->
  (forall k, 0 <= k < p -> live m (BufCp k) = Some (BInfo (m_c x * n_c x) false)) ->
  (forall m', live m' = live m -> (forall b i, (forall k, b <> BufCp k) -> dat m' b i = dat m b i) -> Post tt m') ->
  pok (schedule_KMN_2d_small S ar (BufA, 0) (BufB, 0) (BufC, 0) M 0 0 p c x) m Post.
Proof.
  intros Hp Hmr Hnr [X1 X2 X3 X4 X5 X6 X7] HL HP. unfold schedule_KMN_2d_small. apply pok_bind. unfold pfor_. rewrite X4.
  eapply (pok_pfor1 (fun _ _ m' => m' = m)); [lia|reflexivity|intros; lia|]. intros [] m' ->.
  eapply (pok_par_for 0 p 1 p _ m (fun k b i => b = BufCp k) (fun _ => rnone) (fun _ _ => True)); try lia.
  - intros k Hk. unfold sm_unpack. rewrite unpack_nothing; [|apply Z.mul_nonneg_nonneg; [apply Z.rem_nonneg; lia|lia]|lia|lia].
    cbn [tbind]. replace (0 + k * 1) with k by lia.
    eapply twp_weaken; [eapply twp_mono; [eapply (memset0_spec S (BufCp k) 0 _ _ m); [|apply HL; lia|lia|cbn; lia]|]| |]; auto.
    + nia.
    + intros b i (H & _). exact H.
  - intros k d b i _ _ Hkd -> [E|[]]. injection E. lia.
  - intros m' HL' _ HD. apply HP; auto.
Qed.

Lemma tail_none ar c M p x A B (m1 : mem T) : 0 < p -> 0 < mr c -> 0 < nr c -> none_at_all c x ->
  (forall b, scratch b -> b <> BufX 0 -> live m1 b = None) -> live m1 (BufX 0) <> None ->
  pok (tail_small S ar M 0 0 p c x) m1
      (fun r m' => r = tt /\ holds m' BufC M 0 (product S A B (fun _ _ => [])) /\
         (forall b, scratch b -> live m' b = None) /\
         (forall b, ~ scratch b -> live m' b = live m1 b) /\
         (forall b i, ~ scratch b -> ~ (b = BufC /\ 0 <= i < M * 0) -> dat m' b i = dat m1 b i)).
Proof.
  intros Hp Hmr Hnr X Hfr HX. pose proof X as [X1 X2 X3 X4 X5 X6 X7]. unfold tail_small, tail_gen.
  apply pok_bind. apply pok_alloc; [nia| |].
  { apply Hfr; [split; [exact I|discriminate]|discriminate]. }
  set (m2 := do_alloc m1 (BufAp 0) _ true None).
  assert (P1 : live m2 (BufAp 0) <> None) by (unfold m2; rewrite live_alloc, buf_eqb_refl; discriminate).
  assert (P3 : forall b, b <> BufAp 0 -> live m2 b = live m1 b).
  { intros b Hb. unfold m2. rewrite live_alloc. destruct (buf_eqb_spec (BufAp 0) b); congruence. }
  assert (P4 : forall b i, b <> BufAp 0 -> dat m2 b i = dat m1 b i).
  { intros b i Hb. unfold m2. rewrite dat_alloc. destruct (buf_eqb_spec (BufAp 0) b); congruence. }
  clearbody m2.
  apply pok_bind. apply pok_alloc; [nia| |].
  { rewrite P3 by discriminate. apply Hfr; [split; [exact I|discriminate]|discriminate]. }
  set (m3 := do_alloc m2 BufBp _ true None).
  assert (Q1 : live m3 BufBp <> None) by (unfold m3; rewrite live_alloc, buf_eqb_refl; discriminate).
  assert (Q3 : forall b, b <> BufBp -> live m3 b = live m2 b).
  { intros b Hb. unfold m3. rewrite live_alloc. destruct (buf_eqb_spec BufBp b); congruence. }
  assert (Q4 : forall b i, b <> BufBp -> dat m3 b i = dat m2 b i).
  { intros b i Hb. unfold m3. rewrite dat_alloc. destruct (buf_eqb_spec BufBp b); congruence. }
  clearbody m3.
  apply pok_bind. unfold alloc_Cp. apply alloc_fam; try lia; try nia.
  { intros i j E. now injection E. }
  { intros k Hk'. rewrite Q3, P3 by discriminate. apply Hfr; [split; [exact I|discriminate]|discriminate]. }
  intros m4 R1 R2 R3 R4.
  assert (NN : forall b, ~ scratch b -> (forall k, b <> BufAp k) /\ (forall k, b <> BufCp k) /\ b <> BufBp /\ b <> xbuf).
  { intros b Hb. split; [intros k|split; [intros k|split]]; intros ->; apply Hb; (split; [exact I || (cbn; lia)|discriminate]). }
  assert (Lu : forall b, b = BufX 0 \/ ~ scratch b -> live m4 b = live m1 b).
  { intros b Hb. assert (N' : (forall k, b <> BufAp k) /\ (forall k, b <> BufCp k) /\ b <> BufBp).
    { destruct Hb as [->|Hb]; [split; [intros k|split; [intros k|]]; discriminate|]. destruct (NN b Hb) as (? & ? & ? & _). auto. }
    destruct N' as (N1 & N2 & N3). rewrite R3, Q3, P3; auto. }
  assert (Du : forall b i, ~ scratch b -> dat m4 b i = dat m1 b i).
  { intros b i Hb. destruct (NN b Hb) as (N1 & N2 & N3 & _). rewrite R4, Q4, P4; auto. }
  apply pok_bind. apply sched_none; auto. intros m6 HL6 HF6.
  apply pok_bind. apply pok_free.
  { rewrite HL6, R3, Q3 by (intros; discriminate). exact P1. }
  apply pok_bind. unfold free_Cp. apply (free_fam S); try lia.
  { intros i j E. now injection E. }
  { intros k Hkk. rewrite live_free, buf_eqb_neq by discriminate. rewrite HL6, R1 by auto. discriminate. }
  intros m8 V1 V3 V4.
  apply pok_bind. apply pok_free.
  { rewrite V3, live_free, buf_eqb_neq by (intros; discriminate).
    rewrite HL6, R3 by (intros; discriminate). exact Q1. }
  apply pok_free.
  { rewrite live_free, buf_eqb_neq by discriminate.
    rewrite V3, live_free, buf_eqb_neq by (intros; discriminate). rewrite HL6, Lu by auto. auto. }
  assert (Lf : forall b, live (do_free (do_free m8 BufBp) xbuf) b =
    if buf_eqb xbuf b then None else if buf_eqb BufBp b then None else live m8 b).
  { intros b. now rewrite !live_free. }
  assert (Df : forall b i, ~ scratch b -> dat (do_free (do_free m8 BufBp) xbuf) b i = dat m6 b i).
  { intros b i Hb. destruct (NN b Hb) as (N1 & N2 & N3 & N4). rewrite !dat_free.
    rewrite buf_eqb_neq, buf_eqb_neq by congruence. rewrite V4 by auto. rewrite dat_free, buf_eqb_neq; auto. }
  split; [auto|split; [|split; [|split]]].
  - intros i j Hi Hj. lia.
  - intros b Hb. rewrite Lf.
    destruct (buf_eqb_spec xbuf b) as [E|N0]; auto. destruct (buf_eqb_spec BufBp b) as [E|N1]; auto.
    destruct (fam_case BufCp p b) as [(k & Hkk & ->)|N3]; [auto|].
    rewrite V3 by auto. rewrite live_free. destruct (buf_eqb_spec (BufAp 0) b) as [E|N2]; auto.
    rewrite HL6, R3, Q3, P3 by auto. apply Hfr; auto.
  - intros b Hb. destruct (NN b Hb) as (N1 & N2 & N3 & N4). rewrite Lf.
    rewrite buf_eqb_neq, buf_eqb_neq by congruence. rewrite V3 by auto. rewrite live_free, buf_eqb_neq by congruence.
    rewrite HL6. auto.
  - intros b i Hb _. rewrite Df by auto. rewrite HF6; [apply Du; auto|]. now destruct (NN b Hb) as (N1 & N2 & _).
Qed.

Theorem none_at_all_small F ar q rows M p c A B (m0 : mem T) : arch_ok ar -> ctx_min ar c -> 0 < M -> 0 < p ->
  grid_exists F M 0 p (ncores c) rows -> 0 < fp_kcmax F (L1 c) (mr c) (nr c) -> caller m0 M 0 0 A B ->
  always (cake_sgemm_2d_small S F ar q rows M 0 0 p (Some c)) m0
    (fun _ m' => (forall b, live m' b = live m0 b) /\ forall b i, live m0 b <> None -> dat m' b i = dat m0 b i).
Proof.
  intros Ha Hc HM Hp Hg Hk Hcl. assert (Hr : 0 < mr c /\ 0 < nr c) by (destruct Hc as (? & ?); unfold arch_ok in Ha; lia).
  destruct Hr as (Hmr & Hnr). pose proof Hg as (_ & Hf & _). apply (grid_defined F M 0 p) in Hg; auto. destruct Hg as (g & Eg).
  destruct (small_none F M p rows c g) as (x & Ex & X); auto.
  eapply always_mono.
  - apply pok_always. rewrite unfold_small.
    apply (call_shape S M 0 0 (fun c0 => init_block_dims_2d_small F M 0 0 p rows c0 KMN)
             (tail_small S ar M 0 0 p) q (Some c) x tt (fun A B => product S A B (fun _ _ => [])) A B m0); auto.
    intros m1 _ _ _ _ _ _ _ H8 H9. now apply tail_none.
  - cbv beta. intros r m' (_ & _ & (L & D)). split; [exact L|]. intros b i Hb. apply D; auto. intros (_ & Hi). lia.
Qed.
End EmptySmall.
