(** * cake_sgemm_2d_small: when a core's tile reaches past the packed matrix, every execution is
      undefined. *)

From Coq Require Import ZArith List Bool Znumtheory Lia.
From Verif Require Import Lang Lang_facts Spec SpecTop SpecOnline SpecTouch ModelSizing ModelKernel ModelPack ModelSched ModelTop
     Loop_facts Sizing_facts Frame_facts Init_facts CallAll_facts TopMN_facts Grid2_facts Grid_facts Top2d_facts Grid_call_facts Small2d_facts
     Touch_facts TouchOnline_facts Touch2d_facts TouchAt_facts.
Import ListNotations.
Open Scope Z_scope.

Local Transparent tbind tload tload_al tstore tfor pbind.

Section Kern.

Variable S : scalar.
Notation T := (elt S).

(** the first element of the panel of A is read by the first step, the first one of B too *)
Lemma inner_touches_A b i ar kmr knr n A B c : 0 < kmr -> A = (b, i) -> touches b i (inner S ar kmr knr n (A, B, c)).
Proof.
  intros Hk ->. unfold inner. apply touches_bind_r. intros v. apply touches_bind_l.
  unfold tfor. cbn [Z.ltb Z.compare].
  assert (E : exists n0, loop_count 0 kmr 1 = Datatypes.S n0).
  { unfold loop_count. rewrite Z.div_1_r. exists (Z.to_nat (kmr - 1)). lia. }
  destruct E as (n0 & ->). cbn [titer]. apply touches_bind_l. cbn. auto.
Qed.

Lemma load_vec_touches b i al n : 0 < n -> touches b i (load_vec S al (b, i) n).
Proof.
  intros Hn. unfold load_vec, tfor. cbn [Z.ltb Z.compare].
  assert (E : exists n0, loop_count 0 n 1 = Datatypes.S n0).
  { unfold loop_count. rewrite Z.div_1_r. exists (Z.to_nat (n - 1)). lia. }
  destruct E as (n0 & ->). cbn [titer]. apply touches_bind_l. cbn. left. split; [reflexivity|lia].
Qed.

Lemma inner_touches_B b i ar kmr knr n A B c : 0 < knr -> B = (b, i) -> touches b i (inner S ar kmr knr n (A, B, c)).
Proof. intros Hk ->. unfold inner. apply touches_bind_l. now apply load_vec_touches. Qed.

(** so does the kernel, if k > 0 *)
Lemma ukernel_touches b i ar kmr knr A B C m n k : 0 < k ->
  (forall c, touches b i (inner S ar kmr knr n (A, B, c))) -> touches b i (ukernel S ar kmr knr A B C m n k).
Proof.
  intros Hk H. unfold ukernel. apply touches_bind_r. intros c.
  pose proof (Z.rem_bound_pos k 4 ltac:(lia) ltac:(lia)) as Hr.
  destruct (Z_lt_le_dec 0 (k - Z.rem k 4)) as [G|G].
  - apply touches_bind_l. unfold tfor. cbn [Z.ltb Z.compare].
    assert (E : exists n0, loop_count 0 (k - Z.rem k 4) 4 = Datatypes.S n0).
    { unfold loop_count. assert (1 <= (k - Z.rem k 4 - 0 + 4 - 1) / 4) by (apply Z.div_le_lower_bound; lia).
      exists (Z.to_nat ((k - Z.rem k 4 - 0 + 4 - 1) / 4 - 1)). lia. }
    destruct E as (n0 & ->). cbn [titer]. apply touches_bind_l. apply touches_bind_l. apply H.
  - assert (E0 : tfor 0 (k - Z.rem k 4) 4 (A, B, c) (fun _ st =>
        tbind (inner S ar kmr knr n st) (fun st => tbind (inner S ar kmr knr n st) (fun st =>
        tbind (inner S ar kmr knr n st) (fun st => inner S ar kmr knr n st)))) = TRet (A, B, c)).
    { unfold tfor. cbn [Z.ltb Z.compare]. unfold loop_count.
      replace (Z.to_nat ((k - Z.rem k 4 - 0 + 4 - 1) / 4)) with 0%nat; [reflexivity|].
      assert ((k - Z.rem k 4 - 0 + 4 - 1) / 4 < 1) by (apply Z.div_lt_upper_bound; lia). lia. }
    rewrite E0. cbn [tbind]. apply touches_bind_l. unfold tfor. cbn [Z.ltb Z.compare].
    assert (E : exists n0, loop_count 0 (Z.rem k 4) 1 = Datatypes.S n0).
    { unfold loop_count. rewrite Z.div_1_r. exists (Z.to_nat (Z.rem k 4 - 1)).
      pose proof (Z.quot_rem k 4 ltac:(lia)). assert (0 <= Z.quot k 4) by (apply Z.quot_pos; lia). lia. }
    destruct E as (n0 & ->). cbn [titer]. apply touches_bind_l. apply H.
Qed.

Lemma tiles_touch b i ar A B C mt nt kt m_r n_r m_reg n_reg : 0 <= m_reg < Z.quot mt m_r -> 0 <= n_reg < Z.quot nt n_r ->
  touches b i (cake_sgemm_ukernel S ar (padd A (m_reg * m_r * kt)) (padd B (n_reg * kt * n_r))
                 (padd C (n_reg * mt * n_r + m_reg * m_r * n_r)) m_r n_r kt) ->
  touches b i (tile_loops S (cake_sgemm_ukernel S ar) A B C mt nt kt m_r n_r).
Proof.
  intros Hm Hn H. unfold tile_loops, tfor_. apply (touches_tfor1 b i _ _ _ _ n_reg); auto. intros _.
  apply (touches_tfor1 b i _ _ _ _ m_reg); auto.
Qed.

(** packing stores inside its panel *)
Lemma pack_A_mr_at b i A o K kc m_r : 0 <= kc -> 0 <= m_r -> o + kc * m_r <= i ->
  keepat b i (pack_A_mr_x_kc S A (b, o) K kc m_r).
Proof.
  intros Hk Hm Hi. unfold pack_A_mr_x_kc, keepat.
  apply (keepq_bind b i (fun ind => ind = kc * m_r)); [|intros; exact I].
  apply (keepq_tfor b i 0 kc _ _ (fun z ind => ind = z * m_r)); auto.
  intros z s Hz ->. apply (keepq_weaken b i (fun ind => ind = z * m_r + m_r)); [intros ? ->; ring|].
  apply (keepq_tfor b i 0 m_r _ _ (fun j ind => ind = z * m_r + j)); auto; [|lia].
  intros j s Hj ->. apply (keepq_bind b i (fun _ => True)); [|intros; cbn; ring].
  cbn. right. intros v. split; [right; nia|exact I].
Qed.

Lemma pack_B_nr_at b i B o N kc n_r : 0 <= kc -> 0 <= n_r -> o + kc * n_r <= i ->
  keepat b i (pack_B_nr_x_kc S B (b, o) N kc n_r).
Proof.
  intros Hk Hm Hi. unfold pack_B_nr_x_kc, keepat.
  apply (keepq_bind b i (fun ind => ind = kc * n_r)); [|intros; exact I].
  apply (keepq_tfor b i 0 kc _ _ (fun z ind => ind = z * n_r)); auto.
  intros z s Hz ->. apply (keepq_weaken b i (fun ind => ind = z * n_r + n_r)); [intros ? ->; ring|].
  apply (keepq_tfor b i 0 n_r _ _ (fun j ind => ind = z * n_r + j)); auto; [|lia].
  intros j s Hj ->. apply (keepq_bind b i (fun _ => True)); [|intros; cbn; ring].
  cbn. right. intros v. split; [right; nia|exact I].
Qed.

End Kern.

Section Sched.

Variable S : scalar.
Notation T := (elt S).
Variables (M N K p : Z) (x : blk_dims) (ar : arch) (c : cntx).
Hypothesis HMR : 0 < MR_MIN ar.
Hypothesis HNR : 0 < NR_MIN ar.
Hypothesis Hmr : 0 < mr c.
Hypothesis Hnr : 0 < nr c.
Hypothesis Hpm : 1 <= pm x.
Hypothesis Hpn : 1 <= pn x.
Hypothesis Hp : p = pm x * pn x.
Hypothesis Hmc : 0 < m_c x.
Hypothesis Hnc : 0 < n_c x.
Hypothesis Dmc : (mr c | m_c x).
Hypothesis Dnc : (nr c | n_c x).
Hypothesis HMp : 0 < M_padded x.
Hypothesis HNp : 0 < N_padded x.
Hypothesis DMp : (mr c | M_padded x).
Hypothesis DNp : (nr c | N_padded x).
Hypothesis Hm1 : m_c1 x = M_padded x - (pm x - 1) * m_c x.
Hypothesis Hn1 : n_c1 x = N_padded x - (pn x - 1) * n_c x.
Hypothesis HKb : 0 < Kb x.
Hypothesis Hkt : 0 < blk_kt x 0.

(** a tile of the first core row or column is not empty *)
Lemma first_pos Dp g t t1 r (f : bool) : 0 < r -> 0 < Dp -> (r | Dp) -> 0 < t -> (r | t) -> 1 <= g -> t1 = Dp - (g - 1) * t ->
  0 < Z.quot (if (0 =? g - 1) && f then t1 else t) r.
Proof.
  intros Hr HD [u Eu] Ht [v Ev] Hg E1.
  destruct (Z.eqb_spec 0 (g - 1)) as [E|E]; cbn [andb]; [destruct f|].
  - rewrite E1, <- E, Eu. replace (u * r - 0 * t) with (u * r) by ring. rewrite Z.quot_mul by lia. nia.
  - rewrite Ev, Z.quot_mul by lia. nia.
  - rewrite Ev, Z.quot_mul by lia. nia.
Qed.

(** the tile that reaches past the end *)
Lemma over_tile Dp g t r (f : bool) t1 : 0 < r -> 0 < Dp -> (r | Dp) -> 0 < t -> (r | t) -> 1 <= g -> Dp < g * t ->
  f = false \/ Dp < (g - 1) * t ->
  exists ci reg, 0 <= ci < g /\ 0 <= reg < Z.quot (if (ci =? g - 1) && f then t1 else t) r /\ ci * t + reg * r = Dp.
Proof.
  intros Hr HD [u Eu] Ht [v Ev] Hg Hlt Hf.
  pose proof (Z.div_mod Dp t ltac:(lia)) as E. pose proof (Z.mod_pos_bound Dp t Ht) as B.
  assert (H0 : 0 <= Dp / t) by (apply Z.div_pos; lia).
  exists (Dp / t), (u - Dp / t * v).
  assert (Hci : Dp / t < g) by (apply Z.div_lt_upper_bound; lia).
  assert (E2 : Dp / t * t + (u - Dp / t * v) * r = Dp) by (rewrite Ev at 2; rewrite Eu at 3; ring).
  split; [lia|split; [|exact E2]].
  assert (E3 : (Dp / t =? g - 1) && f = false).
  { destruct Hf as [->|Hf]; [apply andb_false_r|]. rewrite (proj2 (Z.eqb_neq _ _)); [reflexivity|].
    intros E4. rewrite <- E4 in Hf. lia. }
  rewrite E3. replace (Z.quot t r) with v by (rewrite Ev; symmetry; apply Z.quot_mul; lia).
  set (ci := Dp / t) in *. clear Hf E3. nia.
Qed.

Lemma core_at ci : 0 <= ci -> Z.quot (ci * pn x) (pn x) = ci /\ Z.rem (ci * pn x) (pn x) = 0.
Proof. intros. split; [apply Z.quot_mul; lia|apply Z.rem_mul; lia]. Qed.

Lemma sm_core_keeps b k core : (forall z, BufCp z <> b) -> keeps b (sm_core S ar c x k core).
Proof. intros H. unfold sm_core. cbv zeta. apply sgk_keeps. apply H. Qed.

Lemma over_A : M_padded x < pm x * m_c x -> truthy (m_pad x) = false \/ M_padded x < (pm x - 1) * m_c x ->
  pmust (BufAp 0) (M_padded x * blk_kt x 0)
    (schedule_KMN_2d_small S ar (BufA, 0) (BufB, 0) (BufC, 0) M N K p c x).
Proof.
  intros Hlt Ho. set (kt := blk_kt x 0) in *.
  destruct (over_tile _ _ _ _ (truthy (m_pad x)) (m_c1 x) Hmr HMp DMp Hmc Dmc Hpm Hlt Ho) as (ci & reg & Hci & Hreg & E).
  destruct (core_at ci ltac:(lia)) as (Q1 & Q2).
  unfold schedule_KMN_2d_small. apply pmust_bind_l. unfold pfor_. apply pmust_pfor0; [exact HKb|]. cbv zeta.
  fold kt. apply pmust_bind_r.
  { apply pkeepat_ppar. intros. apply keeps_at. apply pack_B_nr_keeps. discriminate. }
  intros _. apply pmust_bind_r.
  { apply pkeepat_ppar. intros q Hq Hq2. apply pack_A_mr_at; [lia|lia|].
    destruct DMp as [u Eu]. rewrite Eu in *. assert (q + 1 <= u) by nia. nia. }
  intros _. apply (pmust_ppar1 _ _ 0 p _ (ci * pn x)); [nia| |].
  { intros z. apply keeps_at. apply sm_core_keeps. discriminate. }
  unfold sm_core. cbv zeta. fold kt. rewrite Q1, Q2. apply (tiles_touch S _ _ _ _ _ _ _ _ _ _ _ reg 0).
  - unfold sm_mt. now rewrite Q1.
  - unfold sm_nt. rewrite Q2. split; [lia|]. apply (first_pos (N_padded x)); auto.
  - unfold cake_sgemm_ukernel. apply ukernel_touches; [exact Hkt|]. intros cc. apply inner_touches_A; auto.
    unfold padd. cbn [fst snd]. f_equal. rewrite <- E. ring.
Qed.

Lemma over_B : N_padded x < pn x * n_c x -> truthy (n_pad x) = false \/ N_padded x < (pn x - 1) * n_c x ->
  pmust BufBp (N_padded x * blk_kt x 0)
    (schedule_KMN_2d_small S ar (BufA, 0) (BufB, 0) (BufC, 0) M N K p c x).
Proof.
  intros Hlt Ho. set (kt := blk_kt x 0) in *.
  destruct (over_tile _ _ _ _ (truthy (n_pad x)) (n_c1 x) Hnr HNp DNp Hnc Dnc Hpn Hlt Ho) as (cj & reg & Hcj & Hreg & E).
  assert (Q1 : Z.quot cj (pn x) = 0) by (apply Z.quot_small; lia).
  assert (Q2 : Z.rem cj (pn x) = cj) by (apply Z.rem_small; lia).
  unfold schedule_KMN_2d_small. apply pmust_bind_l. unfold pfor_. apply pmust_pfor0; [exact HKb|]. cbv zeta.
  fold kt. apply pmust_bind_r.
  { apply pkeepat_ppar. intros q Hq Hq2. apply pack_B_nr_at; [lia|lia|].
    destruct DNp as [u Eu]. rewrite Eu in *. assert (q + 1 <= u) by nia. nia. }
  intros _. apply pmust_bind_r.
  { apply pkeepat_ppar. intros. apply keeps_at. apply pack_A_mr_keeps. discriminate. }
  intros _. apply (pmust_ppar1 _ _ 0 p _ cj); [nia| |].
  { intros z. apply keeps_at. apply sm_core_keeps. discriminate. }
  unfold sm_core. cbv zeta. fold kt. rewrite Q1, Q2. apply (tiles_touch S _ _ _ _ _ _ _ _ _ _ _ 0 reg).
  - unfold sm_mt. rewrite Q1. split; [lia|]. apply (first_pos (M_padded x)); auto.
  - unfold sm_nt. now rewrite Q2.
  - unfold cake_sgemm_ukernel. apply ukernel_touches; [exact Hkt|]. intros cc. apply inner_touches_B; auto.
    unfold padd. cbn [fst snd]. f_equal. rewrite <- E. ring.
Qed.

End Sched.

Section Call.

Variable S : scalar.
Notation T := (elt S).

Lemma tail_must b i sa sb sc p body : (forall z, BufCp z <> b) -> pmust (V:=T) b i body ->
  pmust b i (tail_gen S sa sb sc p body).
Proof.
  intros Hb H. unfold tail_gen, palloc. cbn [pbind pmust]. split; [auto|]. split; [auto|].
  apply pmust_bind_r.
  { unfold alloc_Cp, pfor_, palloc. apply pkeepat_pfor. intros. split; [left; apply Hb|exact I]. }
  intros _. now apply pmust_bind_l.
Qed.

Lemma fits_dec D g r : 0 < r -> small_fits D g r \/ ~ small_fits D g r.
Proof.
  intros Hr. unfold small_fits. destruct (Zdivide_dec (small_tile D g r) D) as [H|H]; [right; tauto|].
  destruct (Z_le_gt_dec ((g - 1) * small_tile D g r) (round_up D r)) as [G|G]; [left; auto|right]. intros (_ & G'). lia.
Qed.

Lemma not_fits D g r : 0 < r -> ~ small_fits D g r <->
  (small_tile D g r | D) \/ round_up D r < (g - 1) * small_tile D g r.
Proof.
  intros Hr. unfold small_fits. destruct (Zdivide_dec (small_tile D g r) D) as [H|H]; [tauto|].
  destruct (Z_le_gt_dec ((g - 1) * small_tile D g r) (round_up D r)) as [G|G].
  - split; [tauto|]. intros [H'|H']; [tauto|lia].
  - split; [intros _; right; lia|]. intros _ (_ & G'). lia.
Qed.

Lemma small_over F ar q rows M N K p pn c A B m0 :
  small_args F ar rows c M N K p pn -> caller m0 M N K A B ->
  ~ small_fits M (p / pn) (mr c) \/ ~ small_fits N pn (nr c) ->
  always_undefined (cake_sgemm_2d_small S F ar q rows M N K p (Some c)) m0.
Proof.
  intros (Har & Hc & HM & HN & HK & Hp & Hf & Hg & Hkm) Hcall Ho.
  destruct (ctx_pos_min ar c Har Hc) as (Hmr & Hnr & _).
  destruct (grid_found F M N p (ncores c) rows HM Hp Hf pn Hg) as (Hpn & Dpn & _).
  rewrite !not_fits in Ho by lia.
  assert (G : exists b i, live m0 b = None /\ (forall z, BufCp z <> b) /\ b <> xbuf /\ exists x,
    init_block_dims_2d_small F M N K p rows c KMN = CRet x /\
    pmust b i (schedule_KMN_2d_small S ar (BufA, 0) (BufB, 0) (BufC, 0) M N K p c x)).
  2:{ destruct G as (b & i & H1 & H2 & H3 & x & E & H4).
      apply (pmust_exec b i).
      - rewrite unfold_small. unfold get_ctx, palloc. cbn [pbind pmust].
        split; [left; auto|]. rewrite E. cbn [lift pbind]. unfold tail_small. now apply tail_must.
      - intros al. unfold load. now rewrite H1. }
  unfold init_block_dims_2d_small. cbv zeta. rewrite Hg. cbn [cbind].
  rewrite idiv_pos by lia. cbn [cbind].
  assert (Epm : Z.quot p pn = p / pn) by (apply Z.quot_div_nonneg; lia). rewrite Epm.
  destruct Dpn as [pm0 Ep]. assert (Epp : p / pn = pm0) by (rewrite Ep; apply Z.div_mul; lia).
  rewrite Epp in *. assert (Hpm : 1 <= pm0) by nia.
  destruct (roundup_ok M (mr c) ltac:(lia) Hmr) as (Mp & -> & DMp & BMp). cbn [cbind].
  destruct (roundup_ok N (nr c) ltac:(lia) Hnr) as (Np & -> & DNp & BNp). cbn [cbind].
  assert (EMp : round_up M (mr c) = Mp) by (apply roundup_uniq; auto).
  assert (ENp : round_up N (nr c) = Np) by (apply roundup_uniq; auto).
  unfold small_tile in Ho. rewrite EMp, ENp in Ho.
  destruct (small_dim M pm0 (mr c) Mp HM Hpm Hmr DMp BMp) as (T1 & T2 & T3 & T4 & _).
  destruct (small_dim N pn (nr c) Np HN ltac:(lia) Hnr DNp BNp) as (U1 & U2 & U3 & U4 & _).
  rewrite !idiv_pos by lia. cbn [cbind].
  rewrite !(imod_pos _ (mr c)), !(imod_pos _ (nr c)) by lia. cbn [cbind].
  set (mc := Z.quot Mp pm0 + (mr c - Z.rem (Z.quot Mp pm0) (mr c))) in *.
  set (nc := Z.quot Np pn + (nr c - Z.rem (Z.quot Np pn) (nr c))) in *.
  rewrite <- T1, <- U1 in Ho.
  clearbody mc nc.
  set (kc := if fp_kcmax F (L1 c) (mr c) (nr c) <? mc then fp_kcmax F (L1 c) (mr c) (nr c) else mc).
  assert (Hkc : 0 < kc) by (unfold kc; destruct (_ <? mc); auto). clearbody kc.
  rewrite !imod_pos, idiv_pos by lia. cbn [cbind].
  assert (Tr : forall a t, 0 < a -> 0 < t -> (t | a) -> truthy (pad01 (Z.rem a t)) = false).
  { intros a t Ha Ht [u ->]. rewrite Z.rem_mul by lia. reflexivity. }
  pose proof (Z.rem_bound_pos K kc ltac:(lia) Hkc) as BK. pose proof (Z.quot_rem K kc ltac:(lia)) as QK.
  assert (QK0 : 0 <= Z.quot K kc) by (apply Z.quot_pos; lia).
  assert (QK1 : Z.rem K kc = 0 -> 0 < Z.quot K kc).
  { intros E0. rewrite E0 in QK. destruct (Z.eq_dec (Z.quot K kc) 0) as [E1|]; [rewrite E1 in QK; lia|lia]. }
  set (x := BD mc kc nc (Mp - (pm0 - 1) * mc) (Z.rem K kc) (Np - (pn - 1) * nc) 0 0 0 0 0 0 0 0 0 pm0 pn
              (pad01 (Z.rem M mc)) (pad01 (Z.rem K kc)) (pad01 (Z.rem N nc)) 0
              (Z.quot K kc + pad01 (Z.rem K kc)) 0 Mp Np KMN).
  assert (HKb : 0 < Kb x).
  { unfold x. cbn [Kb]. unfold pad01, truthy. destruct (Z.eqb_spec (Z.rem K kc) 0) as [E0|E0]; [specialize (QK1 E0)|]; cbn [negb]; lia. }
  assert (Hkt : 0 < blk_kt x 0).
  { unfold blk_kt, is_last, x. cbn [Kb k_pad k_c1 k_c]. unfold pad01, truthy.
    destruct (Z.eqb_spec (Z.rem K kc) 0); cbn [Z.eqb negb]; [rewrite andb_false_r; lia|].
    destruct (_ && _); lia. }
  destruct Hcall as (_ & _ & _ & _ & _ & Hlive).
  destruct Har as (Ha1 & Ha2 & _).
  destruct Ho as [Ho|Ho].
  - exists (BufAp 0), (M_padded x * blk_kt x 0). split; [apply Hlive; cbn; tauto|]. split; [discriminate|]. split; [discriminate|].
    exists x. split; [reflexivity|]. apply over_A; auto; cbn; try lia.
    destruct Ho as [Ho|Ho]; [left|right; lia]. apply Tr; auto.
  - exists BufBp, (N_padded x * blk_kt x 0). split; [apply Hlive; cbn; tauto|]. split; [discriminate|]. split; [discriminate|].
    exists x. split; [reflexivity|]. apply over_B; auto; cbn; try lia.
    destruct Ho as [Ho|Ho]; [left|right; lia]. apply Tr; auto.
Qed.

(** Exactly when the call is defined. *)
Lemma small_iff F ar q rows M N K p pn c A B m0 :
  small_args F ar rows c M N K p pn -> caller m0 M N K A B ->
  (~ pexec (cake_sgemm_2d_small S F ar q rows M N K p (Some c)) m0 Undef <->
   small_fits M (p / pn) (mr c) /\ small_fits N pn (nr c) /\ A_rim m0 M K (mr c) /\ B_rim m0 N K (nr c) 0).
Proof.
  intros L Hc. pose proof L as (Har & Hc0 & HM & HN & HK & Hp & Hf & Hg & Hkm).
  destruct (ctx_pos_min ar c Har Hc0) as (Hmr & Hnr & _).
  destruct (fits_dec M (p / pn) (mr c) Hmr) as [FM|FM].
  2:{ split; [|tauto]. intros H. exfalso. apply H. eapply small_over; eauto. }
  destruct (fits_dec N pn (nr c) Hnr) as [FN|FN].
  2:{ split; [|tauto]. intros H. exfalso. apply H. eapply small_over; eauto. }
  assert (L' : legal_small F ar rows c M N K p pn) by (unfold legal_small; repeat (split; [solve [auto; lia]|]); auto).
  rewrite (small_safe_iff S F ar q rows M N K p pn c A B m0 L' Hc). tauto.
Qed.

Lemma small_iff_exact F ar q rows M N K p pn c A B m0 ba bb :
  small_args F ar rows c M N K p pn -> caller m0 M N K A B ->
  live m0 BufA = Some ba -> blen ba = M * K -> live m0 BufB = Some bb -> blen bb = K * N ->
  (~ pexec (cake_sgemm_2d_small S F ar q rows M N K p (Some c)) m0 Undef <->
   small_fits M (p / pn) (mr c) /\ small_fits N pn (nr c) /\ (mr c | M) /\ (nr c | N)).
Proof.
  intros L Hc LA EA LB EB. rewrite (small_iff F ar q rows M N K p pn c A B m0) by auto.
  destruct L as (Har & Hc0 & HM & HN & HK & Hp & _). destruct (ctx_pos_min ar c Har Hc0) as (Hmr & Hnr & _).
  rewrite (A_rim_exact S m0 A B M N K (mr c) ba) by (auto; lia). rewrite (B_rim_exact S m0 A B M N K (nr c) bb) by auto.
  tauto.
Qed.

End Call.
