(** * cake_sgemm, N-first, beta <> 0: when the block offsets of pack_C and of the schedule
      disagree, every execution is undefined. *)

From Coq Require Import ZArith List Bool Lia.
From Verif Require Import Lang Lang_facts Spec SpecTop SpecPack SpecTouch ModelSizing ModelKernel ModelPack ModelSched ModelTop
     Loop_facts Sizing_facts SizingMN_facts PackMN_facts Packed_facts SchedMN_facts Exec Exec_facts Frame_facts Init_facts TopK_facts Hole_facts TopMN_facts CallAll_facts
     Mult_facts PackCall_facts Prepack_facts Touch_facts TouchMN_facts TouchAt_facts SmallOver_facts.
Import ListNotations.
Open Scope Z_scope.

Local Transparent tbind tload tload_al tstore tfor pbind.

Section Kern.

Variable S : scalar.
Notation T := (elt S).

Lemma load_vec_keeps b al P n : keeps b (load_vec S al P n).
Proof. unfold load_vec. apply keeps_tfor. intros z s. apply keeps_bind; [cbn; auto|intros; exact I]. Qed.

Lemma inner_keeps b ar kmr knr n st : keeps b (inner S ar kmr knr n st).
Proof.
  destruct st as ((A & B) & c0). unfold inner. apply keeps_bind; [apply load_vec_keeps|]. intros v.
  apply keeps_bind; [|intros; exact I]. apply keeps_tfor. intros. apply keeps_bind; [cbn; auto|intros; exact I].
Qed.

Lemma load_vec_touches_at b i o al n : o <= i < o + n -> touches b i (load_vec S al (b, o) n).
Proof.
  intros Hi. unfold load_vec. apply (touches_tfor1 b i 0 n _ _ (i - o)); [lia|]. intros s.
  apply touches_bind_l. cbn. left. split; [reflexivity|lia].
Qed.

(** the kernel reads every element of its tile of C before it writes any *)
Lemma ukernel_touches_C b i o ar kmr knr A B m n k : o <= i < o + kmr * knr ->
  touches b i (ukernel S ar kmr knr A B (b, o) m n k).
Proof. intros Hi. unfold ukernel. apply touches_bind_l. now apply load_vec_touches_at. Qed.

Lemma ukernel_at b i ar kmr knr A B C m n k : 0 <= kmr * knr -> keepat b i (ukernel S ar kmr knr A B C m n k).
Proof.
  intros G. destruct C as (cb & o). unfold ukernel.
  assert (D : (cb = b /\ o <= i < o + kmr * knr) \/ (cb <> b \/ ~ (o <= i < o + kmr * knr))).
  { destruct (buf_eqb_spec cb b); [|tauto]. destruct (Z_le_gt_dec o i), (Z_lt_le_dec i (o + kmr * knr)); auto; right; right; lia. }
  destruct D as [(-> & Hi)|D].
  - apply keepat_touch; [apply load_vec_keeps|now apply load_vec_touches_at].
  - apply keepat_bind; [apply keeps_at, load_vec_keeps|]. intros c0.
    apply keepat_bind.
    { apply keeps_at. apply keeps_tfor. intros z s. repeat (apply keeps_bind; [apply inner_keeps|intros]). apply inner_keeps. }
    intros st. apply keepat_bind. { apply keeps_at. apply keeps_tfor. intros z s. apply inner_keeps. }
    intros st'. unfold store_vec, tfor_, keepat.
    apply (keepq_weaken b i (fun _ => True)); [auto|].
    apply (keepq_tfor b i 0 (kmr * knr) _ _ (fun _ _ => True)); auto.
    intros z s Hz _. cbn. split; [|exact I]. destruct D as [D|D]; [auto|right; lia].
Qed.

Lemma tiles_at b i ar A B C mt nt kt m_r n_r : 0 <= MR_MIN ar * NR_MIN ar ->
  keepat b i (tile_loops S (cake_sgemm_ukernel S ar) A B C mt nt kt m_r n_r).
Proof.
  intros G. unfold tile_loops, tfor_. apply keepat_tfor. intros _z _s. apply keepat_tfor. intros _z' _s'.
  unfold cake_sgemm_ukernel. now apply ukernel_at.
Qed.

(** packing a block of C stores inside the block *)
Lemma copy0_at b i pad dst j src k : (fst dst <> b \/ snd dst + j <> i) -> keepat b i (copy0 S pad dst j src k).
Proof. intros H. unfold copy0, pstore, pload, tstore, tload, keepat. destruct pad; cbn; auto. Qed.

Lemma pack_ob_C_at b i o C M N m1 n1 m2 mc nc m_r n_r pm pn : 0 < m_r -> 0 < n_r -> 0 <= mc -> 0 <= nc ->
  (m_r | mc) -> (n_r | nc) -> ~ (o <= i < o + mc * nc) ->
  keepat b i (pack_ob_C_single_buf S C (b, o) M N m1 n1 m2 mc nc m_r n_r pm pn).
Proof.
  intros Hm Hn Hmc Hnc [u Eu] [w Ew] Hi. assert (Hu : 0 <= u) by nia. assert (Hw : 0 <= w) by nia.
  assert (Hmn : 0 < m_r * n_r) by nia.
  unfold pack_ob_C_single_buf, keepat. rewrite Eu, Ew.
  apply (keepq_bind b i (fun _ => True)); [|intros; exact I].
  apply (keepq_weaken b i (fun ind => ind = w * (u * (m_r * n_r)))); [auto|].
  apply (keepq_tfor_step b i w n_r _ _ (fun q ind => ind = q * (u * (m_r * n_r)))); auto.
  intros q s Hq ->. apply (keepq_weaken b i (fun ind => ind = q * (u * (m_r * n_r)) + u * (m_r * n_r))); [intros ? ->; ring|].
  apply (keepq_tfor_step b i u m_r _ _ (fun q' ind => ind = q * (u * (m_r * n_r)) + q' * (m_r * n_r))); auto; [|lia].
  intros q' s Hq' ->.
  apply (keepq_weaken b i (fun ind => ind = q * (u * (m_r * n_r)) + q' * (m_r * n_r) + m_r * n_r)); [intros ? ->; ring|].
  apply (keepq_tfor b i 0 m_r _ _ (fun a ind => ind = q * (u * (m_r * n_r)) + q' * (m_r * n_r) + a * n_r)); [lia| |lia].
  intros a s Ha ->.
  apply (keepq_weaken b i (fun ind => ind = q * (u * (m_r * n_r)) + q' * (m_r * n_r) + a * n_r + n_r)); [intros ? ->; ring|].
  apply (keepq_tfor b i 0 n_r _ _ (fun j ind => ind = q * (u * (m_r * n_r)) + q' * (m_r * n_r) + a * n_r + j)); [lia| |lia].
  intros j s Hj ->. apply (keepq_bind b i (fun _ => True)); [|intros; cbn; ring].
  apply copy0_at. right. cbn [snd]. intros E. apply Hi. rewrite <- E.
  assert (E1 : u * m_r * (w * n_r) = w * (u * (m_r * n_r))) by ring. rewrite Eu, Ew, E1.
  set (t := m_r * n_r) in *.
  assert (0 <= a * n_r + j < t) by (unfold t; nia).
  assert (0 <= q' * t + (a * n_r + j) < u * t) by nia. set (U := u * t) in *.
  assert (0 <= U) by lia. assert (0 <= q * U) by nia. assert ((q + 1) * U <= w * U) by nia. lia.
Qed.

End Kern.

Section Plan.

Variable S : scalar.
Notation T := (elt S).
Variables (ar : arch) (M N K p : Z) (x : blk_dims) (c : cntx).
Hypothesis Hp : 0 < p.
Hypothesis HR : 0 < MR_MIN ar /\ 0 < NR_MIN ar.
Hypothesis Hmr : 0 < mr c.
Hypothesis Hnr : 0 < nr c.
Hypothesis F : bf M N K p (mr c) (nr c) (p * m_c x) (nf_mt x p) x.

Notation hole' := (hole (Mb x) (p * m_c x) (M_padded x) (nf_mt x p) (Nb x) (N_padded x) (blk_nt x)).

(** pack_C does not write the hole *)
Lemma pack_C_hole cb b e : hole' e -> pkeepat b e (pack_C S (cb, 0) (b, 0) M N p x c NKM).
Proof.
  intros (He & Hh). unfold pack_C, pack_C_single_buf_n_first, pfor_. cbv zeta.
  apply pkeepat_pfor1. intros m _ Hm. apply pkeepat_ppar. intros n Hn Hn'. rewrite Z.mul_1_r, Z.add_0_l in *.
  assert (Hn2 : 0 <= n < Nb x) by lia. clear Hn Hn'.
  pose proof (pt_w _ _ _ _ (bf_M _ _ _ _ _ _ _ _ _ F) m Hm) as Bm.
  pose proof (pt_w _ _ _ _ (bf_N _ _ _ _ _ _ _ _ _ F) n Hn2) as Bn.
  unfold padd. cbn [fst snd]. apply pack_ob_C_at; auto; try lia.
  - apply (bf_mr _ _ _ _ _ _ _ _ _ F m Hm).
  - apply (bf_nr _ _ _ _ _ _ _ _ _ F n Hn2).
  - intros W. apply (Hh m n Hm Hn2). unfold written. lia.
Qed.

(** the schedule reads every element of the packed C before it writes it *)
Lemma schedule_reads A_p B_p b e : 0 <= e < M_padded x * N_padded x -> 0 < K -> MR_MIN ar = mr c -> NR_MIN ar = nr c ->
  pmust b e (schedule S ar A_p B_p (b, 0) M N K p c x NKM).
Proof.
  intros He HK E1 E2. assert (G : 0 <= MR_MIN ar * NR_MIN ar) by nia.
  pose proof (bf_M _ _ _ _ _ _ _ _ _ F) as PM. pose proof (bf_N _ _ _ _ _ _ _ _ _ F) as PN.
  pose proof (bf_K _ _ _ _ _ _ _ _ _ F) as PK.
  destruct (bpos_cover _ _ _ _ _ _ _ _ e PM PN He) as (m & n & Hm & Hn & Hb).
  pose proof (pt_w _ _ _ _ PM m Hm) as Bm. pose proof (pt_w _ _ _ _ PN n Hn) as Bn.
  destruct (bf_mr _ _ _ _ _ _ _ _ _ F m Hm) as [u Eu]. destruct (bf_nr _ _ _ _ _ _ _ _ _ F n Hn) as [w Ew].
  assert (Hu : 0 < u) by nia. assert (Hw : 0 < w) by nia.
  set (o := bpos (p * m_c x) (nf_mt x p) (n_c x) (N_padded x) m n) in *.
  (* which register tile *)
  assert (D : exists qn qm r, 0 <= qn < w /\ 0 <= qm < u /\ 0 <= r < mr c * nr c /\
     e = o + (qn * nf_mt x p m * nr c + qm * mr c * nr c) + r).
  { set (y := e - o). assert (Hy : 0 <= y < w * (u * (mr c * nr c))) by (unfold y; rewrite Eu, Ew in Hb; lia).
    assert (Ht : 0 < mr c * nr c) by nia. set (t := mr c * nr c) in *.
    assert (HU : 0 < u * t) by nia. set (U := u * t) in *.
    exists (y / U), (y mod U / t), (y mod U mod t).
    pose proof (Z.div_mod y U ltac:(lia)) as D1. pose proof (Z.mod_pos_bound y U HU) as B1.
    pose proof (Z.div_mod (y mod U) t ltac:(lia)) as D2. pose proof (Z.mod_pos_bound (y mod U) t Ht) as B2.
    split; [split; [apply Z.div_pos; lia|apply Z.div_lt_upper_bound; lia]|].
    split; [split; [apply Z.div_pos; lia|apply Z.div_lt_upper_bound; [lia|]]; assert (EU : U = t * u) by (unfold U; ring); lia|].
    split; [exact B2|]. replace e with (o + y) by (unfold y; ring). rewrite D1 at 1. rewrite D2 at 1.
    rewrite Eu. unfold U, t. ring. }
  destruct D as (qn & qm & r & Hqn & Hqm & Hr & Ee).
  assert (HKb : 0 < Kb x).
  { pose proof (pt_nb _ _ _ _ PK). destruct (Z.eq_dec (Kb x) 0) as [E|E]; [|lia]. pose proof (pt_0 _ _ _ _ PK E). lia. }
  assert (Kat : forall m k n, keepat b e (nkm_col S ar A_p B_p (b, 0) K p c x m k n)).
  { intros m' k' n'. unfold nkm_col, tfor_. cbv zeta. apply keepat_tfor. intros. now apply tiles_at. }
  unfold schedule, schedule_NKM, pfor_. cbv zeta.
  apply (pmust_pfor1 _ _ 0 (Mb x) _ _ m); auto.
  { intros. unfold pfor_ne_. apply pkeepat_pfor_ne. intros. apply pkeepat_ppar. intros. apply Kat. }
  intros _. unfold pfor_ne_.
  assert (Sn : sn_end (snake (odd2 m) (Kb x)) = sn_start (snake (odd2 m) (Kb x)) + Kb x * sn_inc (snake (odd2 m) (Kb x))
     /\ sn_inc (snake (odd2 m) (Kb x)) * sn_inc (snake (odd2 m) (Kb x)) = 1).
  { unfold snake. destruct (odd2 m); cbn; lia. }
  destruct Sn as (-> & Si).
  apply (pmust_pfor_ne _ _ _ (Kb x) _ _ _ 0); auto; [lia| |].
  { intros. apply pkeepat_ppar. intros. apply Kat. }
  intros _. set (k := sn_start (snake (odd2 m) (Kb x)) + 0 * _).
  assert (Hk : 0 <= k < Kb x) by (unfold k, snake; destruct (odd2 m); cbn; lia). clearbody k. clear Si.
  set (ns := snake (inner_rev m k) (Nb x)).
  assert (Sn : exists ni, 0 <= ni < Nb x /\ sn_start ns + ni * sn_inc ns = n).
  { unfold ns, snake. destruct (inner_rev m k); cbn; [exists (Nb x - 1 - n)|exists n]; lia. }
  destruct Sn as (ni & Hni & En).
  apply (pmust_ppar1 _ _ 0 (Nb x) _ ni); auto. rewrite En.
  unfold nkm_col, tfor_. cbv zeta.
  apply (touches_tfor1 b e 0 _ _ _ 0). { pose proof (bf_pk _ _ _ _ _ _ _ _ _ F k Hk). lia. }
  intros _. apply (tiles_touch S b e _ _ _ _ _ _ _ _ _ qm qn).
  - rewrite Eu, Z.quot_mul; lia.
  - rewrite Ew, Z.quot_mul; lia.
  - unfold cake_sgemm_ukernel, padd. cbn [fst snd]. apply ukernel_touches_C. rewrite E1, E2.
    rewrite Ee. unfold o, bpos. split; [|]; ring_simplify; nia.
Qed.

End Plan.

Section Call.

Variable S : scalar.
Notation T := (elt S).

Lemma pkeeps_at {R} b i (P : prog T R) : pkeeps b P -> pkeepat b i P.
Proof.
  induction P; cbn; auto.
  - intros (H1 & H2). split; auto. intros t Ht. now apply keeps_at, H1.
  - intros (H1 & H2). split; auto.
  - intros (H1 & H2). auto.
Qed.

Lemma pack_B_keeps b B B_p K N p x c : fst B_p <> b -> pkeeps b (pack_B S B B_p K N p x c NKM).
Proof.
  intros H. unfold pack_B, pack_B_n_first. cbv zeta.
  apply pkeeps_bind; [|intros; exact I]. apply pkeeps_pfor. intros. apply pkeeps_pfor. intros.
  apply pkeeps_bind; [|intros; exact I]. apply pkeeps_ppar. intros. apply pack_ob_B_keeps. exact H.
Qed.

(** what the plan of an N-first call says *)
Lemma nf_plan F ar s M N K p c mcu kcu ncu x c1 : legal F ar s c M N K p mcu kcu ncu ->
  init_block_dims F M N K p c s mcu kcu ncu = CRet (x, c1) -> sch x = NKM ->
  bf M N K p (mr c1) (nr c1) (p * m_c x) (nf_mt x p) x /\ mr c1 = mr c /\ nr c1 = nr c /\
  0 < mr c1 /\ 0 < nr c1 /\ MR_MIN ar = mr c1 /\ NR_MIN ar = nr c1 /\
  M_padded x = round_up M (mr c) /\ N_padded x = round_up N (nr c) /\
  packed_A_size M K p x (mr c1) NKM = CRet (M_padded x * K) /\ packed_B_size K N x (nr c1) = CRet (K * N_padded x) /\
  packed_C_size M N p x (mr c1) (nr c1) NKM = CRet (M_padded x * N_padded x).
Proof.
  intros L E Ex. destruct (Prepack_facts.legal_plan _ _ _ _ _ _ _ _ _ _ _ _ _ L E) as (Hc1 & HP & Hs & Es & Hmr & Hnr & _).
  clear Es. rewrite Ex in *.
  destruct (plan_padded _ _ _ _ _ _ _ Hmr Hnr HP) as (E1 & E2). destruct (plan_sizes _ _ _ _ _ _ _ HP) as (S1 & S2 & S3).
  rewrite Ex in S1, S3.
  destruct Hs as (Emr & Enr & _). rewrite Emr in E1. rewrite Enr in E2. destruct HP as (Fb & _).
  cbn [ctx_for] in Hc1. destruct Hc1 as (C1 & C2). 
  repeat (split; [first [assumption | congruence | exact Fb]|]). exact S3.
Qed.

Lemma nf_sch F ar M N K p c mcu kcu ncu x c1 : legal F ar NKM c M N K p mcu kcu ncu ->
  init_block_dims F M N K p c NKM mcu kcu ncu = CRet (x, c1) -> sch x = NKM.
Proof.
  intros L E. destruct (Prepack_facts.legal_plan _ _ _ _ _ _ _ _ _ _ _ _ _ L E) as (_ & _ & _ & Es & _). apply Es. discriminate.
Qed.

Lemma nf_undefined F ar s q nz M N K p c al be mcu kcu ncu x c1 A B m0 :
  legal F ar s c M N K p mcu kcu ncu -> nz be = true -> 0 < M -> 0 < K ->
  init_block_dims F M N K p c s mcu kcu ncu = CRet (x, c1) -> sch x = NKM -> caller m0 M N K A B ->
  ~ n_first_C_fits M N p (mr c) (nr c) (m_c x) (n_c x) ->
  always_undefined (cake_sgemm S F ar q nz M N K p (Some c) false false al be s mcu kcu ncu) m0.
Proof.
  intros L Hnz HM HK E Ex Hc Hn.
  destruct (nf_plan F ar s M N K p c mcu kcu ncu x c1 L E Ex) as (Fb & Emr & Enr & Hmr & Hnr & R1 & R2 & E1 & E2 & S1 & S2 & S3).
  unfold n_first_C_fits in Hn. rewrite <- E1, <- E2 in Hn.
  pose proof (bf_M _ _ _ _ _ _ _ _ _ Fb) as PM. pose proof (bf_N _ _ _ _ _ _ _ _ _ Fb) as PN.
  assert (HMb : 0 < Mb x).
  { pose proof (pt_nb _ _ _ _ PM). destruct (Z.eq_dec (Mb x) 0) as [E0|E0]; [|lia]. pose proof (pt_0 _ _ _ _ PM E0).
    pose proof (bf_Mp _ _ _ _ _ _ _ _ _ Fb). lia. }
  assert (Hh : exists e, hole (Mb x) (p * m_c x) (M_padded x) (nf_mt x p) (Nb x) (N_padded x) (blk_nt x) e).
  { apply (not_shape_hole _ _ _ _ _ (n_c x) _ _ PM PN HMb). intros Hsh. apply Hn.
    apply (fits_shape _ _ _ _ _ _ _ _ PM PN HMb (bf_nc _ _ _ _ _ _ _ _ _ Fb)). exact Hsh. }
  destruct Hh as (e & He). destruct L as (Har & _ & _ & HN & _ & Hp & _).
  assert (Hlive : live m0 (BufCp 0) = None) by (destruct Hc as (_ & _ & _ & _ & _ & Ho); apply Ho; cbn; tauto).
  apply (pmust_exec (BufCp 0) e); [|intros al'; unfold load; now rewrite Hlive].
  rewrite cake_sgemm_unfold. unfold get_ctx. cbn [pbind]. unfold palloc. cbn [pbind pmust].
  split; [left; discriminate|]. rewrite E. cbn [lift pbind]. unfold sgemm_after, sgemm_rest. cbn [fst snd].
  rewrite Ex, S1, S2. cbn [lift pbind]. unfold palloc. cbn [pbind pmust]. split; [left; discriminate|].
  apply pmust_bind_r.
  { apply pkeepat_bind; [|intros; exact I]. apply pkeeps_at. apply (pack_A_keeps S M K p x c1 true). discriminate. }
  intros A_p. cbn [pmust]. split; [left; discriminate|]. apply pmust_bind_r.
  { apply pkeepat_bind; [|intros; exact I]. apply pkeeps_at. apply pack_B_keeps. discriminate. }
  intros B_p. apply pmust_bind_l. unfold sgemm_mid. rewrite Ex, S3, Hnz. cbn [lift pbind]. unfold palloc. cbn [pbind pmust].
  split; [right; reflexivity|]. apply pmust_bind_r; [now apply (pack_C_hole S M N K p x c1 Hmr Hnr Fb)|].
  intros _. apply pmust_bind_l. apply (schedule_reads S ar M N K p x c1); auto; [|apply He]. rewrite R1, R2. auto.
Qed.

(** Exactly when the call is defined. *)
Lemma nf_plus_ok F ar q nz M N K p c al be mcu kcu ncu x c1 :
  legal F ar NKM c M N K p mcu kcu ncu -> nz be = true ->
  init_block_dims F M N K p c NKM mcu kcu ncu = CRet (x, c1) ->
  n_first_C_fits M N p (mr c) (nr c) (m_c x) (n_c x) ->
  exists ord, orders K ord /\ forall A B C0 m0, caller m0 M N K A B -> holds m0 BufC M N C0 ->
    B_rim m0 N K (nr c) (k_tail K p (k_c x)) ->
    always (cake_sgemm S F ar q nz M N K p (Some c) false false al be NKM mcu kcu ncu) m0
      (fun r m' => same_ctx c r /\ holds m' BufC M N (product_plus S A B C0 ord) /\ only_C_changed m0 m' M N).
Proof.
  intros L Hnz E Hf. pose proof L as (Har & Hc0 & HM & HN & HK & Hp & Ht).
  assert (Hk : 0 < k_c x).
  { destruct (nf_plan F ar NKM M N K p c mcu kcu ncu x c1 L E (nf_sch _ _ _ _ _ _ _ _ _ _ _ _ L E)) as (Fb & _). exact (bf_kc _ _ _ _ _ _ _ _ _ Fb). }
  assert (Q1 : nz be = true -> NKM = NKM -> forall x' c3, init_block_dims F M N K p c NKM mcu kcu ncu = CRet (x', c3) ->
     n_first_C_fits M N p (mr c) (nr c) (m_c x') (n_c x')).
  { intros _ _ x' c3 E'. rewrite E in E'. injection E' as <- <-. exact Hf. }
  assert (Q2 : forall x' c3, init_block_dims F M N K p c NKM mcu kcu ncu = CRet (x', c3) ->
     0 <= k_tail K p (k_c x) <= k_tail K p (k_c x') \/ k_tail K p (k_c x) = 0).
  { intros x' c3 E'. rewrite E in E'. injection E' as <- <-. left. pose proof (k_tail_nonneg K p (k_c x) HK Hp Hk). lia. }
  destruct (cake_sgemm_ok_gen S F ar q nz M N K p (Some c) al be NKM mcu kcu ncu (k_tail K p (k_c x))
     Har Hc0 HM HN HK Hp Ht ltac:(discriminate) Q1 Q2) as (ord & c2 & H1 & H2 & _ & H3).
  exists ord. split; auto. intros A B C0 m0 Hc HC Hr. apply pok_always.
  eapply pok_mono; [apply (H3 A B C0 m0 Hc); auto|]. cbv beta.
  intros r m' (-> & E2 & E3). rewrite Hnz in E2. split; [exact H2|]. split; [exact E2|exact E3].
Qed.

Lemma C_fits_dec M' N' t nc : 0 < t -> 0 < nc -> C_fits M' N' t nc \/ ~ C_fits M' N' t nc.
Proof.
  intros Ht Hn. unfold C_fits.
  destruct (Z_le_dec N' nc), (Znumtheory.Zdivide_dec t M'), (Znumtheory.Zdivide_dec nc N'), (Z_le_dec M' t), (Z_le_dec N' (2 * nc)),
    (Z.eq_dec (t * (N' - nc)) (M' * nc)); tauto.
Qed.

Lemma nf_plus_iff F ar q nz M N K p c al be mcu kcu ncu x c1 A B C0 m0 :
  legal F ar NKM c M N K p mcu kcu ncu -> nz be = true -> 0 < M -> 0 < K ->
  init_block_dims F M N K p c NKM mcu kcu ncu = CRet (x, c1) -> caller m0 M N K A B -> holds m0 BufC M N C0 ->
  (~ pexec (cake_sgemm S F ar q nz M N K p (Some c) false false al be NKM mcu kcu ncu) m0 Undef <->
   n_first_C_fits M N p (mr c) (nr c) (m_c x) (n_c x) /\ B_rim m0 N K (nr c) (k_tail K p (k_c x))).
Proof.
  intros L Hnz HM HK E Hc HC. pose proof L as (_ & _ & _ & _ & _ & Hp & _).
  pose proof (nf_sch _ _ _ _ _ _ _ _ _ _ _ _ L E) as Ex.
  destruct (nf_plan F ar NKM M N K p c mcu kcu ncu x c1 L E Ex) as (Fb & _).
  split.
  - intros H. split.
    + destruct (C_fits_dec (round_up M (mr c)) (round_up N (nr c)) (p * m_c x) (n_c x)) as [G|G]; auto.
      * exact (bf_tM _ _ _ _ _ _ _ _ _ Fb). * exact (bf_nc _ _ _ _ _ _ _ _ _ Fb).
      * exfalso. apply H. eapply nf_undefined; eauto.
    + intros k j Hk Hj.
      assert (U : (forall bi v, live m0 BufB = Some bi -> k * N + j < blen bi -> dat m0 BufB (k * N + j) <> Some v) -> False).
      { intros Hu. apply H. eapply MN_undefined; eauto. congruence. }
      destruct (live m0 BufB) as [bi|] eqn:El; [|exfalso; apply U; congruence].
      destruct (Z_lt_le_dec (k * N + j) (blen bi)) as [Hl|Hl].
      * destruct (dat m0 BufB (k * N + j)) as [v|] eqn:Ed; [exists bi, v; auto|]. exfalso. apply U. congruence.
      * exfalso. apply U. intros bi' v E1 H1. injection E1 as <-. lia.
  - intros (Hf & Hr) Hu. destruct (nf_plus_ok F ar q nz M N K p c al be mcu kcu ncu x c1 L Hnz E Hf) as (ord & _ & G).
    destruct (G A B C0 m0 Hc HC Hr) as (_ & G2). destruct (G2 _ Hu) as (r & m' & E' & _). discriminate.
Qed.

(** ** pack_C alone *)
Lemma pack_C_hole_left F ar s M N K p c mcu kcu ncu x c1 src dst m :
  legal F ar s c M N K p mcu kcu ncu -> 0 < M ->
  init_block_dims F M N K p c s mcu kcu ncu = CRet (x, c1) -> sch x = NKM ->
  ~ n_first_C_fits M N p (mr c) (nr c) (m_c x) (n_c x) ->
  (forall i, dat m dst i = None) ->
  forall r m', pexec (pack_C S (src, 0) (dst, 0) M N p x c1 NKM) m (Done r m') ->
    ~ initialised m' dst (round_up M (mr c) * round_up N (nr c)).
Proof.
  intros L HM E Ex Hn Hd r m' He Hi.
  destruct (nf_plan F ar s M N K p c mcu kcu ncu x c1 L E Ex) as (Fb & Emr & Enr & Hmr & Hnr & R1 & R2 & E1 & E2 & _).
  unfold n_first_C_fits in Hn. rewrite <- E1, <- E2 in Hn, Hi.
  pose proof (bf_M _ _ _ _ _ _ _ _ _ Fb) as PM. pose proof (bf_N _ _ _ _ _ _ _ _ _ Fb) as PN.
  assert (HMb : 0 < Mb x).
  { pose proof (pt_nb _ _ _ _ PM). destruct (Z.eq_dec (Mb x) 0) as [E0|E0]; [|lia]. pose proof (pt_0 _ _ _ _ PM E0).
    pose proof (bf_Mp _ _ _ _ _ _ _ _ _ Fb). lia. }
  destruct (not_shape_hole _ _ _ _ _ (n_c x) _ _ PM PN HMb) as (e & Hh).
  { intros Hsh. apply Hn. apply (fits_shape _ _ _ _ _ _ _ _ PM PN HMb (bf_nc _ _ _ _ _ _ _ _ _ Fb)). exact Hsh. }
  destruct (Hi e (proj1 Hh)) as (v & Hv).
  assert (Hu : unreadable dst e m).
  { intros al. unfold load. destruct (live m dst) as [bi|]; auto. destruct (_ && _); auto. }
  pose proof (pkeepat_same dst e _ m r m' (pack_C_hole S M N K p x c1 Hmr Hnr Fb src dst e Hh) Hu (Hd e) He) as Hv'.
  congruence.
Qed.

(** with the tiles the caller gave *)
Lemma nf_tiles F ar M N K p c mcu kcu ncu : legal F ar NKM c M N K p mcu kcu ncu -> user_tiles c mcu kcu ncu ->
  exists x c1, init_block_dims F M N K p c NKM mcu kcu ncu = CRet (x, c1) /\ m_c x = mcu /\ k_c x = kcu /\ n_c x = ncu.
Proof.
  intros (Har & Hc0 & HM & HN & HK & Hp & Ht) U.
  destruct (plan_ok F ar M N K p c NKM mcu kcu ncu) as (s' & x & c1 & _ & _ & _ & Hi & _ & _ & Hu & _); auto.
  destruct (Hu U) as (E1 & E2 & E3). exists x, c1. auto.
Qed.

Lemma nf_iff_user F ar q nz M N K p c al be mcu kcu ncu A B C0 m0 :
  legal F ar NKM c M N K p mcu kcu ncu -> user_tiles c mcu kcu ncu -> nz be = true -> 0 < M -> 0 < K ->
  caller m0 M N K A B -> holds m0 BufC M N C0 ->
  (~ pexec (cake_sgemm S F ar q nz M N K p (Some c) false false al be NKM mcu kcu ncu) m0 Undef <->
   n_first_C_fits M N p (mr c) (nr c) mcu ncu /\ B_rim m0 N K (nr c) (k_tail K p kcu)).
Proof.
  intros L U Hnz HM HK Hc HC. destruct (nf_tiles F ar M N K p c mcu kcu ncu L U) as (x & c1 & E & E1 & E2 & E3).
  rewrite <- E1, <- E2, <- E3 at 2. eapply nf_plus_iff; eauto.
Qed.

(** pack_C fills its buffer exactly when the offsets agree *)
Lemma pack_C_iff F ar s c M N K p mcu kcu ncu x c1 src dst C0 m :
  legal F ar s c M N K p mcu kcu ncu -> 0 < M -> init_block_dims F M N K p c s mcu kcu ncu = CRet (x, c1) ->
  let n := round_up M (mr c) * round_up N (nr c) in
  src <> dst -> at_least m src (M * N) -> holds m src M N C0 -> exact_size m dst n -> (forall i, dat m dst i = None) ->
  (always (pack_C S (src, 0) (dst, 0) M N p x c1 (sch x)) m (fun _ m' => initialised m' dst n) <-> C_aligned (sch x) M N p c x).
Proof.
  intros L HM E n Hne Hs Hh Hd Hno. split.
  - intros (_ & Ha) Es. destruct (Prepack_facts.legal_plan _ _ _ _ _ _ _ _ _ _ _ _ _ L E) as (Hc1 & HP & Hsm & Hsc & Hmr & Hnr & _).
    rewrite Es in *. destruct HP as (Fb & _).
    destruct (C_fits_dec (round_up M (mr c)) (round_up N (nr c)) (p * m_c x) (n_c x)) as [G|G]; auto.
    + exact (bf_tM _ _ _ _ _ _ _ _ _ Fb).
    + exact (bf_nc _ _ _ _ _ _ _ _ _ Fb).
    + exfalso. pose proof (pseqexec_sound (pack_C S (src, 0) (dst, 0) M N p x c1 NKM) m) as Hx.
      destruct (Ha _ Hx) as (r & m' & Er & Hi). rewrite Er in Hx.
      eapply (pack_C_hole_left F ar s M N K p c mcu kcu ncu x c1 src dst m L HM E Es G Hno r m' Hx). exact Hi.
  - intros Ha. destruct (pack_C_exact S F ar s c M N K p mcu kcu ncu x c1 L E Ha) as (_ & G).
    eapply always_mono; [apply (G src dst C0 m); auto|]. cbv beta. tauto.
Qed.

End Call.
