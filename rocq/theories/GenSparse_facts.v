(** * The sparse kernels python/kernel_gen.py prints. *)

From Coq Require Import ZArith List Bool Permutation Lia.
From Verif Require Import Lang Lang_facts Spec ModelSizing ModelKernel ModelPack ModelSmall Kernel_facts SpecTop SpecSmall Mult_facts
  Small_facts Sparse_facts SparseAny_facts ModelGen SpecGen Gen_facts GenTab_facts ModelGenSparse.
Import ListNotations.
Open Scope Z_scope.
Open Scope thr_scope.

Local Transparent tbind tload.

(** The kernel without the break. *)
Definition sp_kernel_new (S : scalar) (al kmr knr : Z) (A B C : ptr) (m n k : Z) (nnz k_inds loc_m : iarr) : thr (elt S) unit :=
  let+ c := load_vec S 1 C (kmr * knr) in
  let rem := Z.rem k 4 in
  let k' := k - rem in
  let col := sp_column S al kmr knr A B n nnz k_inds loc_m in
  let+ st := tfor 0 k' 4 (0, c) (fun kk st =>
      let+ st := col kk st in
      let+ st := col (kk + 1) st in
      let+ st := col (kk + 2) st in
      col (kk + 3) st) in
  let+ st := tfor 0 rem 1 st (fun kk st => col (k' + kk) st) in
  store_vec S C (kmr * knr) (snd st).

Section Sim.

Variable S : scalar.
Notation T := (elt S).
Variables (t : target) (m q : Z).
Hypothesis Hm : 0 < m.
Hypothesis Hq : 0 < q.
Hypothesis Hf : forall a b c, lane_fma S t a b c = fma S a b c.

Notation w := (width t).
Notation g := (gen_kernel t m (q * w)).

Variables (A B C : ptr) (n : Z) (nnz k_inds loc_m : iarr).

Lemma mrun_fma l loc mul js rest v : loc_m loc = Some l ->
  mrun S t g C n loc_m (map (fun j => MFma mul j (j + 1)) js ++ rest) (v, loc) =
  tbind (vrun S t g C n (map (fun j => VFma (l * mul + j) (j + 1)) js) v) (fun v' => mrun S t g C n loc_m rest (v', loc)).
Proof.
  intros El. revert v. induction js as [|j js IH]; intros v; [reflexivity|].
  cbn [map app mrun vrun mstep fst snd]. unfold iget. rewrite El. cbn [tbind].
  rewrite !tbind_assoc. f_equal. apply FunctionalExtensionality.functional_extensionality. intros v'. cbn [tbind]. apply IH.
Qed.

Lemma srun_load base ki js rest v loc cnt :
  srun S t g C n nnz k_inds loc_m base (map (fun i => SLoadB (i + 1) (i * w)) js ++ rest) (SState S v loc cnt (Some ki)) =
  tbind (vrun S t g C n (map (fun i => VLoadB (i + 1) (ki + i * w)) js) v)
    (fun v' => srun S t g C n nnz k_inds loc_m base rest (SState S v' loc cnt (Some ki))).
Proof.
  revert v. induction js as [|j js IH]; intros v; [reflexivity|].
  cbn [map app srun vrun s_ind s_v s_loc s_cnt].
  rewrite tbind_assoc. f_equal. apply FunctionalExtensionality.functional_extensionality. intros v'. apply IH.
Qed.

Definition regs (c : Z -> T) (v : vstate S) : Prop :=
  forall r, 0 <= r < m * q -> exists u, v_c S v r = Some u /\ forall e, 0 <= e < w -> u e = c (r * w + e).

Definition minv (vb : Z -> option (Z -> T)) (st : Z * (Z -> T)) (y : vstate S * Z) : Prop :=
  v_A S (fst y) = padd A (fst st) /\ v_B S (fst y) = B /\ snd y = fst st /\ v_b S (fst y) = vb /\ regs (snd st) (fst y).

Definition body : list minstr :=
  MBcastA :: MFma q 0 1 :: map (fun i => MFma q i (i + 1)) (py_range 1 q 1) ++ [MNextLoc].

Lemma nonzero_sim vb (b : Z -> T) st y :
  (forall j, 0 <= j < q -> exists v, vb (j + 1) = Some v /\ forall e, 0 <= e < w -> v e = b (j * w + e)) ->
  minv vb st y ->
  tsim (minv vb) (sp_nonzero S m (q * w) A loc_m b st) (mrun S t g C n loc_m body y).
Proof.
  destruct st as [i0 c], y as [v loc]. intros Hb (HA & HB & HL & Evb & HC). cbn [fst snd] in *. subst loc.
  unfold body. change (MFma q 0 1) with ((fun i => MFma q i (i + 1)) 0). rewrite app_comm_cons, (head_range (fun i => MFma q i (i + 1))) by auto.
  cbn [mrun mstep fst snd vstep]. rewrite tbind_assoc, HA. cbn [padd fst snd]. unfold sp_nonzero, tload.
  cbn [tbind tsim tload_al]. split; [auto|split; [auto|split; [auto|]]]. intros a.
  destruct (loc_m i0) as [l|] eqn:El.
  2:{ unfold iget at 1. rewrite El. replace (Z.to_nat q) with (Datatypes.S (Z.to_nat (q - 1))) by lia.
      cbn [zseq map app mrun mstep fst snd]. unfold iget. rewrite El. exact I. }
  unfold iget. rewrite El. cbn [tbind]. rewrite (mrun_fma l i0 q _ _ _ El).
  destruct ((0 <=? l) && (l <? m)) eqn:E.
  - assert (Hl : 0 <= l < m) by lia.
    set (v1 := VState S (padd (padd A i0) 1) (v_B S v) (Some a) (v_b S v) (v_c S v)).
    destruct (fma_row S t m q Hq Hf C n l a b c v1) as (v2 & Ev & A1 & B1 & D1 & C1); auto.
    { cbn [v1 v_b]. rewrite Evb. exact Hb. }
    change (fst A, snd A + i0) with (padd A i0). fold v1. rewrite Ev. cbn [tbind mrun mstep fst snd tsim].
    cbn [v1 v_A v_B v_b] in A1, B1, D1. unfold minv. cbn [fst snd]. repeat split; auto; try congruence.
    + rewrite A1. unfold padd. cbn [fst snd]. f_equal. lia.
    + intros r Hr. destruct (C1 r Hr) as (u & E1 & E2). exists u. split; [auto|]. intros e He. rewrite E2 by auto.
      pose proof (width_pos t) as Hw.
      destruct (Z.leb_spec (l * q) r) as [L1|L1], (Z.ltb_spec r ((l + 1) * q)) as [L2|L2]; cbn [andb].
      * replace (l * (q * w) <=? r * w + e) with true by (symmetry; apply Z.leb_le; nia).
        replace (r * w + e <? (l + 1) * (q * w)) with true by (symmetry; apply Z.ltb_lt; nia). cbn [andb].
        f_equal. f_equal. lia.
      * replace (r * w + e <? (l + 1) * (q * w)) with false by (symmetry; apply Z.ltb_ge; nia). now rewrite andb_false_r.
      * replace (l * (q * w) <=? r * w + e) with false by (symmetry; apply Z.leb_gt; nia). reflexivity.
      * replace (l * (q * w) <=? r * w + e) with false by (symmetry; apply Z.leb_gt; nia). reflexivity.
  - replace (Z.to_nat q) with (Datatypes.S (Z.to_nat (q - 1))) by lia. cbn [zseq map vrun vstep].
    rewrite (dc t m q).
    replace ((0 <=? l * q + 0) && (l * q + 0 <? m * q)) with false; [exact I|].
    symmetry. apply andb_false_iff in E. apply andb_false_iff. destruct E as [E|E]; [left; apply Z.leb_gt|right; apply Z.ltb_ge]; nia.
Qed.

Definition sinv (st : Z * (Z -> T)) (x : sstate S) : Prop :=
  v_A S (s_v S x) = padd A (fst st) /\ v_B S (s_v S x) = B /\ s_loc S x = fst st /\ regs (snd st) (s_v S x).

Notation run := (srun S t g C n nnz k_inds loc_m).

(** One column, the number of its nonzeros known. *)
Lemma column_sim {X Y} (R : X -> Y -> Prop) base o c K (K' : bool * sstate S -> thr T Y) rest st x :
  sinv st x -> s_cnt S x = Some c ->
  (forall st' x', sinv st' x' -> tsim R (K st') (tbind (run base rest x') K')) ->
  tsim R (tbind (let+ ki := iget S k_inds (base + o) in
                 let+ b := load_vec S (b_align t) (padd B (n * ki)) (q * w) in
                 tfor 0 c 1 st (fun _ st => sp_nonzero S m (q * w) A loc_m b st)) K)
    (tbind (run base (SInd o :: gen_sp_inner t (q * w) ++ rest) x) K').
Proof.
  intros (HA & HB & HL & HC) Hc HK. cbn [srun]. unfold iget. destruct (k_inds (base + o)) as [ki|]; [|exact I]. cbn [tbind].
  unfold gen_sp_inner. cbv zeta. rewrite (nq t q). pose proof (width_pos t) as Hw.
  destruct (al_width t) as [Ha1 Ha2].
  change (SLoadB 1 0) with ((fun i => SLoadB (i + 1) (i * w)) 0). rewrite app_comm_cons, (head_range (fun i => SLoadB (i + 1) (i * w))) by auto.
  rewrite <- app_assoc. rewrite srun_load. rewrite !tbind_assoc.
  eapply tsim_bind.
  { apply (load_regs S t g C n (b_align t) (padd B (n * ki)) q
     (fun st i v => VState S (v_A S st) (v_B S st) (v_a S st) (upd (v_b S st) (i + 1) (Some v)) (v_c S st))
     (fun st i => v_b S st (i + 1)) (fun i => VLoadB (i + 1) (n * ki + i * w)) (s_v S x)
     (fun v' => v_A S v' = padd A (fst st) /\ v_B S v' = B /\ v_c S v' = v_c S (s_v S x))); auto.
    - lia.
    - intros st0 i (P1 & P2 & P3) Hi. unfold vstep. rewrite (db t m q), P2.
      replace ((1 <=? i + 1) && (i + 1 <=? q)) with true by (symmetry; apply andb_true_iff; split; apply Z.leb_le; lia).
      replace (padd B (n * ki + i * w)) with (padd (padd B (n * ki)) (i * w)) by (unfold padd; cbn [fst snd]; f_equal; lia). reflexivity.
    - intros. cbn. unfold upd. now rewrite Z.eqb_refl.
    - intros st0 i v r Hr. cbn. unfold upd. now replace (r + 1 =? i + 1) with false by (symmetry; apply Z.eqb_neq; lia). }
  cbn beta. intros b v1 ((P1 & P2 & P3) & Pb).
  cbn [app srun s_cnt s_v s_loc s_ind]. rewrite Hc. rewrite tbind_assoc.
  eapply tsim_bind.
  { apply (tsim_for (minv (v_b S v1))).
    - intros z st' y Hy. apply (nonzero_sim (v_b S v1) b); [exact Pb|exact Hy].
    - unfold minv. cbn [fst snd]. repeat split; auto. intros r Hr. rewrite P3. auto. }
  cbn beta. intros st' [v2 l2] (Q1 & Q2 & Q3 & Q4 & Q5). cbn [fst snd] in *. apply HK.
  unfold sinv. cbn [s_v s_loc]. auto.
Qed.

Lemma col_sim {X Y} (R : X -> Y -> Prop) base o K (K' : bool * sstate S -> thr T Y) rest st x :
  sinv st x ->
  (forall st' x', sinv st' x' -> tsim R (K st') (tbind (run base rest x') K')) ->
  tsim R (tbind (sp_column S (b_align t) m (q * w) A B n nnz k_inds loc_m (base + o) st) K)
    (tbind (run base (SCnt o :: SInd o :: gen_sp_inner t (q * w) ++ rest) x) K').
Proof.
  intros Hi HK. unfold sp_column. remember (gen_sp_inner t (q * w)) as inner. cbn [srun]. unfold iget at 1.
  destruct (nnz (base + o)) as [c|] eqn:E; [|unfold iget; rewrite E; exact I]. unfold iget at 2. rewrite E. cbn [tbind]. subst inner.
  apply (column_sim R base o c K K' rest st (SState S (s_v S x) (s_loc S x) (Some c) (s_ind S x))); auto.
Qed.

(** The three columns after the first. *)
Lemma rest_sim {X Y} (R : X -> Y -> Prop) base K (K' : bool * sstate S -> thr T Y) st x :
  sinv st x ->
  (forall st' x', sinv st' x' -> tsim R (K st') (K' (false, x'))) ->
  tsim R (tbind (sp_column S (b_align t) m (q * w) A B n nnz k_inds loc_m (base + 1) st) (fun st =>
          tbind (sp_column S (b_align t) m (q * w) A B n nnz k_inds loc_m (base + 2) st) (fun st =>
          tbind (sp_column S (b_align t) m (q * w) A B n nnz k_inds loc_m (base + 3) st) K)))
    (tbind (run base (flat_map (fun i => SCnt i :: SInd i :: gen_sp_inner t (q * w)) (py_range 1 4 1)) x) K').
Proof.
  intros Hi HK. change (py_range 1 4 1) with [1; 2; 3].
  replace (flat_map (fun i => SCnt i :: SInd i :: gen_sp_inner t (q * w)) [1; 2; 3])
    with (SCnt 1 :: SInd 1 :: gen_sp_inner t (q * w) ++ SCnt 2 :: SInd 2 :: gen_sp_inner t (q * w)
          ++ SCnt 3 :: SInd 3 :: gen_sp_inner t (q * w) ++ []) by reflexivity.
  apply col_sim; [exact Hi|]. intros s1 x1 H1.
  apply col_sim; [exact H1|]. intros s2 x2 H2.
  apply col_sim; [exact H2|]. intros s3 x3 H3. cbn [srun tbind]. now apply HK.
Qed.

Lemma tsim_bind_ret {X Y} (R : X -> Y -> Prop) (a : thr T X) (b : thr T Y) : tsim R (tbind a TRet) (tbind b TRet) -> tsim R a b.
Proof. now rewrite !tbind_ret. Qed.

Definition ginv (r : bool * (Z * (Z -> T))) (r' : bool * sstate S) : Prop := fst r = fst r' /\ sinv (snd r) (snd r').

Lemma unrolled_plain kk r r' : ginv r r' ->
  tsim ginv (let '(stop, st) := r in
      if stop then TRet r
      else
        let+ m_cnt := iget S nnz kk in
        if m_cnt =? 0 then TRet (true, st)
        else
          let+ st := sp_column S (b_align t) m (q * w) A B n nnz k_inds loc_m kk st in
          let+ st := sp_column S (b_align t) m (q * w) A B n nnz k_inds loc_m (kk + 1) st in
          let+ st := sp_column S (b_align t) m (q * w) A B n nnz k_inds loc_m (kk + 2) st in
          let+ st := sp_column S (b_align t) m (q * w) A B n nnz k_inds loc_m (kk + 3) st in
          TRet (false, st))
    (if fst r' then TRet r' else run kk (gen_sp_unrolled t (q * w) false) (snd r')).
Proof.
  destruct r as [stop st], r' as [stop' x]. intros (E & Hi). cbn [fst snd] in *. subst stop'.
  destruct stop; [split; auto|]. unfold gen_sp_unrolled. cbn [app].
  remember (gen_sp_inner t (q * w)) as inner. cbn [srun s_cnt].
  replace (iget S nnz (kk + 0)) with (iget S nnz kk) by now rewrite Z.add_0_r.
  destruct (nnz kk) as [c|] eqn:Ec; [|unfold iget; rewrite Ec; exact I]. assert (Ei : iget S nnz kk = TRet c) by (unfold iget; now rewrite Ec).
  rewrite !Ei. cbn [tbind s_cnt].
  destruct (c =? 0); [split; auto|]. unfold sp_column at 1. rewrite Ei. cbn [tbind].
  subst inner. set (x1 := SState S (s_v S x) (s_loc S x) (Some c) (s_ind S x)).
  change (tsim ginv (tbind (let+ ki := iget S k_inds kk in
                 let+ b := load_vec S (b_align t) (padd B (n * ki)) (q * w) in
                 tfor 0 c 1 st (fun _ st => sp_nonzero S m (q * w) A loc_m b st))
      (fun st => tbind (sp_column S (b_align t) m (q * w) A B n nnz k_inds loc_m (kk + 1) st) (fun st =>
          tbind (sp_column S (b_align t) m (q * w) A B n nnz k_inds loc_m (kk + 2) st) (fun st =>
          tbind (sp_column S (b_align t) m (q * w) A B n nnz k_inds loc_m (kk + 3) st) (fun st => TRet (false, st))))))
    (run kk (SInd 0 :: gen_sp_inner t (q * w) ++ flat_map (fun i => SCnt i :: SInd i :: gen_sp_inner t (q * w)) (py_range 1 4 1)) x1)).
  rewrite <- (tbind_ret (run kk _ x1)). rewrite <- (Z.add_0_r kk) at 1.
  apply column_sim; [exact Hi|reflexivity|]. intros s1 x2 H1. apply rest_sim; [exact H1|].
  intros s2 x3 H2. split; auto.
Qed.

Lemma unrolled_new kk st r' : ginv (false, st) r' ->
  tsim (fun st r' => ginv (false, st) r')
    (let+ st := sp_column S (b_align t) m (q * w) A B n nnz k_inds loc_m kk st in
     let+ st := sp_column S (b_align t) m (q * w) A B n nnz k_inds loc_m (kk + 1) st in
     let+ st := sp_column S (b_align t) m (q * w) A B n nnz k_inds loc_m (kk + 2) st in
     sp_column S (b_align t) m (q * w) A B n nnz k_inds loc_m (kk + 3) st)
    (if fst r' then TRet r' else run kk (gen_sp_unrolled t (q * w) true) (snd r')).
Proof.
  destruct r' as [stop' x]. intros (E & Hi). cbn [fst snd] in *. subst stop'.
  unfold gen_sp_unrolled. cbn [app]. rewrite <- (tbind_ret (run kk _ x)). rewrite <- (Z.add_0_r kk) at 1.
  apply col_sim; [exact Hi|]. intros s1 x1 H1.
  replace (fun st => let+ st := sp_column S (b_align t) m (q * w) A B n nnz k_inds loc_m (kk + 2) st in
     sp_column S (b_align t) m (q * w) A B n nnz k_inds loc_m (kk + 3) st)
   with (fun st => let+ st := sp_column S (b_align t) m (q * w) A B n nnz k_inds loc_m (kk + 2) st in
     tbind (sp_column S (b_align t) m (q * w) A B n nnz k_inds loc_m (kk + 3) st) TRet).
  2:{ apply FunctionalExtensionality.functional_extensionality. intros s. f_equal.
      apply FunctionalExtensionality.functional_extensionality. intros s'. apply tbind_ret. }
  apply rest_sim; [exact H1|]. intros s2 x3 H2. split; auto.
Qed.

Lemma left_sim kk st r' : ginv (false, st) r' ->
  tsim (fun st r' => ginv (false, st) r')
    (sp_column S (b_align t) m (q * w) A B n nnz k_inds loc_m kk st)
    (if fst r' then TRet r' else run kk (gen_sp_left t (q * w)) (snd r')).
Proof.
  destruct r' as [stop' x]. intros (E & Hi). cbn [fst snd] in *. subst stop'. apply tsim_bind_ret.
  unfold gen_sp_left. rewrite <- (Z.add_0_r kk) at 1. rewrite <- (app_nil_r (gen_sp_inner t (q * w))).
  apply col_sim; [exact Hi|]. intros s1 x1 H1. cbn [srun tbind tsim]. split; auto.
Qed.

(** The declarations are those of the dense kernel. *)
Lemma frame_v cp i st : vstep S t (sp_frame (gen_sparse t m (q * w) cp)) C n i st = vstep S t g C n i st.
Proof. destruct i; reflexivity. Qed.

Lemma frame_vrun cp l st : vrun S t (sp_frame (gen_sparse t m (q * w) cp)) C n l st = vrun S t g C n l st.
Proof.
  revert st. induction l as [|i l IH]; intros st; [reflexivity|]. cbn [vrun]. rewrite frame_v. f_equal.
  apply FunctionalExtensionality.functional_extensionality. auto.
Qed.

Lemma frame_mrun cp l y : mrun S t (sp_frame (gen_sparse t m (q * w) cp)) C n loc_m l y = mrun S t g C n loc_m l y.
Proof.
  revert y. induction l as [|i l IH]; intros y; [reflexivity|]. cbn [mrun].
  replace (mstep S t (sp_frame (gen_sparse t m (q * w) cp)) C n loc_m i y) with (mstep S t g C n loc_m i y) by (destruct i; reflexivity).
  f_equal. apply FunctionalExtensionality.functional_extensionality. auto.
Qed.

Lemma frame_srun cp base l x :
  srun S t (sp_frame (gen_sparse t m (q * w) cp)) C n nnz k_inds loc_m base l x = run base l x.
Proof.
  revert x. induction l as [|i l IH]; intros x; [reflexivity|]. cbn [srun].
  assert (E : srun S t (sp_frame (gen_sparse t m (q * w) cp)) C n nnz k_inds loc_m base l = run base l)
    by (apply FunctionalExtensionality.functional_extensionality; exact IH).
  destruct i; rewrite E.
  - reflexivity.
  - reflexivity.
  - reflexivity.
  - destruct (s_ind S x); [|reflexivity]. now rewrite frame_v.
  - destruct (s_cnt S x); [|reflexivity]. f_equal. f_equal. apply FunctionalExtensionality.functional_extensionality. intros z'.
    apply FunctionalExtensionality.functional_extensionality. intros y. apply frame_mrun.
Qed.

Lemma loop_frame cp lo hi step s f l :
  tfor lo hi step s (fun kk (r : bool * sstate S) =>
      if fst r then TRet r else srun S t (sp_frame (gen_sparse t m (q * w) cp)) C n nnz k_inds loc_m (f kk) l (snd r)) =
  tfor lo hi step s (fun kk (r : bool * sstate S) => if fst r then TRet r else run (f kk) l (snd r)).
Proof.
  f_equal. apply FunctionalExtensionality.functional_extensionality. intros kk.
  apply FunctionalExtensionality.functional_extensionality. intros r. now rewrite frame_srun.
Qed.

Lemma start_ok c v : inv S t m q (A, B, c) v -> sinv (0, c) (SState S v 0 None None).
Proof.
  intros (H1 & H2 & H3). cbn [fst snd] in *. unfold sinv. cbn [s_v s_loc fst snd]. repeat split; auto.
  rewrite H1. unfold padd. destruct A. cbn [fst snd]. f_equal. lia.
Qed.

Lemma end_ok st x : sinv st x -> inv S t m q (padd A (fst st), B, snd st) (s_v S x).
Proof. intros (H1 & H2 & _ & H3). split; [exact H1|split; [exact H2|exact H3]]. Qed.

Theorem plain_sim mm k :
  run_sparse S t (gen_sparse t m (q * w) false) A B C mm n k nnz k_inds loc_m =
  sp_kernel S (b_align t) m (q * w) A B C mm n k nnz k_inds loc_m.
Proof.
  symmetry. apply tsim_eq. unfold run_sparse, sp_kernel. cbv zeta.
  rewrite frame_vrun. change (src_load (sp_frame (gen_sparse t m (q * w) false))) with (gen_C_load t m (q * w)).
  change (src_store (sp_frame (gen_sparse t m (q * w) false))) with (gen_C_store t m (q * w)).
  change (sp_unrolled (gen_sparse t m (q * w) false)) with (gen_sp_unrolled t (q * w) false).
  change (sp_left (gen_sparse t m (q * w) false)) with (gen_sp_left t (q * w)).
  eapply tsim_bind; [apply load_C; auto|]. cbn beta. intros c v H. apply start_ok in H.
  rewrite (loop_frame false _ _ _ _ (fun kk => kk)).
  eapply tsim_bind; [apply (tsim_for ginv); [|split; [reflexivity|exact H]]; intros; now apply unrolled_plain|].
  cbn beta. intros r r' (_ & H1).
  rewrite (loop_frame false _ _ _ _ (fun kk => k - Z.rem k 4 + kk)).
  eapply tsim_bind; [apply (tsim_for (fun st r' => ginv (false, st) r')); [|split; [reflexivity|exact H1]]; intros; now apply left_sim|].
  cbn beta. intros st2 r2 (_ & H2). cbn [fst snd] in H2. rewrite frame_vrun.
  rewrite <- (tbind_ret (store_vec _ _ _ _)).
  eapply tsim_bind; [apply (store_C S t m q Hm Hq C n _ _ (end_ok _ _ H2))|]. intros [] ? _. reflexivity.
Qed.

Theorem new_sim mm k :
  run_sparse S t (gen_sparse t m (q * w) true) A B C mm n k nnz k_inds loc_m =
  sp_kernel_new S (b_align t) m (q * w) A B C mm n k nnz k_inds loc_m.
Proof.
  symmetry. apply tsim_eq. unfold run_sparse, sp_kernel_new. cbv zeta.
  rewrite frame_vrun. change (src_load (sp_frame (gen_sparse t m (q * w) true))) with (gen_C_load t m (q * w)).
  change (src_store (sp_frame (gen_sparse t m (q * w) true))) with (gen_C_store t m (q * w)).
  change (sp_unrolled (gen_sparse t m (q * w) true)) with (gen_sp_unrolled t (q * w) true).
  change (sp_left (gen_sparse t m (q * w) true)) with (gen_sp_left t (q * w)).
  eapply tsim_bind; [apply load_C; auto|]. cbn beta. intros c v H. apply start_ok in H.
  rewrite (loop_frame true _ _ _ _ (fun kk => kk)).
  eapply tsim_bind; [apply (tsim_for (fun st r' => ginv (false, st) r')); [|split; [reflexivity|exact H]]; intros; now apply unrolled_new|].
  cbn beta. intros r r' (_ & H1).
  rewrite (loop_frame true _ _ _ _ (fun kk => k - Z.rem k 4 + kk)).
  eapply tsim_bind; [apply (tsim_for (fun st r' => ginv (false, st) r')); [|split; [reflexivity|exact H1]]; intros; now apply left_sim|].
  cbn beta. intros st2 r2 (_ & H2). cbn [fst snd] in H2. rewrite frame_vrun.
  rewrite <- (tbind_ret (store_vec _ _ _ _)).
  eapply tsim_bind; [apply (store_C S t m q Hm Hq C n _ _ (end_ok _ _ H2))|]. intros [] ? _. reflexivity.
Qed.

End Sim.

(** ** What the kernel without the break computes *)
Section New.

Variable S : scalar.
Notation T := (elt S).

Variables (al kmr knr : Z) (ab bb cb : buf) (ao bo co n k : Z).
Variables (nnz k_inds loc_m : Z -> option Z) (cols : Z -> list (Z * T)) (kind : Z -> Z).
Variables (fb fc : Z -> Z -> T) (m : mem T).
Hypothesis Hal0 : 0 < al.
Hypothesis Hkm : 0 < kmr.
Hypothesis Hkn : 0 < knr.
Hypothesis Hk : 0 <= k.
Hypothesis HA : compressed m ab ao nnz k_inds loc_m kmr k cols kind.
Hypothesis HB : forall t s, 0 <= t < k -> 0 <= s < knr -> cell m bb (bo + n * kind t + s) (fb (kind t) s).
Hypothesis Hal : al = 1 \/ bo mod al = 0 /\ n mod al = 0 /\ exists bi, live m bb = Some bi /\ b64 bi = true.
Hypothesis HC : row_stored m cb co knr kmr knr fc.

Notation Sinv := (Sinv S kmr knr cols kind fb fc m).

Lemma column_step W t st : 0 <= t < k -> Sinv t st m ->
  twp W rall (sp_column S al kmr knr (ab, ao) (bb, bo) n nnz k_inds loc_m t st) (Sinv (t + 1)) m.
Proof.
  intros Ht H.
  exact (column_spec S al kmr knr ab bb ao bo n k nnz k_inds loc_m cols kind fb fc m Hal0 Hkn HA HB Hal W t st Ht H).
Qed.

Lemma sp_new_spec mm :
  twp (tile_reg cb co knr kmr knr) rall
    (sp_kernel_new S al kmr knr (ab, ao) (bb, bo) (cb, co) mm n k nnz k_inds loc_m)
    (fun _ m' => forall r s, 0 <= r < kmr -> 0 <= s < knr ->
       dat m' cb (co + r * knr + s) = Some (sparse_dot S cols kind fb r s (zrange 0 k) (fc r s))) m.
Proof.
  destruct (HC 0 0) as (bc & Lc & C0 & _); [lia|lia|]. destruct (HC (kmr - 1) (knr - 1)) as (bc' & L' & C1 & _); [lia|lia|].
  rewrite Lc in L'. injection L' as <-.
  unfold sp_kernel_new. apply twp_bind.
  eapply twp_mono.
  { eapply (load_vec_spec S _ rall 1 (cb, co) (kmr * knr) (fun e => fc (e / knr) (e mod knr)) bc m); cbn [fst snd]; auto; try nia.
    intros j Hj. split; [left; exact I|].
    replace (co + j) with (co + (j / knr) * knr + j mod knr) by (rewrite (Z.div_mod j knr) at 3; lia).
    pose proof (Z.mod_pos_bound j knr ltac:(lia)).
    destruct (HC (j / knr) (j mod knr)) as (? & _ & _ & E); auto.
    split; [apply Z.div_pos; lia|apply Z.div_lt_upper_bound; lia]. }
  cbv beta. intros c m' (-> & Hc).
  assert (I0 : Sinv 0 (0, c) m).
  { split; [auto|split; [reflexivity|]]. cbn [snd]. intros i j Hi Hj. rewrite Hc by nia.
    unfold sparse_dot. change (zrange 0 0) with (@nil Z). cbn [fold_left].
    replace ((i * knr + j) / knr) with i by (apply (Z.div_unique _ _ _ j); lia).
    replace ((i * knr + j) mod knr) with j by (apply (Z.mod_unique _ _ i); lia). reflexivity. }
  assert (Hrem : 0 <= Z.rem k 4 < 4) by (apply Z.rem_bound_pos; lia).
  assert (Hq : k - Z.rem k 4 = 0 + Z.quot k 4 * 4) by (pose proof (Z.quot_rem' k 4); lia).
  assert (Hq0 : 0 <= Z.quot k 4) by (apply Z.quot_pos; lia).
  cbv zeta. apply twp_bind.
  eapply (twp_tfor _ rall (fun g r m' => Sinv (g * 4) r m') _ 0 (k - Z.rem k 4) 4 (Z.quot k 4)); auto; [lia| |].
  - intros g st m' Hg HI _ _. pose proof HI as (-> & _). rewrite Z.add_0_l.
    apply twp_bind. eapply twp_mono; [apply (column_step _ (g * 4)); [lia|exact HI]|].
    intros st1 m1 H1. pose proof H1 as (-> & _).
    apply twp_bind. eapply twp_mono; [apply (column_step _ (g * 4 + 1)); [lia|exact H1]|].
    intros st2 m2 H2. pose proof H2 as (-> & _).
    apply twp_bind. eapply twp_mono; [apply (column_step _ (g * 4 + 2)); [lia|]; now replace (g * 4 + 2) with (g * 4 + 1 + 1) by lia|].
    intros st3 m3 H3. pose proof H3 as (-> & _).
    eapply twp_mono; [apply (column_step _ (g * 4 + 3)); [lia|]; now replace (g * 4 + 3) with (g * 4 + 2 + 1) by lia|].
    intros st4 m4 H4. replace ((g + 1) * 4) with (g * 4 + 3 + 1) by lia. exact H4.
  - intros st m' HI _ _. pose proof HI as (-> & _). apply twp_bind.
    eapply (twp_tfor1 _ rall (fun i => Sinv (Z.quot k 4 * 4 + i))); [lia| | |].
    + now rewrite Z.add_0_r.
    + intros i st' m' Hi HI' _ _. pose proof HI' as (-> & _).
      replace (k - Z.rem k 4 + i) with (Z.quot k 4 * 4 + i) by lia.
      eapply twp_mono; [apply column_step; [lia|exact HI']|].
      intros st1 m1 H1. rewrite Z.add_assoc. exact H1.
    + intros st' m' HI' _ _. pose proof HI' as (-> & _ & Hfin).
      replace (Z.quot k 4 * 4 + Z.rem k 4) with k in Hfin by lia.
      eapply twp_call.
      * eapply (store_vec_spec S (cb, co) (kmr * knr) (snd st') bc m); cbn [fst snd]; auto; nia.
      * cbn [fst snd]. intros b x (-> & Hx). split; [reflexivity|].
        exists ((x - co) / knr), ((x - co) mod knr).
        pose proof (Z.mod_pos_bound (x - co) knr ltac:(lia)). pose proof (Z.div_mod (x - co) knr ltac:(lia)).
        split; [split; [apply Z.div_pos; lia|apply Z.div_lt_upper_bound; lia]|split; lia].
      * intros b x [].
      * cbn [fst snd]. intros [] m1 HS _ _ r s Hr Hs. replace (co + r * knr + s) with (co + (r * knr + s)) by lia.
        rewrite HS by nia. now rewrite Hfin.
Qed.

End New.

(** ** The generated functions *)

Lemma run_plain S t m n A B C mm nn k nnz k_inds loc_m : (t = Armv8 -> commutes S) -> 0 < m -> 0 < n -> (width t | n) ->
  run_sparse S t (gen_sparse t m n false) A B C mm nn k nnz k_inds loc_m =
  sp_kernel S (b_align t) m n A B C mm nn k nnz k_inds loc_m.
Proof.
  intros Hc Hm Hn (q & ->). pose proof (width_pos t). apply plain_sim; [lia|nia|now apply fma_ok].
Qed.

Lemma run_new S t m n A B C mm nn k nnz k_inds loc_m : (t = Armv8 -> commutes S) -> 0 < m -> 0 < n -> (width t | n) ->
  run_sparse S t (gen_sparse t m n true) A B C mm nn k nnz k_inds loc_m =
  sp_kernel_new S (b_align t) m n A B C mm nn k nnz k_inds loc_m.
Proof.
  intros Hc Hm Hn (q & ->). pose proof (width_pos t). apply new_sim; [lia|nia|now apply fma_ok].
Qed.

Lemma al0 t : 0 < b_align t.
Proof. destruct t; reflexivity. Qed.

Lemma new_ok S t m n (a b c : buf) ao bo co mm nn k nnz k_inds loc_m (cols : Z -> list (Z * elt S)) kind B C (m0 : mem (elt S)) :
  (t = Armv8 -> commutes S) -> 0 < m -> 0 < n -> (width t | n) -> 0 <= k ->
  compressed m0 a ao nnz k_inds loc_m m k cols kind ->
  (forall u s, 0 <= u < k -> 0 <= s < n -> cell m0 b (bo + nn * kind u + s) (B (kind u) s)) ->
  b_align t = 1 \/ bo mod b_align t = 0 /\ nn mod b_align t = 0 /\ (exists bi, live m0 b = Some bi /\ b64 bi = true) ->
  row_stored m0 c co n m n C ->
  turns_tile_into (ppar_for 0 1 1 (fun _ =>
      run_sparse S t (gen_sparse t m n true) (a, ao) (b, bo) (c, co) mm nn k nnz k_inds loc_m))
    m0 c co n m n (fun r s => sparse_dot S cols kind B r s (zrange 0 k) (C r s)).
Proof.
  intros Hc Hm Hn Hd Hk HA HB Ha HC. rewrite run_new by auto. apply one_thread.
  exact (sp_new_spec S (b_align t) m n a b c ao bo co nn k nnz k_inds loc_m cols kind B C m0 (al0 t) Hm Hn Hk HA HB Ha HC mm).
Qed.

Lemma plain_any S t m n (a b c : buf) ao bo co mm nn k nnz k_inds loc_m (cols : Z -> list (Z * elt S)) kind B C (m0 : mem (elt S)) :
  (t = Armv8 -> commutes S) -> 0 < m -> 0 < n -> (width t | n) -> 0 <= k ->
  compressed m0 a ao nnz k_inds loc_m m k cols kind ->
  (forall u s, 0 <= u < k -> 0 <= s < n -> cell m0 b (bo + nn * kind u + s) (B (kind u) s)) ->
  b_align t = 1 \/ bo mod b_align t = 0 /\ nn mod b_align t = 0 /\ (exists bi, live m0 b = Some bi /\ b64 bi = true) ->
  row_stored m0 c co n m n C ->
  turns_tile_into (ppar_for 0 1 1 (fun _ =>
      run_sparse S t (gen_sparse t m n false) (a, ao) (b, bo) (c, co) mm nn k nnz k_inds loc_m))
    m0 c co n m n (fun r s => sparse_used S cols kind B r s k (C r s)).
Proof.
  intros Hc Hm Hn Hd Hk HA HB Ha HC. rewrite run_plain by auto. apply sparse_any; auto. apply al0.
Qed.

Lemma plain_ok S t m n (a b c : buf) ao bo co mm nn k nnz k_inds loc_m (cols : Z -> list (Z * elt S)) kind B C (m0 : mem (elt S)) :
  (t = Armv8 -> commutes S) -> 0 < m -> 0 < n -> (width t | n) -> 0 <= k ->
  compressed m0 a ao nnz k_inds loc_m m k cols kind -> none_skipped cols k ->
  (forall u s, 0 <= u < k -> 0 <= s < n -> cell m0 b (bo + nn * kind u + s) (B (kind u) s)) ->
  b_align t = 1 \/ bo mod b_align t = 0 /\ nn mod b_align t = 0 /\ (exists bi, live m0 b = Some bi /\ b64 bi = true) ->
  row_stored m0 c co n m n C ->
  turns_tile_into (ppar_for 0 1 1 (fun _ =>
      run_sparse S t (gen_sparse t m n false) (a, ao) (b, bo) (c, co) mm nn k nnz k_inds loc_m))
    m0 c co n m n (fun r s => sparse_dot S cols kind B r s (zrange 0 k) (C r s)).
Proof.
  intros. eapply turns_tile_eq; [|apply plain_any with (cols := cols) (kind := kind) (B := B) (C := C); auto].
  intros. now apply sparse_used_all.
Qed.

(** ** The tables *)

Lemma sp_lookup_app f f' new i j :
  sp_lookup (f ++ f') new i j = match sp_lookup f new i j with Some s => Some s | None => sp_lookup f' new i j end.
Proof.
  induction f as [|[[[b a] c] s] f IH]; [reflexivity|]. cbn [app sp_lookup]. destruct (_ && _); auto.
Qed.

Lemma sp_lookup_row t new new' i l a b :
  sp_lookup (map (fun j => ((new, i, j), gen_sparse t i j new)) l) new' a b =
  if Bool.eqb new new' && (i =? a) && existsb (Z.eqb b) l then Some (gen_sparse t a b new') else None.
Proof.
  induction l as [|j l IH]; [now rewrite andb_false_r|]. cbn [map sp_lookup existsb]. rewrite IH.
  destruct (Bool.eqb new new') eqn:E0; cbn [andb]; [|reflexivity]. apply eqb_prop in E0. subst new'.
  destruct (Z.eqb_spec i a) as [->|]; cbn [andb]; [|reflexivity].
  rewrite (Z.eqb_sym b j). destruct (Z.eqb_spec j b) as [->|]; reflexivity.
Qed.

Lemma sp_lookup_all t new new' js is a b :
  sp_lookup (flat_map (fun i => map (fun j => ((new, i, j), gen_sparse t i j new)) js) is) new' a b =
  if Bool.eqb new new' && existsb (Z.eqb a) is && existsb (Z.eqb b) js then Some (gen_sparse t a b new') else None.
Proof.
  induction is as [|i is IH]; [now rewrite andb_false_r|]. cbn [flat_map existsb]. rewrite sp_lookup_app, sp_lookup_row, IH.
  rewrite (Z.eqb_sym i a). destruct (Bool.eqb new new'), (a =? i), (existsb (Z.eqb a) is), (existsb (Z.eqb b) js); reflexivity.
Qed.

Lemma in_range a b c i : 0 < c -> 0 <= i < Z.of_nat (length (py_range a b c)) -> existsb (Z.eqb (a + i * c)) (py_range a b c) = true.
Proof.
  intros Hc Hi. apply existsb_exists. exists (a + i * c). split; [|apply Z.eqb_refl].
  unfold py_range in *. rewrite zseq_length in Hi. revert Hi. generalize (loop_count a b c) as z. intros z Hi.
  rewrite <- (Z2Nat.id i) by lia. assert (Z.to_nat i < z)%nat by lia. clear Hi.
  revert a z H. generalize (Z.to_nat i) as u. induction u as [|u IH]; intros a z Hu.
  - destruct z; [lia|]. cbn [zseq]. left. lia.
  - destruct z; [lia|]. cbn [zseq]. right. replace (a + Z.of_nat (Datatypes.S u) * c) with (a + c + Z.of_nat u * c) by lia.
    apply IH. lia.
Qed.

Lemma sp_defined t ml nl new i j :
  0 <= i < h_rows (gen_header t ml nl) -> 0 <= j < h_cols (gen_header t ml nl) ->
  sp_lookup (gen_sp_file t ml nl) new (start_m t + i * fact_m t) (start_n t + j * fact_n t) =
  Some (gen_sparse t (start_m t + i * fact_m t) (start_n t + j * fact_n t) new).
Proof.
  intros Hi Hj. unfold gen_sp_file. cbv zeta. rewrite sp_lookup_app, !sp_lookup_all.
  rewrite !in_range; [|destruct t; reflexivity|exact Hj|destruct t; reflexivity|exact Hi].
  destruct new; reflexivity.
Qed.

(** The kernel the table is meant to hold. *)
Definition sp_kernel_map (S : scalar) (t : target) (h : header) (new : bool) (i j : Z) (A B C : ptr) (m n k : Z)
    (nnz k_inds loc_m : iarr) : thr (elt S) unit :=
  if (0 <=? i) && (i <? h_rows h) && (0 <=? j) && (j <? h_cols h) then
    (if new then sp_kernel_new else sp_kernel) S (b_align t) (start_m t + i * 2) (start_n t + j * fact_n t)
      A B C m n k nnz k_inds loc_m
  else TFail.

Lemma call_sp_ok S t ml nl new i j A B C m n k nnz k_inds loc_m : (t = Armv8 -> commutes S) ->
  call_sp S t ml nl new i j A B C m n k nnz k_inds loc_m =
  sp_kernel_map S t (gen_header t ml nl) new i j A B C m n k nnz k_inds loc_m.
Proof.
  intros Hc. unfold call_sp, sp_kernel_map. cbv zeta. cbn [gen_sp_header sh_map sh_map_new].
  replace (if new then gen_header t ml nl else gen_header t ml nl) with (gen_header t ml nl) by (destruct new; reflexivity).
  rewrite entry_at. destruct ((0 <=? i) && _ && _ && _) eqn:E; [|reflexivity].
  rewrite !andb_true_iff, !Z.leb_le, !Z.ltb_lt in E. destruct E as [[[E1 E2] E3] E4].
  assert (P1 : 0 < start_m t + i * fact_m t) by (destruct t; unfold fact_m, start_m; lia).
  assert (P2 : 0 < start_n t + j * fact_n t) by (destruct t; unfold fact_n, start_n; lia).
  rewrite sp_defined by auto. destruct new; [apply run_new|apply run_plain]; auto; apply width_div.
Qed.

Lemma sp_table S t ml nl new i j A B C m n k nnz k_inds loc_m :
  let h := gen_header t ml nl in
  (0 <= i < h_rows h -> 0 <= j < h_cols h ->
   call_sp S t ml nl new i j A B C m n k nnz k_inds loc_m =
   run_sparse S t (gen_sparse t (start_m t + i * 2) (start_n t + j * fact_n t) new) A B C m n k nnz k_inds loc_m) /\
  (~ (0 <= i < h_rows h /\ 0 <= j < h_cols h) ->
   call_sp S t ml nl new i j A B C m n k nnz k_inds loc_m = TFail).
Proof.
  intros h. unfold call_sp. cbv zeta. cbn [gen_sp_header sh_map sh_map_new].
  replace (if new then gen_header t ml nl else gen_header t ml nl) with (gen_header t ml nl) by (destruct new; reflexivity).
  rewrite entry_at. fold h. split.
  - intros Hi Hj. replace ((0 <=? i) && (i <? h_rows h) && (0 <=? j) && (j <? h_cols h)) with true.
    2:{ symmetry. rewrite !andb_true_iff, !Z.leb_le, !Z.ltb_lt. lia. }
    now rewrite sp_defined.
  - intros H. destruct ((0 <=? i) && _ && _ && _) eqn:E; [|reflexivity].
    rewrite !andb_true_iff, !Z.leb_le, !Z.ltb_lt in E. exfalso. apply H. lia.
Qed.
