(** * The same for the two-dimensional grids. *)

From Coq Require Import ZArith List Bool Lia.
From Verif Require Import Lang Lang_facts ModelSizing ModelKernel ModelPack ModelSched ModelTop Spec SpecTop SpecOnline
  Sizing_facts Grid2_facts Grid_tab_facts Top2d_facts Keep_facts Stale_facts Resid_facts.
Import ListNotations.
Open Scope Z_scope.

Lemma grid_2d_dims F rows c M N K p mcu kcu ncu :
  0 < mr c -> 0 < nr c -> 0 < M -> 0 < N -> 0 <= K -> 0 < p ->
  grid_exists F M N p (ncores c) rows -> tiles_2d F c mcu kcu ncu ->
  exists x, init_block_dims_2d F M N K p rows c KMN mcu kcu ncu = CRet x /\ g2_facts M N K p (mr c) (nr c) x.
Proof.
  intros Hmr Hnr HM HN HK Hp (G1 & G2 & G3) Ht.
  destruct (grid_def F M N p (ncores c) rows ltac:(lia) Hp G2) as (D1 & D2). rewrite (want_aim F M N p Hp G2) in *.
  destruct (proj2 D1 (conj G1 G3)) as (v & Ev). destruct (D2 v Ev) as (Hv & _).
  assert (Hmk : 0 < fst (mk2d F c mcu kcu ncu) /\ (mr c | fst (mk2d F c mcu kcu ncu)) /\ 0 < snd (mk2d F c mcu kcu ncu)).
  { unfold mk2d, truthy. destruct Ht as [(T1 & T2 & T3 & T4)|(T0 & T1 & T2)].
    - rewrite (proj2 (Z.eqb_neq mcu 0)), (proj2 (Z.eqb_neq ncu 0)), (proj2 (Z.eqb_neq kcu 0)) by lia. cbn. auto.
    - replace (negb (mcu =? 0) && negb (ncu =? 0) && negb (kcu =? 0)) with false.
      2:{ destruct T0 as [-> | [-> | ->]]; cbn; now rewrite ?andb_false_r. }
      cbn [fst snd]. set (a := fp_mc2d F (nr c) (L2 c)) in *.
      pose proof (Z.quot_rem a (mr c) ltac:(lia)) as Q. pose proof (Z.rem_bound_pos a (mr c) ltac:(lia) Hmr) as B.
      assert (1 <= Z.quot a (mr c)) by (apply Z.quot_le_lower_bound; lia).
      split; [nia|split; [|auto]]. exists (Z.quot a (mr c)). lia. }
  destruct Hmk as (K1 & K2 & K3).
  destruct (dims_2d_ok F M N K p rows c mcu kcu ncu v) as (x & Ex & Fx & _); auto; try lia.
  exists x. auto.
Qed.

Section G2.

Variable S : scalar.
Notation T := (elt S).
Variables (ar : arch) (M N K p m_r n_r : Z) (m0 : mem T).
Hypothesis HN : 0 < N.
Hypothesis Hmr : 0 < m_r.
Hypothesis Hnr : 0 < n_r.
Notation I := (Ir S N m_r n_r (MR_MIN ar * NR_MIN ar) m0).

Lemma keep_alloc_Cp n : pkeep I (alloc_Cp S p n) (fun _ => True).
Proof. unfold alloc_Cp, pfor_. apply pkeep_any; [|auto]. intros i _ _. apply pkeep_alloc; [cbn; auto|auto]. Qed.

Lemma keep_free_Cp : pkeep I (free_Cp S p) (fun _ => True).
Proof. unfold free_Cp, pfor_. apply pkeep_any; [|auto]. intros i _ _. apply pkeep_free; [discriminate|auto]. Qed.

Lemma keep_clear core n : tkeep I (memset0 S (BufCp core, 0) n) (fun _ => True).
Proof. apply keep_memset0. intros. cbn. auto. Qed.

Lemma core_split x n m core : g2_facts M N K p m_r n_r x -> 0 <= n < Nb x -> 0 <= m < Mb x ->
  0 <= core < g2_pum x m * g2_pun x n ->
  0 <= Z.quot core (g2_pun x n) < g2_pum x m /\ 0 <= Z.rem core (g2_pun x n) < g2_pun x n.
Proof.
  intros H Hn Hm Hc. pose proof (df_pu _ _ _ _ _ _ _ _ _ _ _ (gf_N _ _ _ _ _ _ _ H) n Hn) as B.
  set (w := g2_pun x n) in *. set (h := g2_pum x m) in *.
  pose proof (Z.rem_bound_pos core w ltac:(lia) ltac:(lia)). pose proof (Z.quot_rem core w ltac:(lia)).
  assert (0 <= Z.quot core w) by (apply Z.quot_pos; lia). split; [nia|lia].
Qed.

Lemma dim_off D g t r nb pad Dp pu mcb mx mt b : dimf D g t r nb pad Dp pu mcb mx mt -> 0 <= b < nb -> (r | b * (g * t)).
Proof.
  intros H Hb. destruct (Z.eq_dec b 0) as [->|E]; [apply Z.divide_0_r|]. apply Z.divide_mul_r.
  rewrite <- (pt_full _ _ _ _ (df_P _ _ _ _ _ _ _ _ _ _ _ H) 0) by lia. apply (df_br _ _ _ _ _ _ _ _ _ _ _ H). lia.
Qed.

Lemma keep_2d c x : mr c = m_r -> nr c = n_r -> g2_facts M N K p m_r n_r x ->
  pkeep I (schedule_KMN_2d S ar (BufA, 0) (BufB, 0) (BufC, 0) M N K c x) (fun _ => True).
Proof.
  intros Ec1 Ec2 H. pose proof (gf_M _ _ _ _ _ _ _ H) as FM. pose proof (gf_N _ _ _ _ _ _ _ H) as FN.
  assert (anyA : anything S I (BufAp 0)) by (now apply Ir_any).
  assert (anyB : anything S I BufBp) by (now apply Ir_any).
  unfold schedule_KMN_2d, pfor_. apply pkeep_any; [|auto]. intros n _ Hn. cbv zeta.
  unfold pfor_ne_ at 1. apply pkeep_any_ne; [|auto]. intros g _ Hg.
  pose proof (sn_in' _ _ _ Hg) as Hm. cbv zeta in Hm. set (m := sn_start _ + g * _) in *. clearbody m. clear Hg g.
  apply pkeep_seq2.
  - unfold pfor_ne_. apply pkeep_any_ne; [|auto]. intros g _ _. set (k := sn_start _ + g * _).
    apply pkeep_seq2; [|apply pkeep_seq2].
    + destruct (_ && _); [exact Logic.I|]. unfold g2_packB. apply pkeep_par; [|auto]. intros. now apply keep_pack_B_nr.
    + destruct (_ && _); [exact Logic.I|]. unfold g2_packA. apply pkeep_par; [|auto]. intros. now apply keep_pack_A_mr.
    + apply pkeep_par; [|auto]. intros core Hc. destruct (core_split x n m core H Hn Hm Hc) as (Hci & Hcj).
      unfold g2_core. cbv zeta. rewrite Ec1, Ec2. apply Ir_tiles; auto; [apply within_min|apply Z.divide_0_r|].
      apply (df_r _ _ _ _ _ _ _ _ _ _ _ FM); auto.
  - apply pkeep_par; [|auto]. intros core Hc. destruct (core_split x n m core H Hn Hm Hc) as (Hci & Hcj).
    unfold g2_unpack. cbv zeta. apply keep_seq2; [|apply keep_clear]. rewrite Ec1, Ec2.
    replace (g2_n1 x N n) with (n * (pn x * n_c x)).
    2:{ unfold g2_n1. destruct (is_last n (Nb x) (n_pad x)) eqn:El; [|ring].
        now apply (df_last _ _ _ _ _ _ _ _ _ _ _ FN). }
    pose proof (df_mx _ _ _ _ _ _ _ _ _ _ _ FN n Hn) as Bx. pose proof (gf_pn _ _ _ _ _ _ _ H). pose proof (gf_nc _ _ _ _ _ _ _ H).
    apply (Ir_unpack S M N m_r n_r _ m0 HN Hmr Hnr core 0 (m * (pm x * m_c x) + Z.quot core (g2_pun x n) * g2_mx x m)).
    + apply Z.divide_0_r.
    + apply Z.divide_add_r; [exact (dim_off _ _ _ _ _ _ _ _ _ _ _ m FM Hm)|apply Z.divide_mul_r].
      apply (df_xr _ _ _ _ _ _ _ _ _ _ _ FM); auto.
    + apply Z.divide_add_r; [exact (dim_off _ _ _ _ _ _ _ _ _ _ _ n FN Hn)|apply Z.divide_mul_r].
      apply (df_xr _ _ _ _ _ _ _ _ _ _ _ FN); auto.
    + apply Z.add_nonneg_nonneg; repeat apply Z.mul_nonneg_nonneg; lia.
    + unfold padd. cbn [fst snd]. f_equal. ring.
Qed.

Lemma keep_small c x : mr c = m_r -> nr c = n_r -> (m_r | m_c x) -> (n_r | n_c x) -> (m_r | m_c1 x) -> 0 <= n_c x -> 0 < pn x ->
  pkeep I (schedule_KMN_2d_small S ar (BufA, 0) (BufB, 0) (BufC, 0) M N K p c x) (fun _ => True).
Proof.
  intros Ec1 Ec2 Dm Dn Dm1 Hn Hpn.
  assert (anyA : anything S I (BufAp 0)) by (now apply Ir_any).
  assert (anyB : anything S I BufBp) by (now apply Ir_any).
  assert (Dt : forall core, (m_r | sm_mt x core)) by (intros core; unfold sm_mt; destruct (_ && _); auto).
  unfold schedule_KMN_2d_small. apply pkeep_seq2.
  - unfold pfor_. apply pkeep_any; [|auto]. intros k _ _. cbv zeta.
    apply pkeep_seq2; [|apply pkeep_seq2]; (apply pkeep_par; [|auto]); intros.
    + now apply keep_pack_B_nr.
    + now apply keep_pack_A_mr.
    + unfold sm_core. cbv zeta. rewrite Ec1, Ec2. apply Ir_tiles; auto; [apply within_min|apply Z.divide_0_r].
  - apply pkeep_par; [|auto]. intros core Hc. unfold sm_unpack. apply keep_seq2; [|apply keep_clear]. rewrite Ec1, Ec2.
    pose proof (Z.rem_bound_pos core (pn x) ltac:(lia) Hpn).
    apply (Ir_unpack S M N m_r n_r _ m0 HN Hmr Hnr core 0 (Z.quot core (pn x) * m_c x)); auto.
    + apply Z.divide_0_r.
    + now apply Z.divide_mul_r.
    + now apply Z.divide_mul_r.
    + apply Z.mul_nonneg_nonneg; lia.
Qed.

End G2.

Section Calls.

Variable S : scalar.
Notation T := (elt S).

Lemma keep_2d_call ar N m_r n_r (m0 : mem T) sa sb sc p (body : prog T unit) (Q : unit -> Prop) : Q tt ->
  pkeep (Ir S N m_r n_r (MR_MIN ar * NR_MIN ar) m0) body (fun _ => True) ->
  pkeep (Ir S N m_r n_r (MR_MIN ar * NR_MIN ar) m0)
    (palloc (BufAp 0) sa true None ;;; palloc BufBp sb true None ;;; alloc_Cp S p sc ;;; body ;;;
     pfree (BufAp 0) ;;; free_Cp S p ;;; pfree BufBp ;;; pfree xbuf)%prog Q.
Proof.
  intros HQ H. apply pkeep_seq2; [apply pkeep_alloc; [intros; exact Logic.I|auto]|].
  apply pkeep_seq2; [apply pkeep_alloc; [intros; exact Logic.I|auto]|].
  apply pkeep_seq2; [apply keep_alloc_Cp|]. apply pkeep_seq2; [exact H|].
  apply pkeep_seq2; [apply pkeep_free; [discriminate|auto]|]. apply pkeep_seq2; [apply keep_free_Cp|].
  apply pkeep_seq2; [apply pkeep_free; [discriminate|auto]|]. apply pkeep_free; [discriminate|exact HQ].
Qed.

Lemma Ir_end ar N m_r n_r (m0 : mem T) m' i j : 0 <= j < N ->
  minv (Ir S N m_r n_r (MR_MIN ar * NR_MIN ar) m0) m' -> unset ar m_r n_r i j ->
  dat m' BufC (i * N + j) = Some (zero S) \/ dat m' BufC (i * N + j) = dat m0 BufC (i * N + j).
Proof.
  intros Hj HI Hu. specialize (HI BufC (i * N + j) (or_intror eq_refl)). cbn [Ir] in HI. apply HI.
  rewrite (Z.add_comm (i * N)), Z.div_add, Z.mod_add by lia. rewrite (Z.div_small j), (Z.mod_small j N), Z.add_0_l by lia. exact Hu.
Qed.

Theorem G2_unset F ar q rows M N K p oc c mcu kcu ncu m0 r m' :
  match oc with Some c1 => c = c1 | None => c = q end ->
  0 < M -> 0 < N -> 0 <= K -> 0 < p -> 0 < mr c -> 0 < nr c ->
  grid_exists F M N p (ncores c) rows -> tiles_2d F c mcu kcu ncu -> (forall b, own b -> live m0 b = None) ->
  pexec (cake_sgemm_2d S F ar q rows M N K p oc mcu kcu ncu) m0 (Done r m') ->
  forall i j, 0 <= i < M -> 0 <= j < N -> unset ar (mr c) (nr c) i j ->
    dat m' BufC (i * N + j) = Some (zero S) \/ dat m' BufC (i * N + j) = dat m0 BufC (i * N + j).
Proof.
  intros Eoc HM HN HK Hp Hmr Hnr Hg Ht Ho H i j Hi Hj Hu.
  apply (Ir_end ar N (mr c) (nr c)); auto.
  refine (proj2 (keep_exec _ _ _ _ H (fun _ => True) _ _)); [|apply Ir_start; [intros; apply Ho; exact Logic.I|auto]].
  unfold cake_sgemm_2d. apply pkeep_bind, keep_get_ctx; [intros; exact Logic.I|].
  replace (match oc with Some c1 => c1 | None => q end) with c by (destruct oc; congruence). clear Eoc H.
  apply pkeep_seq2; [apply pkeep_alloc; [intros; exact Logic.I|auto]|].
  apply pkeep_bind, keep_lift. intros x Ex.
  destruct (grid_2d_dims F rows c M N K p mcu kcu ncu) as (y & Ey & Fy); auto.
  rewrite Ex in Ey. injection Ey as <-. apply keep_2d_call; [exact Logic.I|]. now apply (keep_2d S ar M N K p).
Qed.

Lemma small_dims F rows c M N K p x : 0 < mr c -> 0 < nr c -> 0 < M -> 0 < N -> 0 < p -> 0 <= fp_pn F p N M ->
  init_block_dims_2d_small F M N K p rows c KMN = CRet x ->
  (mr c | m_c x) /\ (nr c | n_c x) /\ (mr c | m_c1 x) /\ 0 <= n_c x /\ 0 < pn x.
Proof.
  intros Hmr Hnr HM HN Hp Hf E. unfold init_block_dims_2d_small in E. cbv zeta in E.
  destruct (grid_dims_2d F M N p (ncores c) rows) as [g| |] eqn:Eg; try discriminate. cbn [cbind] in E.
  destruct (grid_def F M N p (ncores c) rows ltac:(lia) Hp Hf) as (_ & D2). destruct (D2 g Eg) as (Hg & _).
  rewrite idiv_pos in E by lia. cbn [cbind] in E.
  destruct (roundup_ok M (mr c) ltac:(lia) Hmr) as (Mp & E1 & DMp & BMp). rewrite E1 in E. cbn [cbind] in E.
  destruct (roundup_ok N (nr c) ltac:(lia) Hnr) as (Np & E2 & DNp & BNp). rewrite E2 in E. cbn [cbind] in E.
  assert (Hq : 0 < Z.quot p g) by (apply Z.quot_str_pos; lia).
  rewrite (idiv_pos Mp) in E by lia. cbn [cbind] in E. rewrite (imod_pos _ (mr c)) in E by lia. cbn [cbind] in E.
  rewrite (idiv_pos Np) in E by lia. cbn [cbind] in E. rewrite (imod_pos _ (nr c)) in E by lia. cbn [cbind] in E.
  set (mc0 := Z.quot Mp (Z.quot p g)) in *. set (nc0 := Z.quot Np g) in *.
  assert (H0 : 0 <= nc0) by (apply Z.quot_pos; lia).
  pose proof (Z.rem_bound_pos nc0 (nr c) H0 Hnr).
  assert (D1 : (mr c | mc0 + (mr c - Z.rem mc0 (mr c)))).
  { pose proof (Z.quot_rem mc0 (mr c) ltac:(lia)). exists (Z.quot mc0 (mr c) + 1). lia. }
  assert (D3 : (nr c | nc0 + (nr c - Z.rem nc0 (nr c)))).
  { pose proof (Z.quot_rem nc0 (nr c) ltac:(lia)). exists (Z.quot nc0 (nr c) + 1). lia. }
  set (kc := if _ <? _ then _ else _) in *. clearbody kc.
  destruct (imod K kc); try discriminate. cbn [cbind] in E. destruct (imod N _); try discriminate. cbn [cbind] in E.
  destruct (imod M _); try discriminate. cbn [cbind] in E. destruct (idiv K _); try discriminate. cbn [cbind] in E.
  injection E as <-. cbn [m_c n_c m_c1 pn]. split; [exact D1|split; [exact D3|split; [|split; lia]]].
  apply Z.divide_sub_r; [exact DMp|now apply Z.divide_mul_r].
Qed.

Theorem small_unset F ar q rows M N K p oc c m0 r m' :
  match oc with Some c1 => c = c1 | None => c = q end ->
  0 < M -> 0 < N -> 0 < p -> 0 < mr c -> 0 < nr c -> 0 <= fp_pn F p N M -> (forall b, own b -> live m0 b = None) ->
  pexec (cake_sgemm_2d_small S F ar q rows M N K p oc) m0 (Done r m') ->
  forall i j, 0 <= i < M -> 0 <= j < N -> unset ar (mr c) (nr c) i j ->
    dat m' BufC (i * N + j) = Some (zero S) \/ dat m' BufC (i * N + j) = dat m0 BufC (i * N + j).
Proof.
  intros Eoc HM HN Hp Hmr Hnr Hf Ho H i j Hi Hj Hu.
  apply (Ir_end ar N (mr c) (nr c)); auto.
  refine (proj2 (keep_exec _ _ _ _ H (fun _ => True) _ _)); [|apply Ir_start; [intros; apply Ho; exact Logic.I|auto]].
  unfold cake_sgemm_2d_small. apply pkeep_bind, keep_get_ctx; [intros; exact Logic.I|].
  replace (match oc with Some c1 => c1 | None => q end) with c by (destruct oc; congruence). clear Eoc H.
  apply pkeep_seq2; [apply pkeep_alloc; [intros; exact Logic.I|auto]|].
  apply pkeep_bind, keep_lift. intros x Ex.
  destruct (small_dims F rows c M N K p x) as (D1 & D2 & D3 & D4 & D5); auto.
  apply keep_2d_call; [exact Logic.I|]. now apply keep_small.
Qed.

End Calls.
