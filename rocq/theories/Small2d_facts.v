(** * cake_sgemm_2d_small: where it works it is cake_sgemm_2d with a single block. *)

From Coq Require Import ZArith List Bool Lia Permutation.
From Verif Require Import Lang Lang_facts Spec SpecTop SpecOnline ModelSizing ModelKernel ModelPack ModelSched ModelTop
     Kernel_facts Tile_facts Loop_facts Pack_facts Unpack_facts Sizing_facts PackMat_facts PackB_facts
     Order_facts Cphase_facts SchedK_facts Frame_facts Init_facts TopK_facts TopMN_facts Call_facts CallAll_facts
     PackCall_facts Mult_facts TopOnline_facts Grid2_facts Grid_tab_facts SchedG2_facts Top2d_facts Grid_call_facts.
Import ListNotations.
Open Scope Z_scope.

(** ** Equal programs *)

Section Ext.
Context {V : Type}.

Lemma pbind_ext {R R'} (P : prog V R) (f g : R -> prog V R') : (forall r, f r = g r) -> pbind P f = pbind P g.
Proof. Transparent pbind. intros E. induction P; cbn [pbind]; congruence || auto. Opaque pbind. Qed.

Lemma pbind_unit {R} (P : prog V R) : pbind P (fun r => PRet r) = P.
Proof. Transparent pbind. induction P; cbn [pbind]; congruence. Opaque pbind. Qed.

Lemma pbind_ret {R R'} (r : R) (f : R -> prog V R') : pbind (PRet r) f = f r.
Proof. Transparent pbind. reflexivity. Opaque pbind. Qed.

Lemma piter_ext {R} n i st (f g : Z -> R -> prog V R) s : (forall i s, f i s = g i s) -> piter n i st f s = piter n i st g s.
Proof.
  intros E. revert i s. induction n as [|n IH]; intros i s; cbn [piter]; [auto|]. rewrite E. apply pbind_ext. intros r. apply IH.
Qed.

Lemma ppar_for_ext lo hi st (f g : Z -> thr V unit) : (forall i, f i = g i) -> ppar_for lo hi st f = ppar_for lo hi st g.
Proof. intros E. unfold ppar_for. now rewrite (map_ext f g E). Qed.

Lemma pfor_one (f : Z -> prog V unit) : pfor_ 0 1 1 f = f 0.
Proof. unfold pfor_, pfor. change (loop_count 0 1 1) with 1%nat. cbn [piter Z.ltb Z.compare]. apply pbind_unit. Qed.

Lemma pfor_ne_one (f : Z -> prog V unit) : pfor_ne_ 0 1 1 f = f 0.
Proof. unfold pfor_ne_, pfor_ne. change (Z.to_nat ((1 - 0) * 1)) with 1%nat. cbn [piter Z.leb Z.compare Z.sub Z.mul Z.opp Z.add andb Z.eqb Pos.mul Pos.eqb]. apply pbind_unit. Qed.

Lemma pfor_ne_up n (f g : Z -> prog V unit) : 0 <= n -> (forall i, f i = g i) -> pfor_ne_ 0 n 1 f = pfor_ 0 n 1 g.
Proof.
  intros Hn E. unfold pfor_ne_, pfor_ne, pfor_, pfor. rewrite Z.mul_1_r, Z.sub_0_r.
  rewrite (proj2 (Z.leb_le 0 n)) by lia. cbn [andb Z.eqb Z.ltb Z.compare Pos.compare Z.mul Pos.mul Pos.eqb].
  replace (loop_count 0 n 1) with (Z.to_nat n).
  - apply piter_ext. auto.
  - unfold loop_count. f_equal. rewrite Z.div_1_r. lia.
Qed.

End Ext.

Section Small.

Variable S : scalar.
Notation T := (elt S).

(** the block sizes of the equivalent call of the general schedule *)
Definition as_2d (x : blk_dims) (m_r n_r : Z) : blk_dims :=
  BD (m_c x) (k_c x) (n_c x) (m_c x) (k_c1 x) (n_c x) (m_c1 x) (n_c1 x) 0
     (M_padded x / m_r) (N_padded x / n_r) 0 0 (pm x) (pn x) (pm x) (pn x)
     1 (k_pad x) 1 1 (Kb x) 1 (M_padded x) (N_padded x) (sch x).

Lemma small_as_2d ar A B C M N K p c x :
  p = pm x * pn x -> 0 <= Kb x -> 0 < mr c -> 0 < nr c -> (mr c | M_padded x) -> (nr c | N_padded x) ->
  truthy (m_pad x) = true -> truthy (n_pad x) = true ->
  0 <= M < pm x * m_c x -> 0 <= N < pn x * n_c x ->
  schedule_KMN_2d_small S ar A B C M N K p c x = schedule_KMN_2d S ar A B C M N K c (as_2d x (mr c) (nr c)).
Proof.
  intros -> HK Hmr Hnr DM DN Em En HM HN.
  set (y := as_2d x (mr c) (nr c)).
  assert (L0 : is_last 0 1 1 = true) by reflexivity.
  assert (EM : g2_mcb y (mr c) 0 = M_padded x).
  { unfold g2_mcb. cbn. destruct DM as [u ->]. rewrite Z.div_mul by lia. ring. }
  assert (EN : g2_ncb y (nr c) 0 = N_padded x).
  { unfold g2_ncb. cbn. destruct DN as [u ->]. rewrite Z.div_mul by lia. ring. }
  unfold schedule_KMN_2d, schedule_KMN_2d_small.
  change (Nb y) with 1. rewrite pfor_one. cbv zeta. cbn [snake odd2].
  change (snake (odd2 0) (Mb y)) with (0, 1, 1). cbn [sn_start sn_end sn_inc fst snd]. rewrite pfor_ne_one.
  change (snake (inner_rev 0 0) (Kb y)) with (0, Kb x, 1). cbn [sn_start sn_end sn_inc fst snd].
  change (g2_pum y 0 * g2_pun y 0) with (pm x * pn x).
  rewrite (pfor_ne_up (Kb x) _ (fun k : Z =>
     let kt := blk_kt x k in
     (ppar_for 0 (N_padded x) (nr c) (fun n2 =>
       pack_B_nr_x_kc S (padd B (k * k_c x * N + n2)) (BufBp, n2 * kt) N kt (nr c)) ;;;
     ppar_for 0 (M_padded x) (mr c) (fun m3 =>
       pack_A_mr_x_kc S (padd A (k * k_c x + m3 * K)) (BufAp 0, m3 * kt) K kt (mr c)) ;;;
     ppar_for 0 (pm x * pn x) 1 (sm_core S ar c x k))%prog)); [|auto|].
  - apply pbind_ext. intros _. apply ppar_for_ext. intros core.
    unfold sm_unpack, g2_unpack.
    replace (g2_m1 y M 0) with 0.
    2:{ unfold g2_m1. cbn. rewrite Z.rem_small by lia. lia. }
    replace (g2_n1 y N 0) with 0.
    2:{ unfold g2_n1. cbn. rewrite Z.rem_small by lia. lia. }
    unfold sm_mt, sm_nt, g2_mt, g2_nt, g2_mx, g2_nx, g2_pun. cbn. rewrite Em, En, !andb_true_r. reflexivity.
  - intros k. cbn [Z.eqb negb]. rewrite !andb_false_r. cbv zeta. unfold g2_packB, g2_packA. rewrite EM, EN.
    change (blk_kt y k) with (blk_kt x k).
    apply (pbind_ext (ppar_for 0 (N_padded x) (nr c) (fun n2 =>
       pack_B_nr_x_kc S (padd B (k * k_c x * N + n2)) (BufBp, n2 * blk_kt x k) N (blk_kt x k) (nr c)))). intros _.
    apply (pbind_ext (ppar_for 0 (M_padded x) (mr c) (fun m3 =>
       pack_A_mr_x_kc S (padd A (k * k_c x + m3 * K)) (BufAp 0, m3 * blk_kt x k) K (blk_kt x k) (mr c)))). intros _.
    apply ppar_for_ext. intros core. unfold g2_core, sm_core, sm_mt, sm_nt, g2_mt, g2_nt, g2_mx, g2_nx, g2_pun. cbn.
    rewrite Em, En, !andb_true_r. reflexivity.
Qed.

(** ** The block sizes *)

Lemma dimf_ext1 D g t r pad Dp pu mcb mx mt pu' mcb' mx' mt' :
  pu 0 = pu' 0 -> mcb 0 = mcb' 0 -> mx 0 = mx' 0 -> (forall c, mt 0 c = mt' 0 c) ->
  dimf D g t r 1 pad Dp pu mcb mx mt -> dimf D g t r 1 pad Dp pu' mcb' mx' mt'.
Proof.
  intros E1 E2 E3 E4 [H1 H2 H3 H4 H5 H6 H6' H7 H8 H9 H10].
  assert (Z0 : forall b, 0 <= b < 1 -> b = 0) by (intros; lia).
  constructor; auto.
  - eapply part_ext; [| | |exact H1]; auto. intros b Hb. now rewrite (Z0 b Hb).
  - intros b Hb. specialize (H2 b Hb). rewrite (Z0 b Hb) in *. lia.
  - intros b Hb. specialize (H3 b Hb). rewrite (Z0 b Hb) in *. rewrite <- E1, <- E2, <- E3. eapply partz_ext; [| | |exact H3]; auto.
  - intros b Hb. specialize (H4 b Hb). rewrite (Z0 b Hb) in *. lia.
  - intros b c Hb Hc. specialize (H5 b c Hb). rewrite (Z0 b Hb) in *. rewrite <- E4. apply H5. lia.
  - intros b Hb. specialize (H6 b Hb). rewrite (Z0 b Hb) in *. now rewrite <- E3.
  - intros b Hb. specialize (H6' b Hb). rewrite (Z0 b Hb) in *. now rewrite <- E2.
Qed.

Lemma small_dim D g r Dp : 0 < D -> 1 <= g -> 0 < r -> (r | Dp) -> D <= Dp < D + r ->
  let t := Z.quot Dp g + (r - Z.rem (Z.quot Dp g) r) in
  t = (Dp / g / r + 1) * r /\ 0 < t /\ (r | t) /\ Dp < g * t /\ (~ (t | D) /\ (g - 1) * t <= Dp -> Z.rem D t <> 0 /\ dimf D g t r 1 1 Dp (fun _ => g) (fun _ => r * (Dp / r)) (fun _ => t)
     (fun _ c => if c =? g - 1 then Dp - (g - 1) * t else t)).
Proof.
  intros HD Hg Hr [u ->] HB t.
  assert (Hq : 0 <= Z.quot (u * r) g) by (apply Z.quot_pos; lia).
  assert (Et : t = (u * r / g / r + 1) * r).
  { unfold t. rewrite (Z.rem_mod_nonneg _ r Hq Hr). rewrite Z.quot_div_nonneg in * by lia.
    pose proof (Z.div_mod (u * r / g) r ltac:(lia)). lia. }
  assert (Ht : 0 < t).
  { rewrite Et. rewrite Z.quot_div_nonneg in Hq by lia. assert (0 <= u * r / g / r) by (apply Z.div_pos; lia). nia. }
  assert (Dt : (r | t)) by (rewrite Et; apply Z.divide_factor_r).
  assert (Hgt : u * r < g * t).
  { rewrite Et. rewrite Z.quot_div_nonneg in Hq by lia.
    pose proof (Z.div_mod (u * r) g ltac:(lia)). pose proof (Z.mod_pos_bound (u * r) g ltac:(lia)).
    pose proof (Z.div_mod (u * r / g) r ltac:(lia)). pose proof (Z.mod_pos_bound (u * r / g) r Hr).
    set (a := u * r / g) in *. set (b := a / r) in *. nia. }
  split; [exact Et|split; [exact Ht|split; [exact Dt|split; [exact Hgt|]]]].
  clearbody t. intros (Hf & Hf').
  split.
  { rewrite Z.rem_mod_nonneg by lia. intros E. apply Z.mod_divide in E; [|lia]. auto. }
  rewrite Z.div_mul by lia.
  constructor; auto.
  - constructor; intros; try lia.
  - intros. lia.
  - intros b _. constructor; intros; try lia.
    + destruct (Z.eqb_spec b0 (g - 1)); lia.
    + destruct (Z.eqb_spec b0 (g - 1)); lia.
    + rewrite Z.eqb_refl. lia.
  - intros. lia.
  - intros b c _ _. destruct (c =? g - 1); [|auto]. apply Z.divide_sub_r; [apply Z.divide_factor_r|now apply Z.divide_mul_r].
  - intros. apply Z.divide_factor_l.
  - intros b Hb. assert (b = 0) by lia. subst b. lia.
  - intros b Hb _. assert (b = 0) by lia. subst b. rewrite Z.rem_small by lia. lia.
  - apply Z.divide_factor_r.
Qed.

Lemma small_dims F ar rows c M N K p pn :
  legal_small F ar rows c M N K p pn ->
  exists x, init_block_dims_2d_small F M N K p rows c KMN = CRet x /\   g2_facts M N K p (mr c) (nr c) (as_2d x (mr c) (nr c)) /\   p = pm x * ModelSizing.pn x /\ 0 <= Kb x /\ (mr c | M_padded x) /\ (nr c | N_padded x) /\   truthy (m_pad x) = true /\ truthy (n_pad x) = true /\   M < pm x * m_c x /\ N < ModelSizing.pn x * n_c x.
Proof.
  intros (Har & Hc & HM & HN & HK & Hp & Hf & Hg & FM & FN & Hkm).
  destruct (ctx_pos_min ar c Har Hc) as (Hmr & Hnr & _).
  destruct (grid_found F M N p (ncores c) rows HM Hp Hf pn Hg) as (Hpn & Dpn & _).
  unfold init_block_dims_2d_small. cbv zeta. rewrite Hg. cbn [cbind].
  rewrite idiv_pos by lia. cbn [cbind].
  assert (Epm : Z.quot p pn = p / pn) by (apply Z.quot_div_nonneg; lia). rewrite Epm.
  destruct Dpn as [pm0 Ep]. assert (Epp : p / pn = pm0) by (rewrite Ep; apply Z.div_mul; lia).
  rewrite Epp in *. assert (Hpm : 1 <= pm0) by nia.
  destruct (roundup_ok M (mr c) ltac:(lia) Hmr) as (Mp & -> & DMp & BMp). cbn [cbind].
  destruct (roundup_ok N (nr c) ltac:(lia) Hnr) as (Np & -> & DNp & BNp). cbn [cbind].
  assert (EMp : round_up M (mr c) = Mp) by (apply roundup_uniq; auto).
  assert (ENp : round_up N (nr c) = Np) by (apply roundup_uniq; auto).
  unfold small_fits, small_tile in FM, FN. rewrite EMp in FM. rewrite ENp in FN.
  destruct (small_dim M pm0 (mr c) Mp HM Hpm Hmr DMp BMp) as (T1 & T2 & T3 & T4 & T5).
  destruct (small_dim N pn (nr c) Np HN ltac:(lia) Hnr DNp BNp) as (U1 & U2 & U3 & U4 & U5).
  rewrite !idiv_pos by lia. cbn [cbind].
  rewrite !(imod_pos _ (mr c)), !(imod_pos _ (nr c)) by lia. cbn [cbind].
  set (mc := Z.quot Mp pm0 + (mr c - Z.rem (Z.quot Mp pm0) (mr c))) in *.
  set (nc := Z.quot Np pn + (nr c - Z.rem (Z.quot Np pn) (nr c))) in *.
  rewrite <- T1 in FM. rewrite <- U1 in FN. destruct (T5 FM) as (T6 & T7). destruct (U5 FN) as (U6 & U7).
  clearbody mc nc.
  set (kc := if fp_kcmax F (L1 c) (mr c) (nr c) <? mc then fp_kcmax F (L1 c) (mr c) (nr c) else mc).
  assert (Hkc : 0 < kc) by (unfold kc; destruct (_ <? mc); auto). clearbody kc.
  rewrite !imod_pos, idiv_pos by lia. cbn [cbind]. eexists. split; [reflexivity|].
  assert (Tr : forall a, a <> 0 -> truthy (pad01 a) = true).
  { intros a Ha. unfold pad01, truthy. destruct (Z.eqb_spec a 0); [contradiction|reflexivity]. }
  pose proof (Z.rem_bound_pos K kc HK Hkc) as BK.
  assert (Lk : 0 < Z.rem K kc <= kc \/ Z.rem K kc = 0) by lia.
  destruct (part_quot K kc (Z.rem K kc) HK Hkc Lk) as (PK & _ & _ & PK3 & PK4 & _).
  split; [|cbn; repeat split; auto; try lia].
  2:{ apply (pt_nb _ _ _ _ PK). }
  constructor; cbn [as_2d m_c k_c n_c pm ModelSizing.pn Mb Nb Kb M_padded N_padded m_pad n_pad]; try lia.
  - eapply part_ext; [| | |exact PK]; auto. cbv zeta.
    pose proof (Z.quot_rem K kc ltac:(lia)) as QK.
    destruct (Z.eq_dec (Z.rem K kc) 0) as [E|E]; [rewrite PK3 by auto; auto|rewrite PK4 by auto; cbn; lia].
  - eapply dimf_ext1; [| | | |exact T7]; reflexivity.
  - eapply dimf_ext1; [| | | |exact U7]; reflexivity.
Qed.

(** ** The call *)

Definition tail_small (ar : arch) (M N K p : Z) (c : cntx) (x : blk_dims) : prog T unit :=
  tail_gen S (M_padded x * k_c x) (k_c x * N_padded x) (m_c x * n_c x) p
    (schedule_KMN_2d_small S ar (BufA, 0) (BufB, 0) (BufC, 0) M N K p c x).

Lemma unfold_small F ar q rows M N K p oc :
  cake_sgemm_2d_small S F ar q rows M N K p oc =
  pbind (get_ctx S q oc) (fun c0 =>
    pbind (palloc xbuf 1 false None) (fun _ =>
      pbind (lift S (init_block_dims_2d_small F M N K p rows c0 KMN)) (tail_small ar M N K p c0))).
Proof. reflexivity. Qed.

Lemma small_ord M N K p x c : g2_facts M N K p (mr c) (nr c) (as_2d x (mr c) (nr c)) ->
  M < pm x * m_c x -> N < pn x * n_c x ->
  forall i j, 0 <= i < M -> 0 <= j < N -> g2_ord (as_2d x (mr c) (nr c)) i j = zrange 0 K.
Proof.
  intros F HM HN i j Hi Hj. unfold g2_ord. cbn [as_2d ModelSizing.pn n_c pm m_c Kb k_c].
  rewrite (Z.div_small i), (Z.div_small j) by lia. change (inner_rev 0 0) with false.
  pose proof (gf_K _ _ _ _ _ _ _ F) as PK. cbn [as_2d Kb k_c] in PK.
  unfold kord, snake_list. rewrite (map_ext (sn_at false (Kb x)) (fun b => b)) by (intros b; unfold sn_at; cbn; lia).
  rewrite map_id. pose proof (pt_nb _ _ _ _ PK).
  rewrite (flat_blocks _ _ _ _ PK) by lia. now rewrite off_n.
Qed.

Theorem ok_small F ar q rows M N K p pn oc c :
  match oc with Some c1 => c = c1 | None => c = q end ->
  legal_small F ar rows c M N K p pn ->
  forall A B m0, caller m0 M N K A B -> A_rim m0 M K (mr c) -> B_rim m0 N K (nr c) 0 ->
    always (cake_sgemm_2d_small S F ar q rows M N K p oc) m0
      (fun _ m' => holds m' BufC M N (product S A B (fun _ _ => zrange 0 K)) /\ only_C_changed (start S m0 oc) m' M N).
Proof.
  intros Eoc HL. destruct (small_dims _ _ _ _ _ _ _ _ _ HL) as (x & Ex & Fx & Ep & HKb & D1 & D2 & P1 & P2 & L1 & L2).
  destruct HL as (Har & Hc & HM & HN & HK & Hp & _).
  destruct (ctx_pos_min ar c Har Hc) as (Hmr & Hnr & _).
  set (y := as_2d x (mr c) (nr c)) in *.
  intros A B m0 Hcl RA RB. eapply always_mono.
  - apply pok_always. rewrite unfold_small.
    assert (Ec : match oc with Some c1 => c1 | None => q end = c) by (destruct oc; auto).
    apply (call_shape S M N K (fun c0 => init_block_dims_2d_small F M N K p rows c0 KMN)
             (tail_small ar M N K p) q oc x tt (fun A B => product S A B (g2_ord y)) A B m0); auto.
    { now rewrite Ec. }
    intros m1 H1 H2 H3 H4 H5 H6 H7 H8 H9. rewrite Ec.
    unfold tail_small. rewrite small_as_2d; auto; try lia. fold y.
    pose proof (gf_kc _ _ _ _ _ _ _ Fx) as Hkc. cbn in Hkc.
    pose proof (df_Dp _ _ _ _ _ _ _ _ _ _ _ (gf_M _ _ _ _ _ _ _ Fx)) as BM.
    pose proof (df_Dp _ _ _ _ _ _ _ _ _ _ _ (gf_N _ _ _ _ _ _ _ Fx)) as BN. cbn in BM, BN.
    change (m_c x * n_c x) with (m_c y * n_c y).
    apply (tail_gen_spec S ar M N K p y c); auto; try lia; try nn.
    + intros m Hm. replace m with 0 by (cbn in Hm; lia). cbn. destruct D1 as [u ->]. rewrite Z.div_mul by lia. lia.
    + intros n Hn. replace n with 0 by (cbn in Hn; lia). cbn. destruct D2 as [u ->]. rewrite Z.div_mul by lia. lia.
    + intros i k Hi' Hk'. destruct (RA i k Hi' Hk') as (bi & v & E1 & E2 & E3).
      exists bi, v. rewrite H7, H6 by (intros []). auto.
    + intros k j Hk' Hj'. destruct (RB k j Hk' Hj') as (bi & v & E1 & E2 & E3).
      exists bi, v. rewrite H7, H6 by (intros []). auto.
  - cbv beta. intros r m' (_ & (H1 & H2)). split; [|exact H2]. intros i j Hi Hj. rewrite (H1 i j Hi Hj). f_equal.
    unfold product. unfold y. rewrite (small_ord M N K p x c Fx L1 L2 i j Hi Hj). reflexivity.
Qed.

End Small.

(** ** Consequences and witnesses *)

From Verif Require Import Online_facts Exec Exec_facts Misc_facts Witness Witness_facts Refute_facts.

Section Cons.
Variable S : scalar.
Variables (F : fpenv) (ar : arch) (q : cntx) (rows M N K p pn : Z) (c : cntx).
Hypothesis L : legal_small F ar rows c M N K p pn.

Lemma small_product A B m0 : caller m0 M N K A B -> A_rim m0 M K (mr c) -> B_rim m0 N K (nr c) 0 ->
  always (cake_sgemm_2d_small S F ar q rows M N K p (Some c)) m0
    (fun _ m' => holds m' BufC M N (product S A B (fun _ _ => zrange 0 K)) /\ only_C_changed m0 m' M N).
Proof. apply (ok_small S F ar q rows M N K p pn (Some c) c eq_refl L). Qed.

Lemma small_safe A B m0 : caller m0 M N K A B ->
  (mr c | M) \/ A_rim m0 M K (mr c) -> (nr c | N) \/ B_rim m0 N K (nr c) 0 ->
  (exists o, pexec (cake_sgemm_2d_small S F ar q rows M N K p (Some c)) m0 o) /\
  forall o, pexec (cake_sgemm_2d_small S F ar q rows M N K p (Some c)) m0 o -> exists m', o = Done tt m'.
Proof.
  intros Hc RA RB. destruct L as (L1 & L2 & _). destruct (ctx_pos_min ar c L1 L2) as (Hm & Hn & _).
  assert (RA' : A_rim m0 M K (mr c)) by (destruct RA; auto using A_rim_vacuous).
  assert (RB' : B_rim m0 N K (nr c) 0) by (destruct RB; auto using w_rim).
  destruct (small_product A B m0 Hc RA' RB') as (G1 & G2). split; [exact G1|].
  intros o Ho. destruct (G2 o Ho) as ([] & m' & E & _). eauto.
Qed.
End Cons.

(** one core always fits *)
Lemma fits_one D r : 0 < D -> 0 < r -> small_fits D 1 r.
Proof.
  intros HD Hr. unfold small_fits, small_tile. rewrite Z.div_1_r.
  destruct (roundup_ok D r ltac:(lia) Hr) as (Dp & _ & Dd & Db). rewrite (roundup_uniq D r Dp Hr Dd Db).
  destruct Dd as [u ->]. rewrite Z.div_mul by lia. split; [|lia].
  intros Hd. apply Z.divide_pos_le in Hd; lia.
Qed.

Lemma small_one_core F ar rows c M N K :
  arch_ok ar -> ctx_min ar c -> 0 < M -> 0 < N -> 0 <= K -> 0 <= fp_pn F 1 N M ->
  1 <= ncores c < 1 + rows -> 0 < fp_kcmax F (L1 c) (mr c) (nr c) ->
  legal_small F ar rows c M N K 1 1.
Proof.
  intros Har Hc HM HN HK Hf Hr Hkm.
  assert (Hx : aim F M N 1 = 1) by (unfold aim; lia).
  destruct (proj2 (grid_defined F M N 1 (ncores c) rows HM ltac:(lia) Hf)) as (v & Ev).
  { split; [lia|split; [auto|]]. left. rewrite Hx. apply Z.divide_refl. }
  destruct (grid_found F M N 1 (ncores c) rows HM ltac:(lia) Hf v Ev) as (Hv & _). assert (v = 1) by lia. subst v.
  unfold legal_small. split; [auto|split; [auto|split; [auto|split; [auto|split; [auto|split; [lia|]]]]]].
  split; [auto|split; [auto|]]. change (1 / 1) with 1.
  destruct (ctx_pos_min ar c Har Hc) as (Hmr & Hnr & _).
  split; [now apply fits_one|split; [now apply fits_one|auto]].
Qed.

Definition wsmall (M N K p : Z) : prog Z unit := cake_sgemm_2d_small Zs wFr haswell wctx 4 M N K p (Some wctx).

(** two cores, twelve rows: the second core starts past the end of the packed copy *)
Lemma small_unsafe :
  exists M N K A B m0, arch_ok haswell /\ ctx_min haswell wctx /\ grid_exists wFr M N 2 (ncores wctx) 4 /\
    caller m0 M N K A B /\ (mr wctx | M) /\ (nr wctx | N) /\ pexec (wsmall M N K 2) m0 Undef.
Proof.
  exists 12, 16, 1. do 2 eexists. exists (wmem 12 16 1).
  split; [exact w_arch|split; [split; reflexivity|split]].
  { split; [cbn; lia|split; [discriminate|]]. left. exists 1. reflexivity. }
  split; [apply w_caller|split; [exists 2; reflexivity|split; [exists 1; reflexivity|]]].
  apply (refute_by_undef _ (wmem 12 16 1) (fun _ _ => True)). vm_compute; reflexivity.
Qed.

(** ** cake_sgemm_test *)

Definition wtest (be : Z) (M N K p : Z) : prog Z cntx :=
  cake_sgemm_test Zs wF haswell wctx Znz M N K p (Some wctx) false false 1 be.

Lemma test_wrong :
  exists M N K A B C0 m0, legal wF haswell KMN wctx M N K 1 0 0 0 /\
    caller m0 M N K A B /\ holds m0 BufC M N C0 /\
    (~ always (wtest 0 M N K 1) m0 (fun _ m' => holds m' BufC M N (matmul Zs Z.add Z.mul A B K))) /\
    (~ always (wtest 1 M N K 1) m0
        (fun _ m' => holds m' BufC M N (fun i j => matmul Zs Z.add Z.mul A B K i j + C0 i j))).
Proof.
  exists 6, 16, 1, (fun i k => wA (i * 1 + k)), (fun k j => wB (k * 16 + j)), (fun i j => 100 + (i * 16 + j)), (wmemC 6 16 1).
  split; [apply w_legal_auto; lia|split; [apply wC_caller|split; [apply wC_holds|split]]].
  - eapply (refute_by_value _ _ _ _ _ 0 0); [lia|lia|vm_compute; reflexivity|discriminate].
  - eapply (refute_by_value _ _ _ _ _ 0 0); [lia|lia|vm_compute; reflexivity|discriminate].
Qed.
