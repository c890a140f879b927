(** * cake_sgemm_2d_small without columns: always undefined. *)

From Coq Require Import ZArith List Bool Lia.
From Verif Require Import Lang Lang_facts Spec SpecTop SpecOnline SpecTouch ModelSizing ModelKernel ModelPack ModelSched ModelTop
     Loop_facts Sizing_facts Online_facts Grid_call_facts Grid2_facts Top2d_facts Small2d_facts Touch_facts TouchOut_facts BadMap_facts EmptyAny_facts.
Import ListNotations.
Open Scope Z_scope.

Section NoColumns.
Variable S : scalar.
Notation T := (elt S).

(** The tiles and the packed panels without columns *)
Record no_cols (c : cntx) (K p : Z) (x : blk_dims) : Prop := {
  nco_Np : N_padded x = 0;
  nco_kb : 0 < Kb x;
  nco_kt : 0 < blk_kt x 0;
  nco_pn : 1 <= pn x;
  nco_m : mr c <= sm_mt x 0;
  nco_n : sm_nt x 0 = nr c }.

Lemma small_no_cols F M K p rows c x : 0 < M -> 0 < K -> 0 < p -> 0 < mr c -> 0 < nr c -> 0 <= fp_pn F p 0 M ->
  0 < fp_kcmax F (L1 c) (mr c) (nr c) -> init_block_dims_2d_small F M 0 K p rows c KMN = CRet x -> no_cols c K p x.
Proof.
  intros HM HK Hp Hmr Hnr Hf Hkm. unfold init_block_dims_2d_small. cbv zeta.
  destruct (grid_dims_2d F M 0 p (ncores c) rows) as [g| |] eqn:Eg; [|discriminate|discriminate].
  destruct (grid_found F M 0 p (ncores c) rows HM Hp Hf g Eg) as (Hg & _). cbn [cbind]. rewrite idiv_pos by lia. cbn [cbind].
  pose proof (Z.quot_rem p g ltac:(lia)) as Qp. pose proof (Z.rem_bound_pos p g ltac:(lia) ltac:(lia)) as Bp.
  set (pm0 := Z.quot p g) in *. assert (Hpm : 1 <= pm0) by nia.
  destruct (roundup_ok M (mr c) ltac:(lia) Hmr) as (Mp & -> & DMp & BMp). cbn [cbind].
  assert (ER : roundup 0 (nr c) = CRet 0).
  { unfold roundup. rewrite imod_pos by lia. cbn [cbind]. rewrite Z.rem_0_l by lia. reflexivity. }
  rewrite ER. cbn [cbind]. rewrite !idiv_pos by lia. cbn [cbind]. rewrite !(imod_pos _ (mr c)), !(imod_pos _ (nr c)) by lia. cbn [cbind].
  rewrite (Z.quot_0_l g), (Z.rem_0_l (nr c)) by lia.
  set (mc0 := Z.quot Mp pm0). assert (Hmc0 : 0 <= mc0) by (apply Z.quot_pos; lia).
  pose proof (Z.quot_rem mc0 (mr c) ltac:(lia)) as Qm. pose proof (Z.rem_bound_pos mc0 (mr c) Hmc0 Hmr) as Bm.
  assert (0 <= Z.quot mc0 (mr c)) by (apply Z.quot_pos; lia).
  set (mc := mc0 + (mr c - Z.rem mc0 (mr c))). assert (Hmc : mr c <= mc) by (unfold mc; nia). clearbody mc.
  set (kc := if fp_kcmax F (L1 c) (mr c) (nr c) <? mc then fp_kcmax F (L1 c) (mr c) (nr c) else mc).
  assert (Hkc : 0 < kc) by (unfold kc; destruct (_ <? mc); lia). clearbody kc.
  rewrite !imod_pos, idiv_pos by lia. cbn [cbind]. replace (0 + (nr c - 0)) with (nr c) by lia. rewrite (Z.rem_0_l (nr c)) by lia.
  intros E. injection E as <-. destruct DMp as (u & ->). assert (0 < u) by nia.
  pose proof (Z.quot_rem K kc ltac:(lia)) as QK. pose proof (Z.rem_bound_pos K kc ltac:(lia) Hkc) as BK.
  assert (0 <= Z.quot K kc) by (apply Z.quot_pos; lia).
  assert (Hpad : 0 < Z.quot K kc + pad01 (Z.rem K kc) /\ (Z.quot K kc = 0 -> Z.rem K kc <> 0)).
  { unfold pad01, truthy. destruct (Z.eqb_spec (Z.rem K kc) 0); cbn; nia. }
  constructor; cbn [N_padded Kb pn]; try lia.
  - unfold blk_kt, is_last. cbn. unfold pad01, truthy. destruct (Z.eqb_spec (Z.rem K kc) 0) as [E0|E0]; cbn; rewrite ?andb_false_r; [exact Hkc|].
    destruct (_ && _); lia.
  - unfold sm_mt. cbn [pm pn m_pad m_c1 m_c]. rewrite Z.quot_0_l by lia. destruct (Z.eqb_spec 0 (pm0 - 1)) as [E1|E1]; cbn; [|lia].
    destruct (truthy _); [|lia]. nia.
  - unfold sm_nt. cbn [pn n_pad n_c1 n_c]. rewrite andb_false_r. reflexivity.
Qed.

Lemma sched_no_cols ar c A B C M K p x : arch_ok ar -> ctx_min ar c -> 0 < p -> no_cols c K p x ->
  exists i, 0 <= i /\ pout BufBp i (schedule_KMN_2d_small S ar A B C M 0 K p c x).
Proof.
  intros Ha (E1 & E2) Hp X. destruct X as [XN Xkb Xkt Xpn Xm Xn]. unfold arch_ok in Ha.
  exists (0 + (blk_kt x 0 - 1) * nr c + NR_MIN ar - 1). split; [nia|].
  unfold schedule_KMN_2d_small, pfor_. apply pout_bind_l. apply (pout_pfor1 _ _ 0 _ _ _ 0); [lia| |].
  { intros. cbv zeta. apply small_bind; [apply small_ppar|intros]. apply small_bind; [apply small_ppar|intros]. apply small_ppar. }
  intros _. cbv zeta. apply pout_bind_r; [apply small_ppar|intros _]. apply pout_bind_r; [apply small_ppar|intros _].
  apply (pout_ppar1 _ _ 0 _ _ 0); [lia|]. unfold sm_core. cbv zeta. rewrite Xn, Z.rem_0_l, Z.quot_0_l by lia.
  unfold tile_loops, tfor_. rewrite Z.quot_same by lia.
  assert (1 <= Z.quot (sm_mt x 0) (mr c)) by (apply Z.quot_le_lower_bound; lia).
  apply (touches_tfor1 BufBp _ 0 1 _ _ 0); [lia|]. intros _. apply (touches_tfor1 BufBp _ 0 _ _ _ 0); [lia|]. intros _.
  unfold padd at 2. cbn [fst snd]. replace (0 * n_c x * blk_kt x 0 + 0 * blk_kt x 0 * nr c) with 0 by lia.
  unfold cake_sgemm_ukernel. apply kernel_B_end; lia.
Qed.

Lemma no_columns_small F ar q rows M K p c (m0 : mem T) : arch_ok ar -> ctx_min ar c -> 0 < M -> 0 < K -> 0 < p -> 0 <= fp_pn F p 0 M ->
  0 < fp_kcmax F (L1 c) (mr c) (nr c) -> always_undefined (cake_sgemm_2d_small S F ar q rows M 0 K p (Some c)) m0.
Proof.
  Local Transparent pbind. intros Ha Hc HM HK Hp Hf Hkm. rewrite unfold_small.
  destruct (init_block_dims_2d_small F M 0 K p rows c KMN) as [x| |] eqn:E.
  - assert (Hr : 0 < mr c /\ 0 < nr c) by (destruct Hc as (? & ?); unfold arch_ok in Ha; lia).
    destruct (sched_no_cols ar c (BufA, 0) (BufB, 0) (BufC, 0) M K p x Ha Hc Hp) as (i & Hi & Ho).
    { apply (small_no_cols F M K p rows c x); tauto. }
    assert (HN : N_padded x = 0) by (apply (nco_Np c K p), (small_no_cols F M K p rows c x); tauto).
    unfold get_ctx, palloc. cbn [pbind]. rewrite E. cbn [lift pbind]. apply au_alloc. intros m1. unfold tail_small, tail_gen, palloc. cbn [pbind]. apply au_alloc. intros m2.
    destruct (live m2 BufBp) eqn:EL.
    { split; [apply PE_alloc_ub; right; congruence|]. intros o Ho'. inversion Ho'; subst; auto. congruence. }
    apply (pout_exec BufBp i); [|unfold outside; now rewrite EL]. cbn [pout]. split; [right; rewrite HN; lia|].
    apply pout_bind_r.
    { unfold alloc_Cp, pfor_. apply small_pfor. intros. unfold palloc. split; [left; discriminate|exact I]. }
    intros _. apply pout_bind_l. exact Ho.
  - apply (au_init S q (fun c0 => init_block_dims_2d_small F M 0 K p rows c0 KMN)). intros c' ->. exact E.
  - exfalso. revert E. unfold init_block_dims_2d_small. cbv zeta.
    destruct (grid_dims_2d F M 0 p (ncores c) rows) as [g| |] eqn:Eg; [|discriminate|now apply grid_no_exit in Eg].
    unfold roundup, idiv, imod. cbn [cbind]. repeat (match goal with |- context [if ?b then _ else _] => destruct b end; cbn [cbind]; try discriminate).
Qed.
End NoColumns.
