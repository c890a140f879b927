(** * The tile sizes init_block_dims arrives at. *)

From Coq Require Import ZArith List Bool Lia.
From Verif Require Import Lang Spec SpecTop ModelSizing ModelKernel Tile_facts Kernel_facts Sizing_facts.
Import ListNotations.
Open Scope Z_scope.

Lemma ctx_pos ar c : arch_ok ar -> ctx_ok ar c -> 0 < mr c /\ 0 < nr c /\ 0 < lanes ar /\ (nr c) mod lanes ar = 0.
Proof.
  intros (A1 & A2 & A3 & A4 & A5 & A6 & A7) (C1 & C2 & C3 & C4).
  assert (0 < mr c) by nia. assert (0 < nr c) by nia.
  repeat split; auto. rewrite C4. apply Z.mod_divide; [lia|].
  apply Z.divide_add_r; auto. apply Z.divide_mul_r; auto.
Qed.

Lemma ctx_kern S ar c : ctx_ok ar c -> kern_is S ar (kernel_map S ar (m_map c) (n_map c)) (mr c) (nr c).
Proof.
  intros (C1 & C2 & C3 & C4) A B C m n k. unfold kernel_map. rewrite <- C3, <- C4.
  destruct (Z.leb_spec 0 (m_map c)); [|lia]. destruct (Z.ltb_spec (m_map c) (MR_CNT ar)); [|lia].
  destruct (Z.leb_spec 0 (n_map c)); [|lia]. destruct (Z.ltb_spec (n_map c) (NR_CNT ar)); [|lia]. reflexivity.
Qed.

Lemma ctx_kern_min S ar c : ctx_min ar c -> kern_is S ar (cake_sgemm_ukernel S ar) (mr c) (nr c).
Proof. intros (-> & ->) A B C m n k. reflexivity. Qed.

Definition dims_of (s : sched) : Z -> Z -> Z -> Z -> Z -> Z -> Z -> Z -> Z -> comp blk_dims :=
  match s with KMN => dims_KMN | MKN => dims_MKN | NKM => dims_NKM | NA => fun _ _ _ _ _ _ _ _ _ => CExit end.

Lemma rem_sub_div a r : 0 < r -> (r | a - Z.rem a r).
Proof. intros Hr. pose proof (Z.quot_rem a r ltac:(lia)). exists (Z.quot a r). lia. Qed.

Lemma rem_sub_le a r : 0 < r -> 0 <= a -> 0 <= a - Z.rem a r <= a.
Proof. intros Hr Ha. pose proof (Z.rem_bound_pos a r Ha Hr). pose proof (Z.rem_le a r Ha Hr). lia. Qed.

Lemma div_round a r v : 0 < r -> 0 <= a -> v = a - Z.rem a r ->
  let w := if v =? 0 then r else v in 0 < w /\ (r | w) /\ w <= Z.max r a.
Proof.
  intros Hr Ha -> w. unfold w. pose proof (rem_sub_le a r Hr Ha) as E. pose proof (rem_sub_div a r Hr).
  destruct (Z.eqb_spec (a - Z.rem a r) 0); repeat split; try lia; auto. apply Z.divide_refl.
Qed.

Lemma clip_mc_spec M p m_r mc : 0 <= M -> 0 < p -> 0 < m_r ->
  exists v, clip_mc M p m_r mc = CRet v /\
    ((m_r | mc) -> (m_r | v)) /\ (0 < mc -> 0 < v /\ p * v <= M + p * m_r).
Proof.
  intros HM Hp Hmr. unfold clip_mc.
  destruct (Z.ltb_spec M (p * m_r)) as [H1|H1].
  { exists m_r. repeat split; auto. - intros _. apply Z.divide_refl. - nia. }
  destruct (Z.ltb_spec M (p * mc)) as [H2|H2].
  - rewrite idiv_pos by lia. cbn [cbind]. set (a := Z.quot M p).
    pose proof (Z.quot_rem M p ltac:(lia)) as Q. pose proof (Z.rem_bound_pos M p HM Hp) as R. fold a in Q.
    assert (Ha : m_r <= a) by nia.
    destruct (Z.ltb_spec a m_r) as [H3|H3]; [lia|].
    rewrite imod_pos by lia. cbn [cbind]. eexists. split; [reflexivity|].
    pose proof (Z.rem_bound_pos a m_r ltac:(lia) Hmr).
    split.
    + intros _. destruct (rem_sub_div a m_r Hmr) as [u Hu]. exists (u + 1). lia.
    + intros _. split; nia.
  - exists mc. repeat split; auto. nia.
Qed.

Section Init.

Variables (F : fpenv) (M N K p : Z) (c : cntx) (s : sched) (mcu kcu ncu : Z).
Hypothesis HM : 0 <= M.
Hypothesis Hp : 0 < p.
Hypothesis Hmr : 0 < mr c.
Hypothesis Hnr : 0 < nr c.

Lemma cache_dims_ok : tiles_ok F M p c mcu kcu ncu ->
  exists cd al, get_cache_dims F M N K p c s mcu kcu ncu = CRet (cd, al) /\
    0 < cd_m_c cd /\ 0 < cd_k_c cd /\ 0 < cd_n_c cd /\ (mr c | cd_m_c cd) /\ (nr c | cd_n_c cd) /\
    (s <> NA -> cd_sch cd = s) /\ cd_sch cd <> NA /\
    (user_tiles c mcu kcu ncu -> cd_m_c cd = mcu /\ cd_k_c cd = kcu /\ cd_n_c cd = ncu).
Proof.
  intros Ht. unfold get_cache_dims. rewrite !imod_pos by lia. cbn [cbind].
  set (m2 := fp_mcL2 F (nr c) (L2 c)). set (m3 := fp_mcL3 F (L3 c) (ncores c)).
  destruct (clip_mc_spec M p (mr c) (m2 - Z.rem m2 (mr c)) HM Hp Hmr) as (mc & -> & Hd & Hpos). cbn [cbind].
  set (al := (m3 - Z.rem m3 (mr c), m2 - Z.rem m2 (mr c))).
  set (s' := match s with NA => derive_schedule F M N K p mc al | _ => s end).
  assert (Hs' : s' <> NA).
  { unfold s', derive_schedule. destruct s; try discriminate. now destruct (fp_mkn F M N K p mc al), (fp_nkm F M N K p mc al). }
  assert (Hss : s <> NA -> s' = s) by (unfold s'; destruct s; congruence).
  destruct Ht as [(U1 & U2 & U3 & U4 & U5)|(A1 & A2 & A3)].
  - replace (truthy mcu && truthy ncu && truthy kcu) with true.
    2:{ unfold truthy. destruct (Z.eqb_spec mcu 0), (Z.eqb_spec ncu 0), (Z.eqb_spec kcu 0); (reflexivity || lia). }
    do 2 eexists. split; [reflexivity|]. cbn. repeat split; auto.
  - replace (truthy mcu && truthy ncu && truthy kcu) with false.
    2:{ unfold truthy. destruct (Z.eqb_spec mcu 0), (Z.eqb_spec ncu 0), (Z.eqb_spec kcu 0); (reflexivity || lia). }
    assert (Hnu : user_tiles c mcu kcu ncu -> False) by (intros (? & ? & ? & _); lia).
    fold m2 in A2.
    assert (Hmc2 : 0 < m2 - Z.rem m2 (mr c)).
    { pose proof (rem_sub_div m2 (mr c) Hmr) as [u Hu]. pose proof (Z.rem_bound_pos m2 (mr c) ltac:(lia) Hmr). nia. }
    destruct (Hpos Hmc2) as (P1 & P2). pose proof (Hd (rem_sub_div m2 (mr c) Hmr)) as D.
    assert (Hfp : forall q y, 0 < q <= p -> 0 < y -> q * y <= M + p * mr c -> exists v, fp_mul F al q y = Some v /\ 0 <= v) by exact A3.
    assert (KM : exists cd al0, (do nc0 <- ofopt (fp_mul F al p mc);
        do rn <- imod nc0 (nr c);
        CRet (CD mc mc (if nc0 - rn =? 0 then nr c else nc0 - rn) s', al)) = CRet (cd, al0) /\
      0 < cd_m_c cd /\ 0 < cd_k_c cd /\ 0 < cd_n_c cd /\ (mr c | cd_m_c cd) /\ (nr c | cd_n_c cd) /\ cd_sch cd = s').
    { destruct (Hfp p mc ltac:(lia) ltac:(lia) ltac:(nia)) as (v & -> & Hv). cbn [cbind ofopt]. rewrite imod_pos by lia. cbn [cbind].
      pose proof (div_round v (nr c) _ Hnr Hv eq_refl) as (W1 & W2 & _).
      do 2 eexists. split; [reflexivity|]. cbn [cd_m_c cd_k_c cd_n_c cd_sch]. repeat split; auto. }
    assert (NK : exists cd al0, (do rn <- imod mc (nr c);
        do mc0 <- ofopt (fp_mul F al 1 mc);
        do rm <- imod mc0 (mr c);
        let mc' := if mc0 - rm =? 0 then mr c else mc0 - rm in
        CRet (CD mc' mc' (if mc - rn =? 0 then nr c else mc - rn) s', al)) = CRet (cd, al0) /\
      0 < cd_m_c cd /\ 0 < cd_k_c cd /\ 0 < cd_n_c cd /\ (mr c | cd_m_c cd) /\ (nr c | cd_n_c cd) /\ cd_sch cd = s').
    { rewrite imod_pos by lia. cbn [cbind].
      destruct (Hfp 1 mc ltac:(lia) ltac:(lia) ltac:(nia)) as (v & -> & Hv). cbn [cbind ofopt]. rewrite imod_pos by lia. cbn [cbind].
      pose proof (div_round v (mr c) _ Hmr Hv eq_refl) as (W1 & W2 & _).
      pose proof (div_round mc (nr c) _ Hnr ltac:(lia) eq_refl) as (X1 & X2 & _).
      do 2 eexists. split; [reflexivity|]. cbn [cd_m_c cd_k_c cd_n_c cd_sch]. repeat split; auto. }
    assert (G : forall cd : cache_dims, cd_sch cd = s' -> (s <> NA -> cd_sch cd = s) /\ cd_sch cd <> NA)
      by (intros cd ->; auto).
    clearbody s'. destruct s'.
    + destruct KM as (cd & al0 & E & B1 & B2 & B3 & B4 & B5 & B6). exists cd, al0.
      destruct (G cd B6). repeat split; auto; intros; exfalso; auto.
    + destruct KM as (cd & al0 & E & B1 & B2 & B3 & B4 & B5 & B6). exists cd, al0.
      destruct (G cd B6). repeat split; auto; intros; exfalso; auto.
    + destruct NK as (cd & al0 & E & B1 & B2 & B3 & B4 & B5 & B6). exists cd, al0.
      destruct (G cd B6). repeat split; auto; intros; exfalso; auto.
    + congruence.
Qed.

Lemma init_ok : tiles_ok F M p c mcu kcu ncu ->
  exists mc kc nc al s',
    init_block_dims F M N K p c s mcu kcu ncu =
      cbind (dims_of s' M N K p mc kc nc (mr c) (nr c)) (fun x =>
        CRet (x, Cntx al (mr c) (nr c) (m_map c) (n_map c) (L1 c) (L2 c) (L3 c) (ncores c))) /\
    0 < mc /\ 0 < kc /\ 0 < nc /\ (mr c | mc) /\ (nr c | nc) /\ s' <> NA /\ (s <> NA -> s' = s) /\
    (user_tiles c mcu kcu ncu -> mc = mcu /\ kc = kcu /\ nc = ncu).
Proof.
  intros Ht. destruct (cache_dims_ok Ht) as (cd & al & E & A1 & A2 & A3 & A4 & A5 & A6 & A7 & A8).
  exists (cd_m_c cd), (cd_k_c cd), (cd_n_c cd), al, (cd_sch cd).
  split; [|repeat split; auto; apply A8; auto].
  unfold init_block_dims. rewrite E. cbn [cbind fst snd]. destruct (cd_sch cd); reflexivity.
Qed.

End Init.
