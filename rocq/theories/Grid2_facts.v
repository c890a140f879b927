(** * Block sizes for a two-dimensional grid of cores. *)

From Coq Require Import ZArith List Bool Lia.
From Verif Require Import Lang Spec SpecTop ModelSizing ModelPack ModelSched Sizing_facts PackMat_facts CallAll_facts.
Import ListNotations.
Open Scope Z_scope.

(** One dimension of size D cut into blocks of g*t, each block shared by up to g cores, in units of r. *)
(** Like [part], but pieces may be empty. *)
Record partz (nb t D : Z) (w : Z -> Z) : Prop := PartZ {
  pz_nb : 0 <= nb;
  pz_w : forall b, 0 <= b < nb -> 0 <= w b <= t;
  pz_full : forall b, 0 <= b -> b + 1 < nb -> w b = t;
  pz_last : 0 < nb -> (nb - 1) * t + w (nb - 1) = D;
  pz_0 : nb = 0 -> D = 0 }.

Lemma part_z nb t D w : part nb t D w -> partz nb t D w.
Proof. intros [H1 H2 H3 H4 H5]. constructor; auto. intros b Hb. specialize (H2 b Hb). lia. Qed.

Lemma pz_end nb t D w b : partz nb t D w -> 0 <= b < nb -> b * t + w b <= D.
Proof.
  intros H Hb. rewrite <- (pz_last _ _ _ _ H) by lia.
  destruct (Z.eq_dec b (nb - 1)) as [->|]; [lia|].
  pose proof (pz_w _ _ _ _ H b Hb). pose proof (pz_w _ _ _ _ H (nb - 1) ltac:(lia)). nia.
Qed.

Lemma pz_sep nb t D w b b' : partz nb t D w -> 0 <= b < nb -> b < b' -> b * t + w b <= b' * t.
Proof. intros H Hb Hbb. pose proof (pz_w _ _ _ _ H b Hb). nia. Qed.

Lemma pz_cover nb t D w i : partz nb t D w -> 0 <= i < D -> exists b, 0 <= b < nb /\ b * t <= i < b * t + w b.
Proof.
  intros H Hi. pose proof (pz_nb _ _ _ _ H) as Hn.
  destruct (Z.eq_dec nb 0) as [E|E]. { rewrite (pz_0 _ _ _ _ H E) in Hi. lia. }
  pose proof (pz_w _ _ _ _ H (nb - 1) ltac:(lia)) as Hw.
  destruct (Z_lt_le_dec i ((nb - 1) * t)).
  - assert (0 < t) by nia. exists (i / t).
    pose proof (Z.div_mod i t ltac:(lia)). pose proof (Z.mod_pos_bound i t ltac:(lia)).
    assert (0 <= i / t) by (apply Z.div_pos; lia).
    assert (i / t < nb - 1) by (apply Z.div_lt_upper_bound; nia).
    split; [lia|]. rewrite (pz_full _ _ _ _ H) by lia. nia.
  - exists (nb - 1). split; [lia|]. rewrite <- (pz_last _ _ _ _ H) in Hi by lia. lia.
Qed.

Lemma partz_ext nb t t' D D' w w' : (forall b, 0 <= b < nb -> w b = w' b) -> t = t' -> D = D' ->
  partz nb t D w -> partz nb t' D' w'.
Proof.
  intros E <- <- [H1 H2 H3 H4 H5]. constructor; auto.
  - intros b Hb. rewrite <- E by auto. auto.
  - intros b Hb Hb'. rewrite <- E by lia. auto.
  - intros Hn. rewrite <- E by lia. auto.
Qed.

Record dimf (D g t r nb pad Dp : Z) (pu mcb mx : Z -> Z) (mt : Z -> Z -> Z) : Prop := DimF {
  df_P : part nb (g * t) Dp mcb;
  df_pu : forall b, 0 <= b < nb -> 1 <= pu b <= g;
  df_C : forall b, 0 <= b < nb -> partz (pu b) (mx b) (mcb b) (mt b);
  df_mx : forall b, 0 <= b < nb -> 0 < mx b <= t;
  df_r : forall b c, 0 <= b < nb -> 0 <= c < pu b -> (r | mt b c);
  df_xr : forall b, 0 <= b < nb -> (r | mx b);
  df_br : forall b, 0 <= b < nb -> (r | mcb b);
  df_1 : forall b, 0 <= b < nb -> b * (g * t) < D;
  df_last : forall b, 0 <= b < nb -> is_last b nb pad = true -> b * (g * t) = D - Z.rem D (g * t);
  df_Dp : D <= Dp < D + r;
  df_Dd : (r | Dp) }.

Lemma dimf_ext D g t r nb pad Dp pu mcb mx mt pu' mcb' mx' mt' :
  (forall b, pu b = pu' b) -> (forall b, mcb b = mcb' b) -> (forall b, mx b = mx' b) ->
  (forall b c, mt b c = mt' b c) ->
  dimf D g t r nb pad Dp pu mcb mx mt -> dimf D g t r nb pad Dp pu' mcb' mx' mt'.
Proof.
  intros E1 E2 E3 E4 [H1 H2 H3 H4 H5 H6 H6' H7 H8 H9 H10]. constructor; auto.
  - eapply part_ext; [| | |exact H1]; auto.
  - intros b Hb. rewrite <- E1. auto.
  - intros b Hb. rewrite <- E1, <- E2, <- E3. eapply partz_ext; [| | |apply (H3 b Hb)]; auto.
  - intros b Hb. rewrite <- E3. auto.
  - intros b c Hb Hc. rewrite <- E4. apply H5; auto. now rewrite E1.
  - intros b Hb. rewrite <- E3. auto.
  - intros b Hb. rewrite <- E2. auto.
Qed.

Lemma dim_facts D g t r : 0 <= D -> 0 < g -> 0 < t -> 0 < r -> (r | t) ->
  let rem := Z.rem D (g * t) in
  let rr := cdiv rem r in
  let pc := cdiv rr g in
  let pl := if truthy pc then cdiv rr pc else 0 in
  let pad := pad01 rem in
  let nb := Z.quot D (g * t) + pad in
  dimf D g t r nb pad (r * rr + Z.quot D (g * t) * g * t)
    (fun b => if is_last b nb pad then pl else g)
    (fun b => if is_last b nb pad then r * rr else g * t)
    (fun b => if is_last b nb pad then pc * r else t)
    (fun b c => if is_last b nb pad then (if c =? pl - 1 then (pc - (pl * pc - rr)) * r else pc * r) else t).
Proof.
  intros HD Hg Ht Hr Dr rem rr pc pl pad nb.
  assert (Hgt : 0 < g * t) by nia.
  pose proof (Z.rem_bound_pos D (g * t) HD Hgt) as B. fold rem in B.
  pose proof (Z.quot_rem D (g * t) ltac:(lia)) as Q. fold rem in Q.
  assert (Hm0 : rem = 0 -> rr = 0 /\ pc = 0).
  { intros E. unfold pc, rr. rewrite E, cdiv_0, cdiv_0 by lia. auto. }
  assert (Cm : 0 < rem -> 0 < pc /\ 1 <= pl <= g /\ pc * r <= t /\ rem <= rr * r <= g * t /\
     part pl (pc * r) (rr * r) (fun c => if c =? pl - 1 then (pc - (pl * pc - rr)) * r else pc * r)).
  { intros H0. pose proof (core_split rem g r t H0 Hg Hr Dr ltac:(lia) Ht) as C. cbv zeta in C.
    fold rr pc in C. unfold pl. unfold truthy. destruct (Z.eqb_spec pc 0); [lia|exact C]. }
  assert (Lm : 0 < r * rr <= g * t \/ Z.rem D (g * t) = 0).
  { fold rem. destruct (Z.eq_dec rem 0); [auto|left]. destruct Cm as (_ & _ & _ & C & _); lia. }
  destruct (part_quot D (g * t) (r * rr) HD Hgt Lm) as (P1 & P2 & P3 & P4 & P5 & P6).
  fold rem in P1, P2, P3, P4, P5, P6. cbv zeta in *. fold pad in P1, P2, P3, P4, P5, P6. fold nb in P1, P2, P3, P6.
  constructor.
  - eapply part_ext; [| | |exact P1]; auto. destruct (Z.eq_dec rem 0) as [E|E].
    + rewrite P4 by auto. cbn. destruct (Hm0 E) as (-> & _). lia.
    + rewrite P5 by auto. cbn. lia.
  - intros b Hb. destruct (is_last b nb pad) eqn:El; [|lia]. destruct (P3 b Hb El). apply Cm; lia.
  - intros b Hb. destruct (is_last b nb pad) eqn:El.
    + destruct (P3 b Hb El). destruct Cm as (_ & _ & _ & _ & C); [lia|].
      apply part_z. eapply part_ext; [| | |exact C]; auto. ring.
    + apply part_z, part_const; lia.
  - intros b Hb. destruct (is_last b nb pad) eqn:El; [|lia]. destruct (P3 b Hb El). destruct Cm as (C1 & _ & C2 & _); [lia|]. nia.
  - intros b c Hb Hc. destruct (is_last b nb pad); [|auto]. destruct (c =? pl - 1); apply Z.divide_factor_r.
  - intros b Hb. destruct (is_last b nb pad); [|auto]. apply Z.divide_factor_r.
  - intros b Hb. destruct (is_last b nb pad); [apply Z.divide_factor_l|]. now apply Z.divide_mul_r.
  - intros b Hb. auto.
  - intros b Hb El. destruct (P3 b Hb El). fold rem. auto.
  - pose proof (cdiv_spec rem r Hr) as C. fold rr in C. lia.
  - apply Z.divide_add_r; [apply Z.divide_factor_l|]. now apply Z.divide_mul_r.
Qed.

(** ** The facts about init_block_dims_2d *)
Record g2_facts (M N K p m_r n_r : Z) (x : blk_dims) : Prop := G2Facts {
  gf_mc : 0 < m_c x; gf_kc : 0 < k_c x; gf_nc : 0 < n_c x;
  gf_pm : 1 <= pm x; gf_pn : 1 <= pn x; gf_pp : pm x * pn x <= p;
  gf_K : part (Kb x) (k_c x) K (blk_kt x);
  gf_M : dimf M (pm x) (m_c x) m_r (Mb x) (m_pad x) (M_padded x) (g2_pum x) (g2_mcb x m_r) (g2_mx x) (g2_mt x);
  gf_N : dimf N (pn x) (n_c x) n_r (Nb x) (n_pad x) (N_padded x) (g2_pun x) (g2_ncb x n_r) (g2_nx x) (g2_nt x) }.

Lemma roundup_ok a r : 0 <= a -> 0 < r -> exists v, roundup a r = CRet v /\ (r | v) /\ a <= v < a + r.
Proof.
  intros Ha Hr. unfold roundup. rewrite imod_pos by lia. cbn [cbind].
  pose proof (Z.rem_bound_pos a r Ha Hr) as B. pose proof (Z.quot_rem a r ltac:(lia)) as Q.
  unfold truthy. destruct (Z.eqb_spec (Z.rem a r) 0) as [E|E]; cbn [negb]; eexists; (split; [reflexivity|]); (split; [|lia]).
  - exists (Z.quot a r). lia.
  - exists (Z.quot a r + 1). lia.
Qed.

Lemma fit2d_ok Dp g t r : 0 < Dp -> (r | Dp) -> 0 < g -> 0 < t -> 0 < r -> (r | t) ->
  exists t' g', fit2d Dp g t r = CRet (t', g') /\ 0 < t' /\ (r | t') /\ 1 <= g' <= g.
Proof.
  intros HD [u ->] Hg Ht Hr Dt. unfold fit2d.
  assert (Hu : 0 < u) by nia.
  destruct (Z.eqb_spec (u * r) (g * r)) as [E|E].
  { exists r, 1. repeat split; try lia. apply Z.divide_refl. }
  destruct (Z.ltb_spec (u * r) (g * t)) as [L|L].
  2:{ exists t, g. repeat split; auto; lia. }
  rewrite idiv_pos by lia. cbn [cbind].
  pose proof (Z.quot_rem (u * r) g ltac:(lia)) as Q. pose proof (Z.rem_bound_pos (u * r) g ltac:(lia) Hg) as B.
  assert (Hq : 0 <= Z.quot (u * r) g) by (apply Z.quot_pos; lia).
  set (a := Z.quot (u * r) g) in *. set (b := Z.rem (u * r) g) in *.
  destruct (Z.ltb_spec a r) as [La|La].
  - rewrite idiv_pos by lia. cbn [cbind]. rewrite Z.quot_mul by lia. exists r, u.
    split; [reflexivity|split; [lia|split; [apply Z.divide_refl|]]]. nia.
  - destruct (roundup_ok a r Hq Hr) as (v & -> & Dv & Hv). cbn [cbind].
    exists v, g. split; [reflexivity|split; [lia|split; [auto|lia]]].
Qed.

(** what the tile sizes must be *)
Definition mk2d (F : fpenv) (c : cntx) (mcu kcu ncu : Z) : Z * Z :=
  if truthy mcu && truthy ncu && truthy kcu then (mcu, kcu)
  else (fp_mc2d F (nr c) (L2 c) - Z.rem (fp_mc2d F (nr c) (L2 c)) (mr c), fp_kcmax F (L1 c) (mr c) (nr c)).

Lemma pl_comp2 a b : 0 <= a -> 0 < b ->
  (if truthy (cdiv a b) then iceil a (cdiv a b) else CRet 0)
  = CRet (if truthy (cdiv a b) then cdiv a (cdiv a b) else 0).
Proof.
  intros Ha Hb. destruct (truthy (cdiv a b)) eqn:E; [|auto].
  unfold truthy in E. rewrite iceil_pos; auto.
  destruct (Z.eqb_spec (cdiv a b) 0) as [E'|E']; [discriminate|].
  pose proof (cdiv_spec a b Hb). nia.
Qed.

Lemma dims_2d_ok F M N K p rows c mcu kcu ncu pn0 :
  0 < M -> 0 < N -> 0 <= K -> 0 < p -> 0 < mr c -> 0 < nr c ->
  grid_dims_2d F M N p (ncores c) rows = CRet pn0 -> 1 <= pn0 <= p ->
  0 < fst (mk2d F c mcu kcu ncu) -> (mr c | fst (mk2d F c mcu kcu ncu)) -> 0 < snd (mk2d F c mcu kcu ncu) ->
  exists x, init_block_dims_2d F M N K p rows c KMN mcu kcu ncu = CRet x /\
    g2_facts M N K p (mr c) (nr c) x /\ k_c x = snd (mk2d F c mcu kcu ncu).
Proof.
  intros HM HN HK Hp Hmr Hnr Eg Hpn H1 H2 H3. unfold init_block_dims_2d. cbv zeta. rewrite Eg. cbn [cbind].
  rewrite idiv_pos by lia. cbn [cbind].
  pose proof (Z.quot_rem p pn0 ltac:(lia)) as Qp. pose proof (Z.rem_bound_pos p pn0 ltac:(lia) ltac:(lia)) as Bp.
  set (pm0 := Z.quot p pn0) in *.
  assert (Hpm : 1 <= pm0) by nia.
  destruct (roundup_ok M (mr c) ltac:(lia) Hmr) as (Mp & -> & DMp & BMp). cbn [cbind].
  destruct (roundup_ok N (nr c) ltac:(lia) Hnr) as (Np & -> & DNp & BNp). cbn [cbind].
  replace (if truthy mcu && truthy ncu && truthy kcu then CRet (mcu, kcu)
           else do r <- imod (fp_mc2d F (nr c) (L2 c)) (mr c); CRet (fp_mc2d F (nr c) (L2 c) - r, fp_kcmax F (L1 c) (mr c) (nr c)))
    with (CRet (mk2d F c mcu kcu ncu)).
  2:{ unfold mk2d. destruct (truthy mcu && truthy ncu && truthy kcu); [auto|]. now rewrite imod_pos by lia. }
  cbn [cbind]. set (mk := mk2d F c mcu kcu ncu) in *. clearbody mk. destruct mk as (mc0 & kc). cbn [fst snd] in *.
  rewrite imod_pos by lia. cbn [cbind].
  destruct (fit2d_ok Mp pm0 mc0 (mr c)) as (mc & pm' & -> & Hmc & Dmc & Hpm'); auto; try lia. cbn [cbind fst snd].
  destruct (roundup_ok mc (nr c) ltac:(lia) Hnr) as (nc0 & -> & Dnc0 & Bnc0). cbn [cbind].
  destruct (fit2d_ok Np pn0 nc0 (nr c)) as (nc & pn' & -> & Hnc & Dnc & Hpn'); auto; try lia. cbn [cbind fst snd].
  assert (Gm : 0 < pm' * mc) by nia. assert (Gn : 0 < pn' * nc) by nia.
  rewrite !imod_pos, !idiv_pos by lia. cbn [cbind].
  rewrite !(iceil_pos _ (mr c)), !(iceil_pos _ (nr c)) by lia. cbn [cbind].
  rewrite (iceil_pos _ pm'), (iceil_pos _ pn') by lia. cbn [cbind].
  pose proof (Z.rem_bound_pos M (pm' * mc) ltac:(lia) Gm) as BM. pose proof (Z.rem_bound_pos N (pn' * nc) ltac:(lia) Gn) as BN.
  rewrite !pl_comp2.
  2:{ pose proof (cdiv_spec (Z.rem N (pn' * nc)) (nr c) Hnr). nia. }
  2:{ lia. }
  2:{ pose proof (cdiv_spec (Z.rem M (pm' * mc)) (mr c) Hmr). nia. }
  2:{ lia. }
  cbn [cbind]. eexists. split; [reflexivity|]. split; [|reflexivity].
  constructor; cbn [m_c k_c n_c pm pn Mb Nb Kb M_padded N_padded m_pad n_pad]; try lia.
  - nia.
  - pose proof (Z.rem_bound_pos K kc HK H3) as BK.
    assert (Lk : 0 < Z.rem K kc <= kc \/ Z.rem K kc = 0) by lia.
    destruct (part_quot K kc (Z.rem K kc) HK H3 Lk) as (PK & _ & _ & PK3 & PK4 & _).
    eapply part_ext; [| | |exact PK]; auto. cbv zeta.
    pose proof (Z.quot_rem K kc ltac:(lia)) as QK.
    destruct (Z.eq_dec (Z.rem K kc) 0) as [E|E]; [rewrite PK3 by auto; auto|rewrite PK4 by auto; cbn; lia].
  - eapply dimf_ext; [| | | |apply (dim_facts M pm' mc (mr c)); auto; lia]; cbv zeta; reflexivity.
  - eapply dimf_ext; [| | | |apply (dim_facts N pn' nc (nr c)); auto; lia]; cbv zeta; reflexivity.
Qed.
