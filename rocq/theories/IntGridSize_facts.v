(** * The sizing of the processor grid in 32-bit arithmetic. *)

From Coq Require Import ZArith List Bool Lia.
From Verif Require Import SpecInt SpecIntGrid Lang Spec SpecTop SpecOnline ModelSizing ModelKernel ModelPack ModelSched ModelInt ModelIntGrid
  Sizing_facts Grid2_facts Grid_tab_facts CallAll_facts TopMN_facts TopOnline_facts Top2d_facts Small2d_facts Grid_call_facts Int_facts IntPack_facts IntTile_facts IntSize_facts IntTop_facts.
Open Scope Z_scope.

Lemma grid_32 F M N p cores rows v :
  0 < p -> 0 <= fp_pn F p N M -> cores < 2 ^ 31 ->
  grid_dims_2d F M N p cores rows = CRet v -> grid_dims_2d32 F M N p cores rows = CRet v.
Proof.
  intros Hp Hf Lc. unfold grid_dims_2d, grid_dims_2d32.
  destruct (Z.eqb_spec M 0) as [E|HM]; [discriminate|]. cbv zeta.
  pose proof (want_range F M N p Hp Hf) as Hw. unfold want in Hw. cbv zeta in Hw.
  set (w := if p <? _ then _ else _) in *.
  assert (D : in_tab cores rows p \/ ~ in_tab cores rows p) by (unfold in_tab; lia).
  destruct D as [HT|HT]; [|rewrite (tab_not cores rows p _ HT); discriminate].
  assert (HT' := HT). unfold in_tab in HT'.
  rewrite cint_bind by (safe; lia). rewrite cint_bind by (safe; lia). cbn [ival].
  rewrite (tab_in cores rows p w HT) by lia. cbn [cbind].
  destruct (Z.rem p w =? 0) eqn:E; [auto|].
  assert (Nw : ~ (w | p)) by (intros H; apply (rem0_divide p) in H; [congruence|lia|lia]).
  assert (W2 : 2 <= w < p).
  { assert (w <> p) by (intros ->; apply Nw, Z.divide_refl). assert (w <> 1) by (intros ->; apply Nw, Z.divide_1_l). lia. }
  destruct (scan_up_ok cores rows p Hp (Z.to_nat (p - w)) HT w ltac:(lia) ltac:(lia) ltac:(lia)) as (h & -> & H1 & H2 & H3).
  cbn [cbind]. rewrite cint_bind by (safe; lia). cbn [ival].
  destruct (scan_down_ok cores rows p Hp (Z.to_nat (w - 2)) HT (w - 2) ltac:(lia) ltac:(lia)) as (r & -> & HR).
  cbn [cbind]. destruct r as [l|]; [|discriminate]. destruct HR as (L1 & L2 & L3).
  rewrite cint_bind by (safe; lia). rewrite cint_bind by (safe; lia). cbn [ival].
  destruct (Z.ltb_spec (h - (w - 1)) (w - 1 - l)); rewrite cint_ok by (safe; lia); auto.
Qed.

Lemma roundup_32 a r v : 0 <= a -> 0 < r < 2 ^ 31 -> v < 2 ^ 31 -> roundup a r = CRet v -> roundup32 a r = CRet v.
Proof.
  intros Ha Hr Lv. unfold roundup, roundup32. rewrite imod_pos by lia. cbn [cbind].
  destruct (qr a r Ha ltac:(lia)) as (Q1 & Q2 & Q3 & Q4 & _). intros E. injection E as E.
  assert (a <= v) by (unfold truthy in E; destruct (Z.eqb_spec (Z.rem a r) 0); cbn [negb] in E; lia).
  rewrite cint_bind by (safe; lia). cbn [ival].
  destruct (truthy (Z.rem a r)) eqn:T; [|now rewrite E].
  rewrite cint_ok by (safe; lia). cbn [ival]. now rewrite E.
Qed.

Lemma mult_le a v t r : 0 < r -> a < t -> (r | v) -> (r | t) -> v < a + r -> v <= t.
Proof. intros Hr Ha [x ->] [y ->] Hv. destruct (Z_le_gt_dec x y) as [L|L]; [nia|]. assert ((y + 1) * r <= x * r) by (apply Z.mul_le_mono_nonneg_r; lia). lia. Qed.

Lemma fit_32 Dp g t r : 0 < Dp < 2 ^ 31 -> (r | Dp) -> 0 < g -> 0 < t -> 0 < r -> (r | t) -> g * t < 2 ^ 31 ->
  exists t' g', fit2d Dp g t r = CRet (t', g') /\ fit2d32 Dp g t r = CRet (t', g') /\
    0 < t' <= t /\ (r | t') /\ 1 <= g' <= g.
Proof.
  intros HD DD Hg Ht Hr Dt Lgt. assert (Hrt : r <= t) by (apply Z.divide_pos_le; auto).
  assert (L1 : 0 < g * r <= g * t) by nia.
  destruct (fit2d_ok Dp g t r) as (t' & g' & E & H1 & H2 & H3); auto; try lia.
  exists t', g'. split; [auto|]. unfold fit2d in E. unfold fit2d32.
  rewrite cint_bind by (safe; lia). cbn [ival].
  destruct (Z.eqb_spec Dp (g * r)) as [E1|E1].
  { injection E as <- <-. repeat split; auto; lia. }
  rewrite cint_bind by (safe; lia). cbn [ival].
  destruct (Z.ltb_spec Dp (g * t)) as [E2|E2].
  2:{ injection E as <- <-. repeat split; auto; lia. }
  destruct (qr Dp g) as (Q1 & Q2 & Q3 & Q4 & _); try lia.
  rewrite idiv_pos in E by lia. cbn [cbind] in E. rewrite cint_bind by (safe; lia). cbn [ival].
  assert (Qt : Z.quot Dp g < t) by nia.
  destruct (Z.ltb_spec (Z.quot Dp g) r) as [E3|E3].
  - rewrite idiv_pos in E by lia. cbn [cbind] in E. injection E as <- <-.
    destruct (qr Dp r) as (R1 & R2 & R3 & R4 & _); try lia.
    rewrite cint_bind by (safe; lia). cbn [ival]. repeat split; auto; lia.
  - destruct (roundup_ok (Z.quot Dp g) r) as (v & Ev & V1 & V2); try lia. rewrite Ev in E. cbn [cbind] in E. injection E as <- <-.
    assert (v <= t) by (apply (mult_le (Z.quot Dp g) v t r); auto; lia).
    assert (t <= g * t) by nia.
    rewrite (roundup_32 _ _ v) by (auto; lia). cbn [cbind]. repeat split; auto; lia.
Qed.

(** products of two factors below two bounds *)
Lemma mul_mono a b c d : 0 <= a <= c -> 0 <= b <= d -> 0 <= a * b <= c * d.
Proof. intros. nia. Qed.

Lemma fact_le a b : 0 < a -> 0 < b -> a <= a * b /\ b <= a * b.
Proof. intros. nia. Qed.

(** the tile the sizing starts from *)
Lemma mk_32 F c mcu kcu ncu m k : 0 < mr c -> 0 < nr c -> mk2d F c mcu kcu ncu = (m, k) -> 0 < m -> 0 < k -> (mr c | m) ->
  m * (m + nr c) < 2 ^ 31 -> (mcu = 0 \/ kcu = 0 \/ ncu = 0 -> 0 <= fp_mc2d F (nr c) (L2 c)) ->
  (if truthy mcu && truthy ncu && truthy kcu then CRet (mcu, kcu)
   else do m' <- cint (fp_mc2d F (nr c) (L2 c) - fp_mc2d F (nr c) (L2 c) rem mr c)%ix; CRet (m', fp_kcmax F (L1 c) (mr c) (nr c))) = CRet (m, k).
Proof.
  intros Hmr Hnr E Hm Hk Dm L Hf. unfold mk2d in E.
  destruct (truthy mcu && truthy ncu && truthy kcu)%bool eqn:T; [now rewrite E|]. cbv zeta.
  assert (Hz : mcu = 0 \/ kcu = 0 \/ ncu = 0).
  { unfold truthy in T. destruct (Z.eqb_spec mcu 0); [auto|]. destruct (Z.eqb_spec ncu 0); [auto|].
    destruct (Z.eqb_spec kcu 0); [auto|discriminate]. }
  specialize (Hf Hz). set (m0 := fp_mc2d F (nr c) (L2 c)) in *. injection E as E1 E2.
  destruct (qr m0 (mr c)) as (Q1 & Q2 & Q3 & Q4 & _); try lia.
  assert (mr c <= m) by (apply Z.divide_pos_le; auto).
  assert (m0 < 2 ^ 31) by nia.
  rewrite cint_bind by (apply ix_ok; [gr; lia|cbn [ival]; lia]). cbn [ival]. now rewrite E1, E2.
Qed.

(** what the share of the remaining rows or columns comes to *)
Lemma dims_2d_32 F M N K p rows c mcu kcu ncu pn0 m k :
  0 < M -> 0 < N -> 0 <= K < 2 ^ 31 -> 0 < p -> 0 < mr c -> 0 < nr c -> ncores c < 2 ^ 31 ->
  0 <= fp_pn F p N M -> grid_dims_2d F M N p (ncores c) rows = CRet pn0 -> 1 <= pn0 <= p -> p < 2 ^ 31 ->
  mk2d F c mcu kcu ncu = (m, k) -> 0 < m -> 0 < k -> (mr c | m) ->
  (mcu = 0 \/ kcu = 0 \/ ncu = 0 -> 0 <= fp_mc2d F (nr c) (L2 c)) ->
  round_up M (mr c) < 2 ^ 31 -> round_up N (nr c) < 2 ^ 31 ->
  m * (m + nr c) < 2 ^ 31 -> p * (m + nr c) * k < 2 ^ 31 ->
  exists x, init_block_dims_2d F M N K p rows c KMN mcu kcu ncu = CRet x /\
    init_block_dims_2d32 F M N K p rows c KMN mcu kcu ncu = CRet x /\
    g2_facts M N K p (mr c) (nr c) x /\ k_c x = k /\ m_c x <= m /\ n_c x <= m + nr c /\
    M_padded x = round_up M (mr c) /\ N_padded x = round_up N (nr c).
Proof.
  intros HM HN HK Hp Hmr Hnr Lco Hf Eg Hpn Lp Emk H1 H2 Dm Hf2 LM LN L1 L2.
  destruct (dims_2d_ok F M N K p rows c mcu kcu ncu pn0) as (x & Ex & Fx & Kx); auto; try lia; try (rewrite Emk; auto).
  rewrite Emk in Kx. cbn [snd] in Kx.
  assert (Hs : 1 <= p * (m + nr c) <= p * (m + nr c) * k) by nia.
  assert (Hm' : p * m < 2 ^ 31 /\ m < 2 ^ 31 /\ m + nr c < 2 ^ 31 /\ k < 2 ^ 31) by nia.
  assert (Hrm : mr c <= m) by (apply Z.divide_pos_le; auto).
  destruct Hm' as (B1 & B2 & B3 & B4).
  exists x. split; [auto|].
  unfold init_block_dims_2d in Ex. unfold init_block_dims_2d32. cbv zeta in Ex |- *.
  rewrite (grid_32 F M N p (ncores c) rows pn0) by auto. rewrite Eg in Ex. cbn [cbind] in Ex |- *.
  destruct (qr p pn0) as (P1 & P2 & P3 & P4 & _); try lia.
  rewrite idiv_pos in Ex by lia. cbn [cbind] in Ex. rewrite cint_bind by (safe; lia). cbn [ival].
  assert (P5 : 1 <= Z.quot p pn0) by nia. set (pm0 := Z.quot p pn0) in *.
  destruct (roundup_ok M (mr c) ltac:(lia) Hmr) as (Mp & EMp & DMp & BMp).
  destruct (roundup_ok N (nr c) ltac:(lia) Hnr) as (Np & ENp & DNp & BNp).
  assert (RM : round_up M (mr c) = Mp) by (apply roundup_uniq; auto).
  assert (RN : round_up N (nr c) = Np) by (apply roundup_uniq; auto).
  rewrite EMp, ENp in Ex. cbn [cbind] in Ex.
  rewrite (roundup_32 M (mr c) Mp) by (auto; lia). cbn [cbind]. rewrite (roundup_32 N (nr c) Np) by (auto; lia). cbn [cbind].
  assert (B5 : mr c * nr c < 2 ^ 31) by nia.
  pose proof (mul_ge0 (mr c) (nr c) ltac:(lia) ltac:(lia)).
  rewrite cint_bind by (safe; lia). rewrite cint_bind by (safe; lia).
  rewrite (mk_32 F c mcu kcu ncu m k) by auto. cbn [cbind fst snd].
  replace (if truthy mcu && truthy ncu && truthy kcu then CRet (mcu, kcu)
           else do r <- imod (fp_mc2d F (nr c) (ModelSizing.L2 c)) (mr c); CRet (fp_mc2d F (nr c) (ModelSizing.L2 c) - r, fp_kcmax F (ModelSizing.L1 c) (mr c) (nr c)))
    with (CRet (mk2d F c mcu kcu ncu)) in Ex.
  2:{ unfold mk2d. destruct (truthy mcu && truthy ncu && truthy kcu)%bool; [auto|]. now rewrite imod_pos by lia. }
  rewrite Emk in Ex. cbn [cbind fst snd] in Ex.
  destruct (qr K k) as (K1 & K2 & K3 & K4 & K5 & K6); try lia.
  rewrite imod_pos in Ex by lia. cbn [cbind] in Ex. rewrite cint_bind by (safe; lia). cbn [ival].
  assert (Lg1 : pm0 * m < 2 ^ 31) by (pose proof (mul_mono pm0 m p m ltac:(lia) ltac:(lia)); lia).
  destruct (fit_32 Mp pm0 m (mr c)) as (mc & pm' & F1 & F2 & Hmc & Dmc & Hpm'); auto; try lia.
  rewrite F1 in Ex. rewrite F2. cbn [cbind fst snd] in Ex |- *.
  destruct (roundup_ok mc (nr c) ltac:(lia) Hnr) as (nc0 & En0 & Dn0 & Bn0).
  rewrite En0 in Ex. rewrite (roundup_32 mc (nr c) nc0) by (auto; lia). cbn [cbind] in Ex |- *.
  assert (Lg2 : pn0 * nc0 < 2 ^ 31) by (pose proof (mul_mono pn0 nc0 p (m + nr c) ltac:(lia) ltac:(lia)); lia).
  destruct (fit_32 Np pn0 nc0 (nr c)) as (nc & pn' & G1 & G2 & Hnc & Dnc & Hpn'); auto; try lia.
  rewrite G1 in Ex. rewrite G2. cbn [cbind fst snd] in Ex |- *.
  assert (Gm : 0 < pm' * mc < 2 ^ 31) by (pose proof (mul_mono pm' mc pm0 m ltac:(lia) ltac:(lia)); pose proof (Z.mul_pos_pos pm' mc); lia).
  assert (Gn : 0 < pn' * nc < 2 ^ 31) by (pose proof (mul_mono pn' nc pn0 nc0 ltac:(lia) ltac:(lia)); pose proof (Z.mul_pos_pos pn' nc); lia).
  pose proof (kmn_share M pm' mc (mr c) ltac:(lia) ltac:(lia) ltac:(lia) ltac:(lia) Dmc ltac:(lia)) as SM.
  pose proof (kmn_share N pn' nc (nr c) ltac:(lia) ltac:(lia) ltac:(lia) ltac:(lia) Dnc ltac:(lia)) as SN.
  pose proof (roundup_is M (pm' * mc) (mr c) ltac:(lia) ltac:(lia) Hmr (Z.divide_mul_r _ _ _ Dmc)) as RiM.
  pose proof (roundup_is N (pn' * nc) (nr c) ltac:(lia) ltac:(lia) Hnr (Z.divide_mul_r _ _ _ Dnc)) as RiN.
  rewrite RM in RiM, LM. rewrite RN in RiN, LN. rewrite RM, RN.
  destruct (qr M (pm' * mc)) as (M1 & M2 & M3 & M4 & M5 & M6); try lia.
  destruct (qr N (pn' * nc)) as (N1 & N2 & N3 & N4 & N5 & N6); try lia.
  rewrite !imod_pos, !idiv_pos in Ex by lia. cbn [cbind] in Ex.
  rewrite !(iceil_pos _ (mr c)), !(iceil_pos _ (nr c)) in Ex by lia. cbn [cbind] in Ex.
  rewrite (iceil_pos _ pm'), (iceil_pos _ pn') in Ex by lia. cbn [cbind] in Ex.
  rewrite !pl_comp' in Ex. cbn [cbind] in Ex.
  cbv zeta in SM, SN.
  pose proof (mul_ge0 (Z.quot M (pm' * mc)) (pm' * mc) ltac:(lia) ltac:(lia)) as PQM.
  pose proof (mul_ge0 (Z.quot N (pn' * nc)) (pn' * nc) ltac:(lia) ltac:(lia)) as PQN.
  rewrite cint_bind by (safe; lia). rewrite cint_bind by (safe; lia). cbn [ival].
  rewrite (iceil_pos _ (mr c)), (iceil_pos _ (nr c)) by lia. cbn [cbind].
  set (r := Z.rem M (pm' * mc)) in *. set (u := cdiv r (mr c)) in *. 
  set (rn := Z.rem N (pn' * nc)) in *. set (un := cdiv rn (nr c)) in *.
  rewrite (iceil_pos _ pm'), (iceil_pos _ pn') by lia. cbn [cbind].
  set (pc := cdiv u pm') in *. set (pcn := cdiv un pn') in *.
  rewrite !pl_comp'. cbn [cbind].
  set (pl := if truthy pc then cdiv u pc else 0) in *. set (pln := if truthy pcn then cdiv un pcn else 0) in *.
  destruct SM as (S1 & S2 & S3 & S4 & S5 & S6 & S7 & S8 & S9). destruct SN as (T1 & T2 & T3 & T4 & T5 & T6 & T7 & T8 & T9).
  injection Ex as Ex. subst x. cbn [m_c n_c k_c M_padded N_padded] in *.
  rewrite cint_bind by (safe; lia). cbn [ival].
  rewrite cint_bind by (safe; lia). cbn [ival].
  rewrite cint_bind by (safe; lia). cbn [ival].
  rewrite cint_bind by (safe; lia). cbn [ival].
  rewrite cint_bind by (safe; fold r; lia). cbn [ival].
  rewrite cint_bind by (safe; fold rn; lia). cbn [ival].
  rewrite cint_bind by (safe; lia). cbn [ival].
  rewrite cint_bind by (safe; lia). cbn [ival].
  rewrite cint_bind by (safe; lia). cbn [ival].
  split; [reflexivity|]. split; [exact Fx|]. repeat split; lia.
Qed.

Lemma small_dims_32 F ar rows c M N K p pn :
  legal_small F ar rows c M N K p pn -> small32 F c M N K p pn ->
  exists x, init_block_dims_2d_small F M N K p rows c KMN = CRet x /\
    init_block_dims_2d_small32 F M N K p rows c KMN = CRet x /\
    m_c x = small_tile M (p / pn) (mr c) /\ n_c x = small_tile N pn (nr c) /\
    k_c x = Z.min (fp_kcmax F (L1 c) (mr c) (nr c)) (small_tile M (p / pn) (mr c)) /\
    M_padded x = round_up M (mr c) /\ N_padded x = round_up N (nr c).
Proof.
  intros (Har & Hc & HM & HN & HK & Hp & Hf & Hg & FM & FN & Hkm)
    ((((LM & LN & LK & Lp) & LA & LB & LC) & Lco & LC1) & Lr & Lmn & LAp & LBp).
  destruct (ctx_pos_min ar c Har Hc) as (Hmr & Hnr & _).
  destruct (grid_found F M N p (ncores c) rows HM Hp Hf pn Hg) as (Hpn & Dpn & _).
  unfold init_block_dims_2d_small, init_block_dims_2d_small32. cbv zeta.
  rewrite (grid_32 F M N p (ncores c) rows pn) by auto. rewrite Hg. cbn [cbind].
  rewrite idiv_pos by lia. cbn [cbind]. rewrite cint_bind by (safe; try lia; apply Z.le_lt_trans with p; [apply Z.quot_le_upper_bound; nia|lia]). cbn [ival].
  assert (Epm : Z.quot p pn = p / pn) by (apply Z.quot_div_nonneg; lia). rewrite Epm.
  destruct Dpn as [pm0 Ep]. assert (Epp : p / pn = pm0) by (rewrite Ep; apply Z.div_mul; lia).
  rewrite Epp in *. assert (Hpm : 1 <= pm0 <= p) by nia.
  destruct (roundup_ok M (mr c) ltac:(lia) Hmr) as (Mp & EMr & DMp & BMp).
  destruct (roundup_ok N (nr c) ltac:(lia) Hnr) as (Np & ENr & DNp & BNp).
  assert (EMp : round_up M (mr c) = Mp) by (apply roundup_uniq; auto).
  assert (ENp : round_up N (nr c) = Np) by (apply roundup_uniq; auto).
  unfold small_fits, small_tile in *. rewrite EMp in *. rewrite ENp in *.
  rewrite EMr, ENr. rewrite (roundup_32 M (mr c) Mp), (roundup_32 N (nr c) Np) by (auto; lia). cbn [cbind].
  destruct (small_dim M pm0 (mr c) Mp HM ltac:(lia) Hmr DMp BMp) as (T1 & T2 & T3 & T4 & T5).
  destruct (small_dim N pn (nr c) Np HN ltac:(lia) Hnr DNp BNp) as (U1 & U2 & U3 & U4 & U5).
  destruct (qr Mp pm0) as (Q1 & Q2 & Q3 & Q4 & _); try lia. destruct (qr Np pn) as (R1 & R2 & R3 & R4 & _); try lia.
  destruct (qr (Z.quot Mp pm0) (mr c)) as (V1 & V2 & V3 & V4 & _); try lia.
  destruct (qr (Z.quot Np pn) (nr c)) as (W1 & W2 & W3 & W4 & _); try lia.
  rewrite !idiv_pos by lia. cbn [cbind].
  rewrite !(imod_pos _ (mr c)), !(imod_pos _ (nr c)) by lia. cbn [cbind].
  rewrite <- T1 in *. rewrite <- U1 in *.
  destruct (fact_le _ _ T2 U2) as [Lm' Ln'].
  assert (Lmc : Z.quot Mp pm0 + (mr c - Z.rem (Z.quot Mp pm0) (mr c)) < 2 ^ 31) by lia.
  assert (Lnc : Z.quot Np pn + (nr c - Z.rem (Z.quot Np pn) (nr c)) < 2 ^ 31) by lia.
  rewrite cint_bind by (safe; lia). cbn [ival]. rewrite cint_bind by (safe; lia). cbn [ival].
  rewrite cint_bind by (safe; lia). cbn [ival]. rewrite cint_bind by (safe; lia). cbn [ival].
  set (mc := Z.quot Mp pm0 + (mr c - Z.rem (Z.quot Mp pm0) (mr c))) in *.
  set (nc := Z.quot Np pn + (nr c - Z.rem (Z.quot Np pn) (nr c))) in *.
  clearbody mc nc.
  assert (mr c <= mc) by (apply Z.divide_pos_le; auto). assert (nr c <= nc) by (apply Z.divide_pos_le; auto).
  pose proof (mul_mono (mr c) (nr c) mc nc ltac:(lia) ltac:(lia)) as PR.
  rewrite cint_bind by (safe; lia). rewrite cint_bind by (safe; lia).
  replace (if fp_kcmax F (L1 c) (mr c) (nr c) <? mc then fp_kcmax F (L1 c) (mr c) (nr c) else mc)
    with (Z.min (fp_kcmax F (L1 c) (mr c) (nr c)) mc) by (destruct (Z.ltb_spec (fp_kcmax F (L1 c) (mr c) (nr c)) mc); lia).
  set (kc := Z.min (fp_kcmax F (L1 c) (mr c) (nr c)) mc) in *.
  assert (Hkc : 0 < kc < 2 ^ 31) by (unfold kc; lia). clearbody kc.
  destruct FM as (_ & FM). destruct FN as (_ & FN).
  pose proof (mul_ge0 (pm0 - 1) mc ltac:(lia) ltac:(lia)). pose proof (mul_ge0 (pn - 1) nc ltac:(lia) ltac:(lia)).
  rewrite cint_bind by (safe; lia). cbn [ival]. rewrite cint_bind by (safe; lia). cbn [ival].
  destruct (qr K kc) as (K1 & K2 & K3 & K4 & K5 & K6); try lia.
  destruct (qr M mc) as (M1 & M2 & M3 & M4 & M5 & M6); try lia.
  destruct (qr N nc) as (N1 & N2 & N3 & N4 & N5 & N6); try lia.
  rewrite !imod_pos, idiv_pos by lia. cbn [cbind].
  rewrite cint_bind by (safe; lia). cbn [ival]. rewrite cint_bind by (safe; lia). cbn [ival].
  rewrite cint_bind by (safe; lia). cbn [ival]. rewrite cint_bind by (safe; lia). cbn [ival].
  eexists. split; [reflexivity|]. split; [reflexivity|]. cbn [m_c n_c k_c M_padded N_padded]. repeat split.
Qed.
