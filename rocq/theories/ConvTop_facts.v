(** * Facts about the convolution example: whole calls. *)

From Coq Require Import ZArith List Bool Permutation Lia.
From Verif Require Import Lang Lang_facts Spec SpecTop SpecSmall SpecConv SpecTouch ModelSizing ModelKernel ModelPack ModelSmall ModelTop
     Kernel_facts Tile_facts Loop_facts Pack_facts Sizing_facts PackMat_facts Mult_facts Small_facts Frame_facts
     Touch_facts TouchOut_facts ModelConv Conv_facts ConvSched_facts ConvPack_facts.
Import ListNotations.
Open Scope Z_scope.

(** ** Block sizes *)

Lemma dims_conv_eq M N K p mc kc nc m_r : 0 < p -> 0 < mc -> 0 < kc -> 0 < nc -> 0 < m_r ->
  dims_conv M N K p mc kc nc m_r = dims_KMN M N K p mc kc nc m_r 1.
Proof.
  intros Hp Hm Hk Hn Hr. unfold dims_conv, dims_KMN. assert (0 < p * mc) by nia.
  rewrite !imod_pos, !idiv_pos by lia. cbn [cbind].
  rewrite !(iceil_pos _ m_r), !(iceil_pos _ 1) by lia. cbn [cbind]. rewrite !(iceil_pos _ p) by lia. cbn [cbind].
  replace (cdiv (Z.rem N nc) 1) with (Z.rem N nc).
  2:{ symmetry. apply cdiv_unique; lia. }
  rewrite Z.mul_1_r.
  destruct (truthy (cdiv (cdiv (Z.rem M (p * mc)) m_r) p)); [|reflexivity].
  destruct (iceil _ _); reflexivity.
Qed.

Lemma conv_tiles rawH rawK Cin Cout p : 0 < Cin -> 0 < Cout -> 0 < p ->
  (forall mc, 0 <= rawH mc) -> (forall mc nc, rawK mc nc <> 0) ->
  exists mc kc nc, cache_dims_conv rawH rawK Cin Cout p 6 = CRet (mc, kc, nc) /\
    0 < mc /\ (6 | mc) /\ 0 < kc /\ 0 < nc.
Proof.
  intros HC HO Hp HH HK. unfold cache_dims_conv.
  rewrite iceil_pos by lia. cbn [cbind]. rewrite (imod_pos (cdiv Cout p) 6) by lia. cbn [cbind].
  rewrite idiv_pos by lia. cbn [cbind].
  set (c := cdiv Cout p). set (Cm := c - Z.rem c 6).
  pose proof (cdiv_spec Cout p Hp) as Hc. fold c in Hc.
  assert (G : exists mc, (if Cout <? p * 6 then CRet 6
     else if Cout <? p * Cm then
       (if Z.quot Cout p <? 6 then CRet 6
        else do r <- imod (Z.quot Cout p) 6; CRet (Z.quot Cout p + (6 - r)))
     else CRet Cm) = CRet mc /\ 0 < mc /\ (6 | mc)).
  { destruct (Z.ltb_spec Cout (p * 6)); [exists 6; split; [easy|split; [lia|apply Z.divide_refl]]|].
    assert (6 <= c) by nia.
    pose proof (Z.quot_rem' c 6). pose proof (Z.rem_bound_pos c 6 ltac:(lia) ltac:(lia)).
    destruct (Cout <? p * Cm).
    - destruct (Z.ltb_spec (Z.quot Cout p) 6); [exists 6; split; [easy|split; [lia|apply Z.divide_refl]]|].
      rewrite imod_pos by lia. cbn [cbind]. eexists. split; [reflexivity|].
      pose proof (Z.quot_rem' (Z.quot Cout p) 6).
      pose proof (Z.rem_bound_pos (Z.quot Cout p) 6 ltac:(lia) ltac:(lia)).
      split; [lia|]. exists (Z.quot (Z.quot Cout p) 6 + 1). lia.
    - exists Cm. split; [easy|]. unfold Cm. split; [lia|]. exists (Z.quot c 6). lia. }
  destruct G as (mc & E & Hm & D). rewrite E. cbn [cbind].
  do 3 eexists. split; [reflexivity|]. split; [auto|split; [auto|]].
  specialize (HH mc). destruct (Z.eqb_spec (rawH mc) 0) as [E0|E0].
  - split; [|lia]. specialize (HK mc 1). repeat match goal with |- context [?a <? ?b] => destruct (Z.ltb_spec a b) end; lia.
  - split; [|lia]. specialize (HK mc (rawH mc)). repeat match goal with |- context [?a <? ?b] => destruct (Z.ltb_spec a b) end; lia.
Qed.

Lemma conv_plan rawH rawK Cin Cout Hout p : 0 < Cin -> 0 < Cout -> 0 <= Hout -> 0 < p ->
  (forall mc, 0 <= rawH mc) -> (forall mc nc, rawK mc nc <> 0) ->
  exists mc kc nc x, cache_dims_conv rawH rawK Cin Cout p 6 = CRet (mc, kc, nc) /\
    dims_conv Cout Hout Cin p mc kc nc 6 = CRet x /\ kmn_facts Cout Hout Cin p 6 1 x.
Proof.
  intros HC HO HH Hp H1 H2. destruct (conv_tiles rawH rawK Cin Cout p HC HO Hp H1 H2) as (mc & kc & nc & E & Hm & D & Hk & Hn).
  destruct (dims_KMN_total Cout Hout Cin p mc kc nc 6 1) as (x & Ex); try lia.
  exists mc, kc, nc, x. split; [auto|]. split; [rewrite dims_conv_eq by lia; auto|].
  apply (dims_KMN_facts Cout Hout Cin p mc kc nc 6 1 x); try lia; auto. exists nc. lia.
Qed.

Lemma packed_size_K M N K p m_r n_r x K' : kmn_facts M N K p m_r n_r x -> 0 < p -> 0 < m_r ->
  packed_A_size M K' p x m_r KMN = CRet (M_padded x * K').
Proof.
  intros F Hp Hr. unfold packed_A_size.
  pose proof (kf_mc _ _ _ _ _ _ _ F). assert (0 < p * m_c x) by nia.
  rewrite !imod_pos, !idiv_pos by lia. cbn [cbind]. rewrite iceil_pos by lia. cbn [cbind].
  pose proof (kf_M _ _ _ _ _ _ _ F) as PM.
  assert (E : forall K'', m_r * cdiv (Z.rem M (p * m_c x)) m_r + Z.quot M (p * m_c x) * p * m_c x = M_padded x -> 
     CRet ((m_r * cdiv (Z.rem M (p * m_c x)) m_r + Z.quot M (p * m_c x) * p * m_c x) * K'') = CRet (M_padded x * K'')) by (intros K'' ->; reflexivity).
  apply E. clear E.
  set (D := Z.rem M (p * m_c x)). set (q := Z.quot M (p * m_c x)).
  assert (HM : M = p * m_c x * q + D) by apply Z.quot_rem'.
  (* M <= v < M + m_r and m_r | v on both sides *)
  pose proof (kf_Mp _ _ _ _ _ _ _ F) as L1. pose proof (kf_Mpu _ _ _ _ _ _ _ F) as L2.
  assert (D1 : (m_r | M_padded x)).
  { destruct (Z.eq_dec (Mb x) 0) as [E|E].
    - rewrite (pt_0 _ _ _ _ PM E). apply Z.divide_0_r.
    - pose proof (pt_nb _ _ _ _ PM). rewrite <- (pt_last _ _ _ _ PM) by lia.
      apply Z.divide_add_r; [do 2 apply Z.divide_mul_r; apply (kf_mcd _ _ _ _ _ _ _ F)|].
      pose proof (kf_C _ _ _ _ _ _ _ F (Mb x - 1) ltac:(lia)) as PC.
      pose proof (kf_pu _ _ _ _ _ _ _ F (Mb x - 1) ltac:(lia)).
      rewrite <- (pt_last _ _ _ _ PC) by lia.
      apply Z.divide_add_r; [apply Z.divide_mul_r; apply (kf_mxr _ _ _ _ _ _ _ F); lia|apply (kf_mr _ _ _ _ _ _ _ F); lia]. }
  pose proof (cdiv_spec D m_r Hr) as Hc.
  destruct D1 as (a & Ha). destruct (kf_mcd _ _ _ _ _ _ _ F) as (b & Hb).
  rewrite Ha in *. rewrite Hb in *.
  assert (q * p * (b * m_r) = (q * p * b) * m_r) by ring. 
  assert (p * (b * m_r) * q = (q * p * b) * m_r) by ring.
  set (c := cdiv D m_r) in *. set (Q := q * p * b) in *.
  assert (a = Q + c); [|subst a; lia].
  assert (- m_r < (a - Q - c) * m_r < m_r) by lia. nia.
Qed.

Section Top.

Variable S : scalar.
Notation T := (elt S).

(** The filters as a matrix with one row per filter. *)
Definition fmat (F : Z -> Z -> Z -> Z -> T) (o q : Z) : T := F o (q / 9) (q mod 9 / 3) (q mod 9 mod 3).

Lemma fmat_at F o c h w : 0 <= h < 3 -> 0 <= w < 3 -> fmat F o (c * 9 + (h * 3 + w)) = F o c h w.
Proof.
  intros Hh Hw. unfold fmat.
  rewrite <- (Z.div_unique (c * 9 + (h * 3 + w)) 9 c (h * 3 + w)) by lia.
  rewrite <- (Z.mod_unique (c * 9 + (h * 3 + w)) 9 c (h * 3 + w)) by lia.
  rewrite <- (Z.div_unique (h * 3 + w) 3 h w) by lia.
  now rewrite <- (Z.mod_unique (h * 3 + w) 3 h w) by lia.
Qed.

Lemma filters_matrix m b n Cin F : 0 < n -> 0 < Cin -> filters_stored m b n Cin F ->
  holds m b n (Cin * 9) (fmat F) /\ exists bi, live m b = Some bi /\ n * (Cin * 9) <= blen bi.
Proof.
  intros Hn HC HF. split.
  - intros o q Ho Hq. unfold fmat.
    pose proof (Z.div_mod q 9 ltac:(lia)). pose proof (Z.mod_pos_bound q 9 ltac:(lia)).
    pose proof (Z.div_mod (q mod 9) 3 ltac:(lia)). pose proof (Z.mod_pos_bound (q mod 9) 3 ltac:(lia)).
    destruct (HF o (q / 9) (q mod 9 / 3) (q mod 9 mod 3)) as (bi & _ & _ & V); try lia.
    replace (o * (Cin * 9) + q) with (((o * Cin + q / 9) * 3 + q mod 9 / 3) * 3 + q mod 9 mod 3); [exact V|].
    rewrite H at 4. lia.
  - destruct (HF (n - 1) (Cin - 1) 2 2) as (bi & L & B & _); try lia. exists bi. split; [auto|].
    replace ((((n - 1) * Cin + (Cin - 1)) * 3 + 2) * 3 + 2) with (n * (Cin * 9) - 1) in B by ring. lia.
Qed.

Variables (F : Z -> Z -> Z -> Z -> T) (In : Z -> Z -> Z -> T) (Out : Z -> Z -> Z -> T) (d : conv_shape) (p : Z) (x : blk_dims).
Hypothesis kf : kmn_facts (Cout d) (Hout d) (Cin d) p 6 1 x.
Hypothesis Wf3 : Wf d = 3.
Hypothesis Hf3 : Hf d = 3.
Hypothesis Cin_pos : 0 < Cin d.
Hypothesis Cout_pos : 0 < Cout d.
Hypothesis Wout_pos : 0 < Wout d.
Hypothesis Hin_ok : Hout d + 2 <= Hin d.
Hypothesis Win_ok : Wout d + 2 <= Win d.
Hypothesis Cout_6 : (6 | Cout d).

Lemma pack_ok ab pb bp m : ab <> pb -> filters_stored m ab (Cout d) (Cin d) F ->
  live m pb = Some bp -> M_padded x * (Cin d * 9) <= blen bp ->
  pok (pack_filters S ab pb (Cout d) (Cin d * Wf d * Hf d) p x 6) m
    (fun _ m' => live m' = live m /\ (forall b i, b <> pb -> dat m' b i = dat m b i) /\
       packed_filters S F pb d p x m').
Proof.
  intros Hne HF HL Hb.
  destruct (filters_matrix m ab _ _ F Cout_pos Cin_pos HF) as (Hh & ba & La & Lb).
  replace (Cin d * Wf d * Hf d) with (Cin d * 9) by (rewrite Wf3, Hf3; ring).
  eapply pok_mono; [apply (pack_filters_spec S x (Cout d) (Hout d) (Cin d) p 6 1 ab pb (fmat F) ba bp m); auto; lia|].
  cbv beta. intros _ m' (L & E & HG). split; [auto|split].
  - intros b i Hi. apply E. intros (-> & _). contradiction.
  - intros mi k core q h w i j H1 H2 H3 H4 H5 H6 H7 H8 H9.
    specialize (HG mi k core H1 H2 H3 q (h * 3 + w) i j).
    pose proof (div_exact_of 6 _ ltac:(lia) (kf_mr _ _ _ _ _ _ _ kf mi core H1 H3)) as E6.
    specialize (HG ltac:(lia) ltac:(lia) H8 H9).
    pose proof (kf_M _ _ _ _ _ _ _ kf) as PM. pose proof (kf_C _ _ _ _ _ _ _ kf mi H1) as PC.
    pose proof (kf_K _ _ _ _ _ _ _ kf) as PK.
    pose proof (part_end _ _ _ _ PM mi H1) as EM. pose proof (part_end _ _ _ _ PC core H3) as EC.
    rewrite (M_pad_eq d p x kf Cout_6) in EM, Hb. 
    pose proof (kf_mx _ _ _ _ _ _ _ kf mi H1). pose proof (pt_w _ _ _ _ PM mi H1).
    pose proof (pt_w _ _ _ _ PK k H2). pose proof (part_end _ _ _ _ PK k H2).
    exists bp. rewrite L. split; [auto|].
    assert (Ev : padrow S (Cout d) (fmat F) (mi * p * m_c x + core * core_mx x mi + (q * 6 + j)) (k * k_c x * 9 + (i * 9 + (h * 3 + w)))
                 = F (mi * p * m_c x + core * core_mx x mi + q * 6 + j) (k * k_c x + i) h w).
    { unfold padrow. rewrite (proj2 (Z.ltb_lt _ _)) by nia.
      replace (k * k_c x * 9 + (i * 9 + (h * 3 + w))) with ((k * k_c x + i) * 9 + (h * 3 + w)) by ring.
      rewrite fmat_at by auto. f_equal. ring. }
    cbv beta in HG. rewrite Ev in HG. split; [|exact HG].
    (* the index is in bounds *)
    pose proof (grp_bound q (h * 3 + w) i j 6 (core_mt x mi core / 6) (blk_kt x k) ltac:(lia) ltac:(lia) H8 H9) as HB.
    replace (core_mt x mi core / 6 * (9 * (blk_kt x k * 6))) with (core_mt x mi core * (blk_kt x k * 9)) in HB by lia.
    set (g := ((q * 9 + (h * 3 + w)) * blk_kt x k + i) * 6 + j) in *.
    assert (A1 : 0 <= core * core_mx x mi) by nia.
    assert (A2 : 0 <= mi * (p * m_c x)) by nia.
    assert (A3 : core * core_mx x mi * blk_kt x k * 9 + g < blk_mcb x p 6 mi * (blk_kt x k * 9)).
    { assert ((core * core_mx x mi + core_mt x mi core) * (blk_kt x k * 9) <= blk_mcb x p 6 mi * (blk_kt x k * 9))
        by (apply Z.mul_le_mono_nonneg_r; lia). lia. }
    assert (A4 : k * blk_mcb x p 6 mi * k_c x * 9 + blk_mcb x p 6 mi * (blk_kt x k * 9) <= blk_mcb x p 6 mi * (Cin d * 9)).
    { assert (blk_mcb x p 6 mi * (k * k_c x + blk_kt x k) <= blk_mcb x p 6 mi * Cin d) by (apply Z.mul_le_mono_nonneg_l; lia). lia. }
    assert (A5 : (mi * (p * m_c x) + blk_mcb x p 6 mi) * (Cin d * 9) <= Cout d * (Cin d * 9)) by (apply Z.mul_le_mono_nonneg_r; lia).
    assert (A6 : 0 <= k * blk_mcb x p 6 mi * k_c x * 9).
    { pose proof (kf_kc _ _ _ _ _ _ _ kf). assert (0 <= k * blk_mcb x p 6 mi) by nia. nia. }
    assert (A7 : 0 <= core * core_mx x mi * blk_kt x k * 9) by nia.
    assert (A8 : 0 <= mi * (p * m_c x) * (Cin d * 9)) by nia.
    replace (mi * p * m_c x * (Cin d * 9)) with (mi * (p * m_c x) * (Cin d * 9)) by ring. lia.
Qed.

Lemma sched_ok fb m : fb <> BufC -> packed_filters S F fb d p x m ->
  planes_stored m BufB (Cin d) (Hin d) (Win d) In -> planes_stored m BufC (Cout d) (Hout d) (Wout d) Out ->
  pok (schedule_KMN_conv S fb d p 6 16 x) m
    (fun _ m' => (forall o y xx, 0 <= o < Cout d -> 0 <= y < Hout d -> 0 <= xx < Wout d / 16 * 16 ->
        dat m' BufC ((o * Hout d + y) * Wout d + xx) = Some (conv_sum S F In (all_ord x) o y xx (Out o y xx))) /\
      live m' = live m /\
      forall b i, ~ (b = BufC /\ exists o y xx, 0 <= o < Cout d /\ 0 <= y < Hout d /\ 0 <= xx < Wout d / 16 * 16 /\ i = (o * Hout d + y) * Wout d + xx) ->
        dat m' b i = dat m b i).
Proof.
  intros Hfb HF HI HO.
  assert (EW : Wc d = Wout d / 16 * 16) by (unfold Wc; rewrite Z.quot_div_nonneg by lia; lia).
  pose proof (Wc_le d Wout_pos) as HW.
  eapply pok_mono.
  { apply (sched_tri S F In Out fb d p x); auto; try lia.
    - split; auto.
    - intros o y xx (H1 & H2 & H3). apply HO; lia. }
  cbv beta. rewrite <- EW. intros _ m' (H1 & H2 & H3). split; [|split; [auto|]].
  - intros o y xx Ho Hy Hx. destruct (H1 o y xx ltac:(repeat split; lia)) as (bi & _ & _ & V). exact V.
  - intros b i Hn. apply H3. intros (-> & o & y & xx & (B1 & B2 & B3) & ->). apply Hn. split; auto.
    exists o, y, xx. repeat split; auto; lia.
Qed.

Lemma all_ord_perm : Permutation (all_ord x) (all_terms (Cin d)).
Proof. apply (ord3_perm (Kb x) (k_c x)). apply (kf_K _ _ _ _ _ _ _ kf). Qed.

End Top.

Section Calls.

Variable S : scalar.
Notation T := (elt S).

Lemma conv_ok_order rawH rawK d p : conv_args rawH rawK d p -> (6 | Cout d) ->
  exists ts, Permutation ts (all_terms (Cin d)) /\ forall s F In Out (m : mem T),
  Hout d + 2 <= Hin d -> Wout d + 2 <= Win d ->
  filters_stored m BufA (Cout d) (Cin d) F -> planes_stored m BufB (Cin d) (Hin d) (Win d) In ->
  planes_stored m BufC (Cout d) (Hout d) (Wout d) Out -> live m (BufAp 0) = None ->
  always (cake_sconv S rawH rawK d s p 6 16 false) m (fun _ m' =>
    (forall b, live m' b = live m b) /\
    (forall o y x, 0 <= o < Cout d -> 0 <= y < Hout d -> 0 <= x < Wout d / 16 * 16 ->
       dat m' BufC ((o * Hout d + y) * Wout d + x) = Some (conv_sum S F In ts o y x (Out o y x))) /\
    (forall b i, b <> BufAp 0 ->
       ~ (b = BufC /\ exists o y x, 0 <= o < Cout d /\ 0 <= y < Hout d /\ 0 <= x < Wout d / 16 * 16 /\ i = (o * Hout d + y) * Wout d + x) ->
       dat m' b i = dat m b i)).
Proof.
  intros (W3 & H3 & HCi & HCo & HW & HH & Hp & R1 & R2) D6.
  destruct (conv_plan rawH rawK (Cin d) (Cout d) (Hout d) p) as (mc & kc & nc & x & E1 & E2 & kf); auto.
  exists (all_ord x). split; [now apply (all_ord_perm d p)|].
  intros s F In Out m Hi Wi SF SI SO LN. apply pok_always.
  unfold cake_sconv. rewrite E1. cbn [lift pbind]. rewrite E2. cbn [lift pbind].
  rewrite (packed_size_K _ _ _ _ _ _ _ (Cin d * Wf d * Hf d) kf Hp ltac:(lia)). cbn [lift pbind].
  assert (E9 : Cin d * Wf d * Hf d = Cin d * 9) by (rewrite W3, H3; ring).
  pose proof (M_pad_eq d p x kf D6) as EM.
  apply pok_bind. apply pok_alloc; [rewrite EM, E9; nia|exact LN|].
  set (m1 := do_alloc m (BufAp 0) (M_padded x * (Cin d * Wf d * Hf d)) true None).
  assert (L1 : forall b, b <> BufAp 0 -> live m1 b = live m b).
  { intros b Hb. unfold m1, do_alloc. cbn [live dat]. destruct (buf_eqb_spec (BufAp 0) b); congruence. }
  assert (D1 : forall b i, b <> BufAp 0 -> dat m1 b i = dat m b i).
  { intros b i Hb. unfold m1, do_alloc. cbn [live dat]. destruct (buf_eqb_spec (BufAp 0) b); congruence. }
  assert (LP : live m1 (BufAp 0) = Some (BInfo (M_padded x * (Cin d * Wf d * Hf d)) true)) by reflexivity.
  assert (KC : forall b i v, b <> BufAp 0 -> cell m b i v -> cell m1 b i v).
  { intros b i v Hb (bi & A1 & A2 & A3). exists bi. rewrite L1, D1 by auto. auto. }
  apply pok_bind. eapply pok_mono.
  { assert (SF1 : filters_stored m1 BufA (Cout d) (Cin d) F).
    { intros o c h w O1 O2 O3 O4. apply KC; [discriminate|]. now apply SF. }
    eapply (pack_ok S F d p x) with (ab := BufA) (pb := BufAp 0); [..|exact SF1|exact LP|]; auto; try discriminate; try lia.
    cbn [blen]. rewrite E9. lia. }
  cbv beta. intros _ m2 (L2 & D2 & PF).
  assert (KC2 : forall b i v, b <> BufAp 0 -> cell m b i v -> cell m2 b i v).
  { intros b i v Hb Hc. destruct (KC b i v Hb Hc) as (bi & A1 & A2 & A3). exists bi. rewrite L2, D2 by auto. auto. }
  apply pok_bind. eapply pok_mono.
  { apply (sched_ok S F In Out d p x) with (fb := BufAp 0); auto; try discriminate.
    - intros c y xx O1 O2 O3. apply KC2; [discriminate|]. now apply SI.
    - intros c y xx O1 O2 O3. apply KC2; [discriminate|]. now apply SO. }
  cbv beta. intros _ m3 (O3 & L3 & D3).
  apply pok_free; [rewrite L3, L2, LP; discriminate|].
  split; [|split].
  - intros b. unfold do_free. cbn [live]. destruct (buf_eqb_spec (BufAp 0) b) as [<-|Hb]; [now rewrite LN|].
    rewrite L3, L2. apply L1. congruence.
  - intros o y xx B1 B2 B3. unfold do_free. cbn [dat].
    destruct (buf_eqb_spec (BufAp 0) BufC); [discriminate|]. now apply O3.
  - intros b i Hb Hn. unfold do_free. cbn [dat].
    destruct (buf_eqb_spec (BufAp 0) b); [congruence|]. rewrite D3 by auto. rewrite D2, D1 by auto. reflexivity.
Qed.

Lemma conv_ok rawH rawK d s p F In Out (m : mem T) :
  conv_args rawH rawK d p -> Hout d + 2 <= Hin d -> Wout d + 2 <= Win d -> (6 | Cout d) ->
  filters_stored m BufA (Cout d) (Cin d) F -> planes_stored m BufB (Cin d) (Hin d) (Win d) In ->
  planes_stored m BufC (Cout d) (Hout d) (Wout d) Out -> live m (BufAp 0) = None ->
  adds_convolution S (cake_sconv S rawH rawK d s p 6 16 false) m (BufAp 0)
    (Cin d) (Cout d) (Hout d) (Wout d) (Wout d / 16 * 16) F In Out.
Proof.
  intros Ha Hi Wi D6 SF SI SO LN. destruct (conv_ok_order rawH rawK d p Ha D6) as (ts & HP & H).
  exists ts. split; [exact HP|]. now apply H.
Qed.

End Calls.
