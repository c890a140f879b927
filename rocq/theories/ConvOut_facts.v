(** * Facts about the convolution example: accesses outside the arrays. *)

From Coq Require Import ZArith List Bool Lia.
From Verif Require Import Lang Lang_facts Spec SpecTop SpecSmall SpecConv SpecTouch ModelSizing ModelKernel ModelPack ModelSmall ModelTop
     Kernel_facts Sizing_facts Touch_facts TouchOut_facts ModelConv Conv_facts ConvTop_facts.
Import ListNotations.
Open Scope Z_scope.

Section Out.

Variable S : scalar.
Notation T := (elt S).

Lemma vec_touches al b o n j : 0 <= j < n -> touches b (o + j) (load_vec S al (b, o) n).
Proof.
  intros Hj. unfold load_vec. apply (touches_tfor1 _ _ _ _ _ _ j); auto. intros s. apply touches_bind_l.
  cbn. now left.
Qed.

Lemma vec_touches0 al b o n : 0 < n -> touches b o (load_vec S al (b, o) n).
Proof. intros Hn. pose proof (vec_touches al b o n 0 ltac:(lia)) as H. now rewrite Z.add_0_r in H. Qed.

(** The kernel reads its tile of the output first. *)
Lemma kernel_touches_C A B co n_in n_out k r : 0 <= r < 6 ->
  touches BufC (co + r * n_out) (cake_conv_haswell_6x16 S A B (BufC, co) n_in n_out k).
Proof.
  intros Hr. unfold cake_conv_haswell_6x16, s_kernel. apply touches_bind_l. unfold load_tile.
  apply (touches_tfor1 _ _ _ _ _ _ r); [lia|]. intros s. apply touches_bind_l. unfold padd. cbn [fst snd].
  apply vec_touches0. lia.
Qed.

Lemma step_rets ldb st : rets (fun st' => snd (fst st') = padd (snd (fst st)) ldb) (s_step S 1 0 ldb st).
Proof.
  destruct st as [[A B] c]. unfold s_step, inner. apply rets_bind. apply rets_bind.
  eapply rets_mono; [apply rets_any|]. intros b _. apply rets_bind.
  eapply rets_mono; [apply rets_any|]. intros ac _. cbn. reflexivity.
Qed.

Lemma step_touches ldb st bb bo : snd (fst st) = (bb, bo) -> touches bb bo (s_step S 1 0 ldb st).
Proof.
  destruct st as [[A B] c]. cbn. intros ->. unfold s_step, inner. apply touches_bind_l. apply touches_bind_l.
  apply vec_touches0. lia.
Qed.

Local Transparent tfor.

(** It reads the last of its rows of the input. *)
Lemma kernel_touches_B A bo C n_in n_out k : 0 < k ->
  touches BufB (bo + (k - 1) * n_in) (cake_conv_haswell_6x16 S A (BufB, bo) C n_in n_out k).
Proof.
  intros Hk. unfold cake_conv_haswell_6x16, s_kernel.
  apply (touches_bind_post _ _ (fun _ => True)); [apply rets_any|]. intros c _.
  set (Q := fun (z : Z) (st : ptr * ptr * (Z -> T)) => snd (fst st) = (BufB, bo + z * n_in)).
  assert (St : forall z st, Q z st -> rets (Q (z + 1)) (s_step S 1 0 n_in st)).
  { intros z st H. eapply rets_mono; [apply step_rets|]. intros st' H'. unfold Q in *. rewrite H', H. unfold padd. cbn [fst snd]. f_equal. ring. }
  assert (St4 : forall z st, Q z st -> rets (Q (z + 4))
     (tbind (s_step S 1 0 n_in st) (fun st => tbind (s_step S 1 0 n_in st) (fun st => tbind (s_step S 1 0 n_in st) (fun st => s_step S 1 0 n_in st))))).
  { intros z st H. apply rets_bind. eapply rets_mono; [apply St, H|]. intros s1 H1.
    apply rets_bind. eapply rets_mono; [apply St, H1|]. intros s2 H2.
    apply rets_bind. eapply rets_mono; [apply St, H2|]. intros s3 H3.
    replace (z + 4) with (z + 1 + 1 + 1 + 1) by lia. now apply St. }
  assert (Hrem : 0 <= Z.rem k 4 < 4) by (apply Z.rem_bound_pos; lia).
  pose proof (Z.quot_rem' k 4) as Hq. pose proof (Z.quot_pos k 4 ltac:(lia) ltac:(lia)) as Hq0.
  assert (Q0 : Q 0 (A, (BufB, bo), c)) by (unfold Q; cbn; f_equal; lia).
  assert (EL : loop_count 0 (k - Z.rem k 4) 4 = Z.to_nat (Z.quot k 4)).
  { replace (k - Z.rem k 4) with (0 + Z.quot k 4 * 4) by lia. apply loop_count_exact; lia. }
  destruct (Z.eq_dec (Z.rem k 4) 0) as [E|E].
  - apply touches_bind_l. unfold tfor. cbn [Z.ltb Z.compare]. rewrite EL.
    replace (Z.to_nat (Z.quot k 4)) with (Datatypes.S (Z.to_nat (Z.quot k 4 - 1))) by lia.
    apply (touches_titer_last _ _ Q); auto. intros st H.
    rewrite Z2Nat.id in * by lia. set (z := 0 + (Z.quot k 4 - 1) * 4) in *.
    apply (touches_bind_post _ _ (Q (z + 1))); [now apply St|]. intros s1 H1.
    apply (touches_bind_post _ _ (Q (z + 1 + 1))); [now apply St|]. intros s2 H2.
    apply (touches_bind_post _ _ (Q (z + 1 + 1 + 1))); [now apply St|]. intros s3 H3.
    apply step_touches. rewrite H3. do 2 f_equal. unfold z. lia.
  - apply (touches_bind_post _ _ (Q (k - Z.rem k 4))).
    { unfold tfor. cbn [Z.ltb Z.compare]. rewrite EL.
      replace (k - Z.rem k 4) with (0 + Z.of_nat (Z.to_nat (Z.quot k 4)) * 4) by lia.
      apply (rets_titer Q); auto. }
    intros st H. apply touches_bind_l. unfold tfor. cbn [Z.ltb Z.compare].
    assert (E1 : loop_count 0 (Z.rem k 4) 1 = Datatypes.S (Z.to_nat (Z.rem k 4 - 1))).
    { replace (Z.rem k 4) with (0 + Z.rem k 4 * 1) at 1 by lia. rewrite loop_count_exact by lia. lia. }
    rewrite E1. apply (touches_titer_last _ _ (fun z => Q (k - Z.rem k 4 + z))).
    + now rewrite Z.add_0_r.
    + intros z s' H'. rewrite Z.add_assoc. now apply St.
    + intros s' H'. rewrite Z2Nat.id in * by lia. apply step_touches. rewrite H'. do 2 f_equal. lia.
Qed.

Local Opaque tfor.

Variables (d : conv_shape) (p : Z) (x : blk_dims).

Lemma sched_touch b i fb n mi core k ho hf wf nr mr :
  0 <= n < Nb x -> 0 <= mi < Mb x -> 0 <= core < blk_pu x p mi -> 0 <= k < Kb x -> 0 <= ho < blk_nt x n ->
  0 <= hf < Hf d -> 0 <= wf < Wf d -> 0 <= nr < Z.quot (Wout d) 16 -> 0 <= mr < Z.quot (core_mt x mi core) 6 ->
  (forall A, touches b i (cake_conv_haswell_6x16 S A
     (BufB, k * k_c x * Hin d * Win d + n * n_c x * Win d + ho * Win d + hf * Win d + wf + nr * 16)
     (BufC, mi * p * m_c x * Hout d * Wout d + n * n_c x * Wout d + core * core_mx x mi * Hout d * Wout d + ho * Wout d
            + nr * 16 + mr * 6 * Hout d * Wout d)
     (Win d * Hin d) (Wout d * Hout d) (blk_kt x k))) ->
  pout b i (schedule_KMN_conv S fb d p 6 16 x).
Proof.
  intros H1 H2 H3 H4 H5 H6 H7 H8 H9 HT. unfold schedule_KMN_conv, pfor_.
  apply (pout_pfor1 _ _ _ _ _ _ n); [lia| |].
  { intros z _. apply small_pfor. intros z' _. apply small_ppar. }
  intros _. apply (pout_pfor1 _ _ _ _ _ _ mi); [lia|intros; apply small_ppar|]. intros _.
  apply (pout_ppar1 _ _ _ _ _ core); [lia|]. unfold conv_core, tfor_.
  apply (touches_tfor1 _ _ _ _ _ _ k); [lia|]. intros _.
  apply (touches_tfor1 _ _ _ _ _ _ ho); [lia|]. intros _.
  apply (touches_tfor1 _ _ _ _ _ _ hf); [lia|]. intros _.
  apply (touches_tfor1 _ _ _ _ _ _ wf); [lia|]. intros _. cbv zeta.
  apply (touches_tfor1 _ _ _ _ _ _ nr); [lia|]. intros _.
  apply (touches_tfor1 _ _ _ _ _ _ mr); [lia|]. intros _. apply HT.
Qed.

End Out.

Section Calls.

Variable S : scalar.
Notation T := (elt S).

Lemma small_pack b i ab pb M K p x m_r : small b i (pack_filters S ab pb M K p x m_r).
Proof.
  unfold pack_filters. apply small_bind; [|intros; exact I]. apply small_pfor. intros z s. apply small_pfor. intros z' s'.
  apply small_bind; [apply small_ppar|intros; exact I].
Qed.

Lemma conv_pout rawH rawK d s p packedA b i x mc kc nc : b <> BufAp 0 -> 0 < p ->
  cache_dims_conv rawH rawK (Cin d) (Cout d) p 6 = CRet (mc, kc, nc) ->
  dims_conv (Cout d) (Hout d) (Cin d) p mc kc nc 6 = CRet x -> kmn_facts (Cout d) (Hout d) (Cin d) p 6 1 x ->
  (forall fb, pout b i (schedule_KMN_conv S fb d p 6 16 x)) ->
  pout b i (cake_sconv S rawH rawK d s p 6 16 packedA).
Proof.
  intros Hb Hp E1 E2 kf HP. unfold cake_sconv. rewrite E1. cbn [lift pbind]. rewrite E2. cbn [lift pbind].
  destruct packedA; [apply HP|].
  rewrite (packed_size_K _ _ _ _ _ _ _ (Cin d * Wf d * Hf d) kf Hp ltac:(lia)). cbn [lift pbind].
  unfold palloc. cbn [pbind pout]. split; [left; congruence|].
  apply pout_bind_r; [apply small_pack|]. intros _. apply pout_bind_l. apply HP.
Qed.

Lemma quot16 w : 16 <= w -> 0 < Z.quot w 16.
Proof. intros. pose proof (Z.quot_rem' w 16). pose proof (Z.rem_bound_pos w 16). lia. Qed.

Lemma part_pos nb t D w : part nb t D w -> 0 < D -> 0 < nb.
Proof. intros P H. destruct (part_cover _ _ _ _ P 0 ltac:(lia)) as (m & Hm & _). lia. Qed.

Lemma channels_out rawH rawK d s p packedA (m : mem T) bi :
  conv_runs rawH rawK d p -> ~ (6 | Cout d) ->
  live m BufC = Some bi -> blen bi = Cout d * Hout d * Wout d ->
  always_undefined (cake_sconv S rawH rawK d s p 6 16 packedA) m.
Proof.
  intros (HWf & HHf & HCi & HCo & HW & HH & Hp & R1 & R2) N6 HL Hlen.
  destruct (conv_plan rawH rawK (Cin d) (Cout d) (Hout d) p) as (mc & kc & nc & x & E1 & E2 & kf); auto; try lia.
  pose proof (kf_M _ _ _ _ _ _ _ kf) as PM. pose proof (kf_K _ _ _ _ _ _ _ kf) as PK. pose proof (kf_N _ _ _ _ _ _ _ kf) as PN.
  pose proof (kf_Mp _ _ _ _ _ _ _ kf) as HMp. pose proof (kf_Np _ _ _ _ _ _ _ kf) as HNp.
  destruct (part_cover _ _ _ _ PM (M_padded x - 1) ltac:(lia)) as (mi & Hmi & Hcv).
  pose proof (kf_C _ _ _ _ _ _ _ kf mi Hmi) as PC.
  destruct (part_cover _ _ _ _ PC (M_padded x - 1 - mi * (p * m_c x)) ltac:(lia)) as (core & Hc & Hcv2).
  destruct (kf_mr _ _ _ _ _ _ _ kf mi core Hmi Hc) as [u Hu].
  pose proof (part_end _ _ _ _ PC core Hc) as He. pose proof (part_end _ _ _ _ PM mi Hmi) as He2.
  pose proof (pt_w _ _ _ _ PC core Hc) as Hw.
  pose proof (part_pos _ _ _ _ PK HCi) as HK. pose proof (part_pos _ _ _ _ PN ltac:(lia)) as HN.
  pose proof (pt_w _ _ _ _ PN 0 ltac:(lia)) as Hn0.
  assert (Ne : M_padded x <> Cout d).
  { intros E. apply N6. rewrite <- E.
    replace (M_padded x) with (mi * (p * m_c x) + (core * core_mx x mi + core_mt x mi core)) by lia.
    apply Z.divide_add_r; [do 2 apply Z.divide_mul_r; apply (kf_mcd _ _ _ _ _ _ _ kf)|].
    apply Z.divide_add_r; [apply Z.divide_mul_r; apply (kf_mxr _ _ _ _ _ _ _ kf); lia|exists u; lia]. }
  apply (pout_exec BufC ((M_padded x - 1) * (Wout d * Hout d))).
  2:{ unfold outside. rewrite HL, Hlen. assert (0 < Wout d * Hout d) by nia. nia. }
  apply (conv_pout rawH rawK d s p packedA _ _ x mc kc nc); auto; [discriminate|]. intros fb.
  apply (sched_touch S d p x _ _ fb 0 mi core 0 0 0 0 0 (u - 1)); try lia.
  { apply quot16 in HW. lia. }
  { rewrite Hu, Z.quot_mul by lia. lia. }
  intros A.
  replace ((M_padded x - 1) * (Wout d * Hout d))
    with (mi * p * m_c x * Hout d * Wout d + 0 * n_c x * Wout d + core * core_mx x mi * Hout d * Wout d + 0 * Wout d
            + 0 * 16 + (u - 1) * 6 * Hout d * Wout d + 5 * (Wout d * Hout d)).
  { apply kernel_touches_C. lia. }
  replace (M_padded x - 1) with (mi * (p * m_c x) + core * core_mx x mi + (u - 1) * 6 + 5) by lia. ring.
Qed.

Lemma rows_out rawH rawK d s p packedA (m : mem T) bi :
  conv_runs rawH rawK d p -> 0 <= Win d -> 0 <= Hin d -> Hin d < Hout d + Hf d - 1 ->
  live m BufB = Some bi -> blen bi = Cin d * Hin d * Win d ->
  always_undefined (cake_sconv S rawH rawK d s p 6 16 packedA) m.
Proof.
  intros (HWf & HHf & HCi & HCo & HW & HH & Hp & R1 & R2) HWi HHi Hr HL Hlen.
  destruct (conv_plan rawH rawK (Cin d) (Cout d) (Hout d) p) as (mc & kc & nc & x & E1 & E2 & kf); auto; try lia.
  pose proof (kf_M _ _ _ _ _ _ _ kf) as PM. pose proof (kf_K _ _ _ _ _ _ _ kf) as PK. pose proof (kf_N _ _ _ _ _ _ _ kf) as PN.
  pose proof (kf_Mp _ _ _ _ _ _ _ kf) as HMp. pose proof (kf_Np _ _ _ _ _ _ _ kf) as HNp. pose proof (kf_Npu _ _ _ _ _ _ _ kf) as HNu.
  pose proof (part_pos _ _ _ _ PM ltac:(lia)) as HM.
  pose proof (kf_C _ _ _ _ _ _ _ kf 0 ltac:(lia)) as PC. pose proof (kf_pu _ _ _ _ _ _ _ kf 0 ltac:(lia)) as Hpu.
  pose proof (pt_w _ _ _ _ PC 0 ltac:(lia)) as Hw.
  destruct (kf_mr _ _ _ _ _ _ _ kf 0 0 ltac:(lia) ltac:(lia)) as [u Hu].
  destruct (part_cover _ _ _ _ PN (Hout d - 1) ltac:(lia)) as (n & Hn & Hcv).
  destruct (part_cover _ _ _ _ PK (Cin d - 1) ltac:(lia)) as (k & Hk & Hkin).
  pose proof (part_end _ _ _ _ PK k Hk) as Hke. pose proof (pt_w _ _ _ _ PK k Hk) as Hkt.
  assert (EK : k * k_c x + blk_kt x k = Cin d) by lia.
  apply (pout_exec BufB (((Cin d - 1) * Hin d + (Hout d - 1 + (Hf d - 1))) * Win d)).
  2:{ unfold outside. rewrite HL, Hlen. 
      assert (Cin d * Hin d <= (Cin d - 1) * Hin d + (Hout d - 1 + (Hf d - 1))) by lia.
      assert (Cin d * Hin d * Win d <= ((Cin d - 1) * Hin d + (Hout d - 1 + (Hf d - 1))) * Win d) by (apply Z.mul_le_mono_nonneg_r; lia). lia. }
  apply (conv_pout rawH rawK d s p packedA _ _ x mc kc nc); auto; [discriminate|]. intros fb.
  apply (sched_touch S d p x _ _ fb n 0 0 k (Hout d - 1 - n * n_c x) (Hf d - 1) 0 0 0); try lia.
  { apply quot16 in HW. lia. }
  { rewrite Hu, Z.quot_mul by lia. lia. }
  intros A.
  replace (((Cin d - 1) * Hin d + (Hout d - 1 + (Hf d - 1))) * Win d)
    with (k * k_c x * Hin d * Win d + n * n_c x * Win d + (Hout d - 1 - n * n_c x) * Win d + (Hf d - 1) * Win d + 0 + 0 * 16
          + (blk_kt x k - 1) * (Win d * Hin d)).
  { apply kernel_touches_B. lia. }
  rewrite <- EK. ring.
Qed.

Lemma depth_out rawH rawK d s p packedA (m : mem T) :
  0 < Cin d -> 0 < Cout d -> 0 < p -> (forall mc, 0 <= rawH mc) -> (forall mc nc, rawK mc nc = 0) ->
  always_undefined (cake_sconv S rawH rawK d s p 6 16 packedA) m.
Proof.
  intros HC HO Hp R1 R2.
  destruct (conv_tiles rawH (fun _ _ => 1) (Cin d) (Cout d) p) as (mc & kc & nc & E & _); auto; try lia.
  assert (E2 : exists mc nc, cache_dims_conv rawH rawK (Cin d) (Cout d) p 6 = CRet (mc, 0, nc)).
  { unfold cache_dims_conv in *.
    destruct (iceil (Cout d) p) as [c| |]; cbn [cbind] in *; try discriminate.
    destruct (imod c 6) as [r| |]; cbn [cbind] in *; try discriminate.
    match type of E with cbind ?t _ = _ => destruct t as [mc'| |]; cbn [cbind] in *; try discriminate end.
    rewrite R2. replace (Cin d <? 0) with false by lia. cbn. eauto. }
  destruct E2 as (mc' & nc' & E2). unfold cake_sconv. rewrite E2. cbn [lift pbind].
  unfold dims_conv. cbn. split; [constructor|]. intros o Ho. inversion Ho; auto.
Qed.

(** The packing routine reads nine elements per channel whatever the size of the filters. *)
Lemma filters_out rawH rawK d s p (m : mem T) bi :
  0 <= Wf d -> 0 <= Hf d -> 0 < Cin d -> 0 < Cout d -> 0 <= Hout d -> 0 < p ->
  (forall mc, 0 <= rawH mc) -> (forall mc nc, rawK mc nc <> 0) ->
  Wf d * Hf d < 9 -> live m BufA = Some bi -> blen bi = Cout d * Cin d * Hf d * Wf d ->
  always_undefined (cake_sconv S rawH rawK d s p 6 16 false) m.
Proof.
  intros HWf HHf HCi HCo HH Hp R1 R2 H9 HL Hlen.
  destruct (conv_plan rawH rawK (Cin d) (Cout d) (Hout d) p) as (mc & kc & nc & x & E1 & E2 & kf); auto; try lia.
  pose proof (kf_M _ _ _ _ _ _ _ kf) as PM. pose proof (kf_K _ _ _ _ _ _ _ kf) as PK. pose proof (kf_Mp _ _ _ _ _ _ _ kf) as HMp.
  set (K := Cin d * Wf d * Hf d).
  destruct (part_cover _ _ _ _ PM (Cout d - 1) ltac:(lia)) as (mi & Hmi & Hcv).
  pose proof (kf_C _ _ _ _ _ _ _ kf mi Hmi) as PC.
  destruct (part_cover _ _ _ _ PC (Cout d - 1 - mi * (p * m_c x)) ltac:(lia)) as (core & Hc & Hcv2).
  destruct (kf_mr _ _ _ _ _ _ _ kf mi core Hmi Hc) as [u Hu].
  destruct (part_cover _ _ _ _ PK (Cin d - 1) ltac:(lia)) as (k & Hk & Hkin).
  pose proof (part_end _ _ _ _ PK k Hk) as Hke. pose proof (pt_w _ _ _ _ PK k Hk) as Hkt.
  assert (EK : k * k_c x + blk_kt x k = Cin d) by lia.
  set (r := Cout d - 1 - mi * (p * m_c x) - core * core_mx x mi).
  assert (Hr : 0 <= r < u * 6) by (unfold r; lia).
  pose proof (Z.div_mod r 6 ltac:(lia)) as Dr. pose proof (Z.mod_pos_bound r 6 ltac:(lia)) as Br.
  apply (pout_exec BufA ((Cout d - 1) * K + (Cin d - 1) * 9 + 8)).
  2:{ unfold outside. rewrite HL, Hlen. unfold K.
      assert (Cin d * (Wf d * Hf d) <= Cin d * 9 - 1) by nia. lia. }
  unfold cake_sconv. rewrite E1. cbn [lift pbind]. rewrite E2. cbn [lift pbind].
  rewrite (packed_size_K _ _ _ _ _ _ _ (Cin d * Wf d * Hf d) kf Hp ltac:(lia)). cbn [lift pbind]. fold K.
  unfold palloc. cbn [pbind pout]. split; [left; discriminate|].
  apply pout_bind_l. unfold pack_filters. apply pout_bind_l.
  apply (pout_pfor1 _ _ _ _ _ _ mi); [lia| |].
  { intros z o. apply small_pfor. intros z' o'. apply small_bind; [apply small_ppar|intros; exact I]. }
  intros o. apply (pout_pfor1 _ _ _ _ _ _ k); [lia| |].
  { intros z' o'. apply small_bind; [apply small_ppar|intros; exact I]. }
  intros o'. apply pout_bind_l. apply (pout_ppar1 _ _ _ _ _ core); [lia|].
  apply touches_bind_l. unfold pack_ob_A_single_buf_conv.
  apply (touches_tfor _ _ _ _ _ _ _ (r / 6)); [lia|lia|lia|]. intros i1.
  apply (touches_tfor1 _ _ _ _ _ _ 8); [lia|]. intros i2.
  apply (touches_tfor1 _ _ _ _ _ _ (blk_kt x k - 1)); [lia|]. intros i3.
  apply (touches_tfor1 _ _ _ _ _ _ (r mod 6)); [lia|]. intros i4.
  apply touches_bind_l. unfold copy0.
  destruct (Z.leb_spec (Cout d) (mi * p * m_c x + core * core_mx x mi + (0 + r / 6 * 6) + r mod 6)); [unfold r in *; lia|].
  unfold pload. cbn [fst snd]. apply touches_bind_l. cbn. left. split; [auto|].
  replace (Cout d - 1) with (mi * p * m_c x + core * core_mx x mi + (r / 6 * 6 + r mod 6)) by (unfold r in *; lia).
  rewrite <- EK. ring.
Qed.

End Calls.
