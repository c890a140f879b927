(** * pack_test1. *)

From Coq Require Import ZArith List Bool Lia.
From Verif Require Import Lang Lang_facts Spec SpecTop SpecBlock SpecTouch SpecBlis SpecPack ModelSizing ModelKernel ModelPack ModelBlis
     Kernel_facts Pack_facts Sizing_facts Mult_facts Exec Exec_facts Touch_facts TouchOut_facts Blis_facts GemvTop_facts PackMat_facts Packed_facts CallAll_facts PackCall_facts Prepack_facts SizeCall_facts ModelPackTest.
Import ListNotations.
Open Scope Z_scope.

Local Transparent tfor.

(** the panels that are begun *)
Definition rows6 (M : Z) : Z := (M + 5) / 6 * 6.

Lemma count6 M : 0 <= M -> loop_count 0 M 6 = loop_count 0 (0 + (M + 5) / 6 * 6) 6.
Proof.
  intros HM. assert (0 <= (M + 5) / 6) by (apply Z.div_pos; lia). rewrite loop_count_exact by lia.
  unfold loop_count. do 2 f_equal. lia.
Qed.

Section Packs.

Variables (S : scalar) (pk : packer) (M K : Z) (A : Z -> Z -> elt S).
Notation n := ((M + 5) / 6).

Lemma test1_packs m : pk <> BlisArmv8Pack -> 0 <= M -> 0 <= K ->
  at_least m BufA (n * 6 * K) -> holds m BufA (n * 6) K A -> at_least m (BufAp 0) (n * 6 * K) ->
  fills (pack_test1 S pk (BufA, 0) (BufAp 0, 0) M K) m (BufAp 0) 0 (n * 6) K (panel_slot 6 K) A.
Proof.
  intros Hpk HM HK (ba & La & Ba) HA (bp & Lp & Bp). apply pok_always.
  assert (Hn : 0 <= n) by (apply Z.div_pos; lia).
  unfold pack_test1, ppar_for. rewrite count6 by auto.
  change (pok (ppar_for 0 (0 + n * 6) 6 (fun m3 =>
    A_packing_kernel S pk 6 K true (padd (BufA, 0) (m3 * K)) K 1 (padd (BufAp 0, 0) (m3 * K)) 6)) m
    (fun _ m' =>
      (forall i j, 0 <= i < n * 6 -> 0 <= j < K -> dat m' (BufAp 0) (0 + panel_slot 6 K i j) = Some (A i j)) /\
      (forall b, live m' b = live m b) /\
      (forall b x, ~ (b = BufAp 0 /\ 0 <= x < 0 + n * 6 * K) -> dat m' b x = dat m b x))).
  eapply (pok_par_for 0 (0 + n * 6) 6 n _ m (fun c => rng (BufAp 0) (c * 6 * K) (c * 6 * K + K * 6)) (fun _ b _ => b = BufA)
     (fun c m' => Blis_facts.filled S m' (BufAp 0) (c * 6 * K) 6 6 K (fun i j => A (c * 6 + i) j))); try lia.
  - intros c Hc. unfold padd. cbn [fst snd]. rewrite !Z.add_0_l.
    apply (A_kernel_ok S pk (fun b _ => b = BufA) BufA (BufAp 0) K 6 K) with (bp := bp); auto; try nia.
    + destruct pk; cbn; auto; try lia. congruence.
    + intros x. discriminate.
    + intros i j Hi Hj. split; [reflexivity|].
      replace (c * 6 * K + i * K + j * 1) with ((c * 6 + i) * K + j) by ring.
      split; [apply HA; nia|]. exists ba. split; auto.
      assert ((c * 6 + i + 1) * K <= n * 6 * K) by (apply Z.mul_le_mono_nonneg_r; lia). nia.
  - intros c d b x Hc Hd Hne (-> & Hx) [(_ & Hx')|H]; [|discriminate].
    assert (c < d \/ d < c) as [L|L] by lia; nia.
  - intros m' HL HQ HF. split; [|split].
    + intros i j Hi Hj. rewrite Z.add_0_l.
      pose proof (Z.div_mod i 6 ltac:(lia)) as E. pose proof (Z.mod_pos_bound i 6 ltac:(lia)) as E'.
      assert (Hc : 0 <= i / 6 < n) by (split; [apply Z.div_pos; lia|apply Z.div_lt_upper_bound; lia]).
      destruct (HQ (i / 6) Hc) as (ms & Q1 & _ & _ & Q2).
      assert (P : panel_slot 6 K i j = i / 6 * 6 * K + j * 6 + i mod 6) by (unfold panel_slot; ring).
      rewrite P. rewrite Q2 by (split; [reflexivity|nia]). rewrite Q1 by lia. do 2 f_equal. lia.
    + intros b. now rewrite HL.
    + intros b x Hx. apply HF. intros c Hc (-> & Hx'). apply Hx. split; auto. split; [nia|].
      assert ((c + 1) * 6 * K <= n * 6 * K) by (apply Z.mul_le_mono_nonneg_r; lia). nia.
Qed.

End Packs.

Lemma test1_armv8 S M K A A_p (m : mem (elt S)) :
  always (pack_test1 S BlisArmv8Pack A A_p M K) m (fun _ m' => live m' = live m /\ forall b x, dat m' b x = dat m b x).
Proof.
  apply pok_always. unfold pack_test1, ppar_for.
  replace (0 <? 6) with true by reflexivity.
  set (q := Z.of_nat (loop_count 0 M 6)).
  assert (E : loop_count 0 M 6 = loop_count 0 (0 + q * 6) 6) by (rewrite loop_count_exact by lia; unfold q; lia).
  rewrite E.
  change (pok (ppar_for 0 (0 + q * 6) 6 (fun m3 =>
    A_packing_kernel S BlisArmv8Pack 6 K true (padd A (m3 * K)) K 1 (padd A_p (m3 * K)) 6)) m
    (fun _ m' => live m' = live m /\ forall b x, dat m' b x = dat m b x)).
  eapply (pok_par_for 0 (0 + q * 6) 6 q _ m (fun _ => rnone) (fun _ => rnone) (fun _ _ => True)); try lia.
  - intros c Hc. unfold A_packing_kernel, spackm_armv8. cbn. exact I.
  - intros c d b x _ _ _ [].
  - intros m' HL _ HF. split; [exact HL|]. intros b x. apply HF. intros c Hc [].
Qed.

(** ** Rows that do not fill the last panel *)

Section Out.

Variable S : scalar.

Lemma touches_tfor_first {R} b i lo hi step (s : R) (f : Z -> R -> thr (elt S) R) : 0 < step -> lo < hi ->
  touches b i (f lo s) -> touches b i (tfor lo hi step s f).
Proof.
  intros Hs Hl H. unfold tfor. destruct (Z.ltb_spec 0 step); [|lia].
  pose proof (count_lt lo hi step 0 Hs ltac:(lia) ltac:(lia)) as C. change (Z.to_nat 0) with O in C.
  destruct (loop_count lo hi step) as [|n]; [lia|]. cbn [titer]. now apply touches_bind_l.
Qed.

Lemma tfor_none {R} (s : R) (f : Z -> R -> thr (elt S) R) : tfor 0 0 1 s f = TRet s.
Proof. reflexivity. Qed.

Lemma load_rows_touches b o inca n w j : 0 <= j < n -> 0 < w -> touches b (o + j * inca) (load_rows S (b, o) inca n w).
Proof.
  intros Hj Hw. unfold load_rows. apply (touches_tfor1 _ _ _ _ _ _ j); auto. intros s. apply touches_bind_l.
  unfold padd. cbn [fst snd]. pose proof (load_vec_touches S 1 b (o + j * inca) w 0 ltac:(lia)) as H. now rewrite Z.add_0_r in H.
Qed.

Lemma k_loops_touches b i w k lda ldp a p (block column : ptr -> ptr -> thr (elt S) unit) : 0 < w -> 0 < k ->
  touches b i (block a p) -> touches b i (column a p) -> touches b i (k_loops S w k lda ldp a p block column).
Proof.
  intros Hw Hk HB HC. unfold k_loops. destruct (Z_lt_le_dec k w) as [L|L].
  - rewrite Z.quot_small, Z.rem_small by lia. rewrite tfor_none. cbn [tbind].
    apply touches_bind_l. apply touches_tfor_first; try lia. cbn [fst snd]. now apply touches_bind_l.
  - apply touches_bind_l. apply touches_tfor_first; try lia. { apply Z.quot_str_pos; lia. }
    cbn [fst snd]. now apply touches_bind_l.
Qed.

Lemma kernel_touches pk b o p K : pk <> BlisArmv8Pack -> 0 < K ->
  touches b (o + 5 * K) (A_packing_kernel S pk 6 K true (b, o) K 1 p 6).
Proof.
  intros Hpk HK. destruct pk; [| |congruence]; unfold A_packing_kernel.
  - unfold pack_A_mr_x_kc. apply touches_bind_l. apply touches_tfor_first; try lia.
    apply (touches_tfor1 _ _ _ _ _ _ 5); [lia|]. intros s. apply touches_bind_l. unfold copy0, pload. cbn -[Z.mul Z.add]. left. split; [reflexivity|lia].
  - unfold spackm_haswell_6xk. cbn [Z.eqb Pos.eqb negb andb]. rewrite andb_false_r. cbn [negb].
    destruct (Z.eqb_spec K 1) as [->|HK1].
    + apply k_loops_touches; try lia.
      * unfold columns8, tfor_. apply touches_tfor_first; try lia. unfold copy_column, padd. cbn [fst snd Z.mul]. rewrite Z.add_0_r.
        apply touches_bind_l. apply load_vec_touches. lia.
      * unfold copy_column. apply touches_bind_l. apply load_vec_touches. lia.
    + apply k_loops_touches; try lia.
      * apply touches_bind_r. intros _. unfold group2_haswell, padd. cbn [fst snd]. apply touches_bind_l.
        replace (o + 5 * K) with (o + 4 * K + 1 * K) by lia. apply load_rows_touches; lia.
      * unfold gather_column. apply touches_bind_l. apply load_rows_touches; lia.
Qed.

Lemma test1_out pk M K A_p m bi : pk <> BlisArmv8Pack -> 0 < M -> 0 < K -> ~ (6 | M) ->
  live m BufA = Some bi -> blen bi = M * K ->
  always_undefined (pack_test1 S pk (BufA, 0) A_p M K) m.
Proof.
  intros Hpk HM HK Hd HL Hlen.
  pose proof (Z.div_mod M 6 ltac:(lia)) as E. pose proof (Z.mod_pos_bound M 6 ltac:(lia)) as E'.
  assert (M mod 6 <> 0) by (intros Z0; apply Hd; exists (M / 6); lia).
  assert (0 <= M / 6) by (apply Z.div_pos; lia).
  set (i := M / 6 * 6 * K + 5 * K).
  apply (pout_exec BufA i).
  - unfold pack_test1, ppar_for. replace (0 <? 6) with true by reflexivity. cbn [pout]. left. eexists. split.
    + apply in_map. pose proof (in_zseq (loop_count 0 M 6) 0 6 (Z.to_nat (M / 6))) as I. rewrite Z2Nat.id in I by lia.
      apply I. apply count_lt; lia.
    + unfold padd. cbn [fst snd]. rewrite !Z.add_0_l. apply kernel_touches; auto.
  - unfold outside. rewrite HL, Hlen. unfold i. nia.
Qed.

End Out.

(** ** The layout of pack_A when the depth is one block *)

Section Same.
Variables (S : scalar) (F : fpenv) (ar : arch) (c : cntx) (M N K p mcu kcu ncu : Z) (x : blk_dims) (c1 : cntx).
Hypothesis L : legal F ar KMN c M N K p mcu kcu ncu.
Hypothesis E : init_block_dims F M N K p c KMN mcu kcu ncu = CRet (x, c1).

Lemma slot6_packed n_r (A : Z -> Z -> elt S) b (m' : mem (elt S)) :
  kmn_facts M N K p 6 n_r x -> (6 | M) -> 0 <= p -> K <= k_c x ->
  (forall i j, 0 <= i < M -> 0 <= j < K -> dat m' b (0 + panel_slot 6 K i j) = Some (A i j)) ->
  packedA_KMN S x p 6 K b (padrow S M A) m'.
Proof.
  intros FF HM Hp Hk HD m k core Hm Hk0 Hcore q i kk Hq Hi Hkk.
  assert (EM : M_padded x = M).
  { pose proof (mp_div _ _ _ _ _ _ _ FF) as D1. pose proof (kf_Mp _ _ _ _ _ _ _ FF). pose proof (kf_Mpu _ _ _ _ _ _ _ FF).
    destruct HM as [u ->], D1 as [v D1]. rewrite D1 in *. lia. }
  pose proof (kf_K _ _ _ _ _ _ _ FF) as PK. pose proof (kf_kc _ _ _ _ _ _ _ FF) as Hkc.
  pose proof (pt_last _ _ _ _ PK ltac:(lia)) as EK. pose proof (pt_w _ _ _ _ PK (Kb x - 1) ltac:(lia)) as Wk.
  assert (Kb x = 1) by nia. assert (k = 0) by lia. subst k. replace (Kb x - 1) with 0 in * by lia.
  assert (EKt : blk_kt x 0 = K) by lia. rewrite EKt in *.
  pose proof (kf_C _ _ _ _ _ _ _ FF m Hm) as PC. pose proof (kf_M _ _ _ _ _ _ _ FF) as PM.
  destruct (kf_mcd _ _ _ _ _ _ _ FF) as [u1 U1]. destruct (kf_mxr _ _ _ _ _ _ _ FF m Hm) as [u2 U2].
  destruct (kf_mr _ _ _ _ _ _ _ FF m core Hm Hcore) as [u3 U3].
  rewrite U3, Z.div_mul in Hq by lia.
  assert (R : m * (p * m_c x) + core * core_mx x m + core_mt x m core <= M_padded x).
  { pose proof (part_end _ _ _ _ PM m Hm). pose proof (part_end _ _ _ _ PC core Hcore). lia. }
  assert (R0 : 0 <= m * (p * m_c x) + core * core_mx x m).
  { pose proof (kf_mc _ _ _ _ _ _ _ FF). pose proof (kf_mx _ _ _ _ _ _ _ FF m Hm). nia. }
  rewrite U3 in R. cbn beta. unfold padrow.
  set (row := m * p * m_c x + core * core_mx x m + (q * 6 + i)).
  assert (Hr : 0 <= row < M) by (unfold row; lia).
  destruct (Z.ltb_spec row M); [|lia].
  replace (0 * k_c x + kk) with kk by lia. rewrite <- (HD row kk Hr Hkk). f_equal.
  unfold panel_slot. assert (Er : row = (m * p * u1 + core * u2 + q) * 6 + i) by (unfold row; rewrite U1, U2; ring).
  assert (D : row / 6 = m * p * u1 + core * u2 + q) by (rewrite Er; rewrite Z.div_add_l, Z.div_small; lia).
  assert (D' : row mod 6 = i) by (rewrite Er; rewrite Z.add_comm, Z.mod_add, Z.mod_small; lia).
  rewrite D, D', U1, U2. ring.
Qed.

Lemma test1_same pk (A : Z -> Z -> elt S) m : pk <> BlisArmv8Pack -> mr c = 6 -> (6 | M) -> K <= k_c x ->
  at_least m BufA (M * K) -> holds m BufA M K A -> at_least m (BufAp 0) (M * K) ->
  always (pack_A S (BufA, 0) (BufAp 0, 0) M K p x c1 (sch x)) m (fun _ m1 =>
    always (pack_test1 S pk (BufA, 0) (BufAp 0, 0) M K) m (fun _ m2 => same_mem m1 m2)).
Proof.
  intros Hpk H6 HM6 Hkc Ha Hh Hap.
  destruct (legal_plan _ _ _ _ _ _ _ _ _ _ _ _ _ L E) as (Hc1 & HP & Hs & Hsch & Hmr & Hnr & _).
  destruct L as (Har & Hc & HM & HN & HK & Hp & Ht).
  assert (Es : sch x = KMN) by (apply Hsch; discriminate). rewrite Es in *.
  assert (Emr : mr c1 = 6) by (rewrite <- H6; apply Hs).
  cbn [plan] in HP. destruct HP as (FF & _).
  assert (EM : M_padded x = M).
  { rewrite Emr in FF. pose proof (mp_div _ _ _ _ _ _ _ FF) as D1. pose proof (kf_Mp _ _ _ _ _ _ _ FF).
    pose proof (kf_Mpu _ _ _ _ _ _ _ FF). destruct HM6 as [u ->], D1 as [v D1]. rewrite D1 in *. lia. }
  assert (E6 : (M + 5) / 6 * 6 = M).
  { destruct HM6 as [u ->]. rewrite Z.div_add_l by lia. change (5 / 6) with 0. lia. }
  pose proof Ha as (ba & HLa & Hba). pose proof Hap as (bp & HLp & Hbp). apply pok_always. unfold pack_A.
  eapply pok_mono; [eapply (pack_A_k_first_spec S x M N K p (mr c1) (nr c1) BufA (BufAp 0) A); eauto; try lia; try discriminate|].
  cbn. intros _ m1 (H1 & H2 & H3).
  pose proof (test1_packs S pk M K A m Hpk HM HK) as T. rewrite E6 in T. specialize (T Ha Hh Hap).
  eapply always_mono; [exact T|]. cbn beta. intros _ m2 (D1 & D2 & D3).
  rewrite EM in *. rewrite Emr in *.
  assert (P2 : packedA_KMN S x p 6 K (BufAp 0) (padrow S M A) m2) by (eapply slot6_packed; eauto; lia).
  split; [intros b; now rewrite D2, H1|]. intros b i.
  assert (D : {b = BufAp 0} + {b <> BufAp 0}) by (decide equality; apply Z.eq_dec).
  assert (O : ~ (b = BufAp 0 /\ 0 <= i < M * K) -> dat m1 b i = dat m2 b i).
  { intros Hn. rewrite D3, H2; auto; unfold rng; intros (-> & ?); apply Hn; split; auto; lia. }
  destruct D as [->|Hn]; [|apply O; tauto].
  destruct (Z_lt_le_dec i 0); [apply O; lia|]. destruct (Z_lt_le_dec i (M * K)); [|apply O; lia].
  eapply (packedA_agree S M N K p 6 (nr c1) x (BufAp 0) (padrow S M A) m1 m2 FF); auto; lia.
Qed.

End Same.
