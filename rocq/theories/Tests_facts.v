(** * Random matrices and the tests. *)

From Coq Require Import ZArith Reals List Bool Permutation Lia Lra.
From Flocq Require Import Core BinarySingleNaN.
From Verif Require Import Lang Lang_facts Spec SpecTop SpecTouch SpecOnline SpecSingle SpecTests ModelSizing ModelKernel ModelPack
     ModelTop ModelUtil ModelDouble ModelIEEE ModelSingle ModelTests
     Kernel_facts Mult_facts Trans_facts Double_facts IEEE_facts IEEE32_facts Single_facts SingleTop_facts Touch2d_facts
     LinearUndef_facts Util_facts SpecTile Machine_facts WitnessSingle TouchMN_facts TouchOnline_facts
     CallAll_facts Top2d_facts Grid_call_facts.
Import ListNotations.
Open Scope Z_scope.

(** ** The values *)

Lemma rnd24_pow e : -149 <= e <= 100 -> rnd24 (bpow radix2 e) = bpow radix2 e.
Proof. intros H. replace (bpow radix2 e) with (dy 1 e) by (unfold dy; ring). apply rnd24_dy; lia. Qed.

Lemma rnd24_0 : rnd24 0 = 0%R.
Proof. apply (rnd24_int 0). lia. Qed.

Lemma rand_int r : 0 <= r <= RAND_MAX ->
  exists a b, srep (single_of_int r) a /\ srep (single_of_int RAND_MAX) b /\ (0 <= a <= b)%R /\ (1 <= b <= bpow radix2 31)%R.
Proof.
  intros H. exists (rnd24 (IZR r)), (rnd24 (IZR RAND_MAX)).
  split; [apply single_of_int_rep; unfold RAND_MAX in *; lia|]. split; [apply single_of_int_rep; unfold RAND_MAX in *; lia|].
  split; split.
  - rewrite <- rnd24_0. apply rnd24_le. apply IZR_le. lia.
  - apply rnd24_le. apply IZR_le. lia.
  - rewrite <- (rnd24_int 1) by lia. apply rnd24_le. apply IZR_le. unfold RAND_MAX. lia.
  - rewrite <- (rnd24_pow 31) by lia. apply rnd24_le. rewrite <- (IZR_Zpower radix2) by lia. apply IZR_le. unfold RAND_MAX. cbn. lia.
Qed.

Lemma big_ge r : (Rabs r <= bpow radix2 40)%R -> (Rabs r <= big)%R.
Proof. intros H. eapply Rle_trans; [exact H|]. apply bpow_le. lia. Qed.

Lemma b40 : (bpow radix2 40 = 1099511627776)%R. Proof. cbn. lra. Qed.
Lemma b31 : (bpow radix2 31 = 2147483648)%R. Proof. cbn. lra. Qed.

Lemma unit_abs x k : (0 <= k)%R -> (- k <= x <= k)%R -> (k <= bpow radix2 40)%R -> (Rabs x <= big)%R.
Proof. intros H0 H H1. apply big_ge. apply Rabs_le. lra. Qed.

Lemma rnd_between lo hi x : Z.abs lo < 2 ^ 53 -> Z.abs hi < 2 ^ 53 -> (IZR lo <= x <= IZR hi)%R -> (IZR lo <= rnd x <= IZR hi)%R.
Proof. intros H1 H2 (H3 & H4). apply rnd_le in H3. apply rnd_le in H4. rewrite rnd_int in H3, H4 by assumption. lra. Qed.

Lemma rnd24_between lo hi x : Z.abs lo <= 2 ^ 24 -> Z.abs hi <= 2 ^ 24 -> (IZR lo <= x <= IZR hi)%R -> (IZR lo <= rnd24 x <= IZR hi)%R.
Proof. intros H1 H2 (H3 & H4). apply rnd24_le in H3. apply rnd24_le in H4. rewrite rnd24_int in H3, H4 by assumption. lra. Qed.

Lemma rand_elem_range r : 0 <= r <= RAND_MAX -> finite (rand_elem r) /\ (-1 <= val (rand_elem r) <= 1)%R.
Proof.
  intros H. destruct (rand_int r H) as (a & b & Ha & Hb & Hab & Hb1). pose proof b40 as E40.
  assert (Hq : (0 <= a / b <= 1)%R).
  { split; [apply Rmult_le_pos; [lra|]; apply Rlt_le, Rinv_0_lt_compat; lra|].
    apply Rmult_le_reg_r with b; [lra|]. unfold Rdiv. rewrite Rmult_assoc, Rinv_l by lra. lra. }
  assert (D : srep (sdiv (single_of_int r) (single_of_int RAND_MAX)) (rnd24 (a / b))).
  { apply sdiv_rep; auto; [lra|]. apply (unit_abs _ 1); lra. }
  assert (Q : (0 <= rnd24 (a / b) <= 1)%R).
  { apply (rnd24_between 0 1); [lia|lia|lra]. }
  apply double_of_single_rep in D.
  pose proof (dmul_rep _ _ _ _ D (of_int_rep 2 ltac:(lia)) ltac:(apply (unit_abs _ 2); lra)) as D2.
  assert (Q2 : (0 <= rnd (rnd24 (a / b) * 2) <= 2)%R).
  { apply (rnd_between 0 2); [lia|lia|lra]. }
  pose proof (dsub_rep _ _ _ _ D2 (of_int_rep 1 ltac:(lia)) ltac:(apply (unit_abs _ 2); lra)) as D3.
  assert (Q3 : (-1 <= rnd (rnd (rnd24 (a / b) * 2) - 1) <= 1)%R).
  { apply (rnd_between (-1) 1); [lia|lia|lra]. }
  destruct (single_of_double_rep _ _ D3 ltac:(apply (unit_abs _ 1); lra)) as (F & V).
  split; [exact F|]. unfold val, rand_elem. rewrite V. apply (rnd24_between (-1) 1); [lia|lia|lra].
Qed.

Lemma rand_gen_range r : 0 <= r <= RAND_MAX -> finite (rand_gen r) /\ (0 < val (rand_gen r) <= 1)%R.
Proof.
  intros H. destruct (rand_int r H) as (a & b & Ha & Hb & Hab & Hb1). pose proof b40 as E40. pose proof b31 as E31.
  apply double_of_single_rep in Ha. apply double_of_single_rep in Hb.
  pose proof (dadd_rep _ _ _ _ Ha (of_int_rep 1 ltac:(lia)) ltac:(apply (unit_abs _ (bpow radix2 33)); cbn; lra)) as A1.
  pose proof (dadd_rep _ _ _ _ Hb (of_int_rep 1 ltac:(lia)) ltac:(apply (unit_abs _ (bpow radix2 33)); cbn; lra)) as B1.
  assert (Q1 : (1 <= rnd (a + 1) <= rnd (b + 1))%R).
  { split; [apply (rnd_between 1 4294967296); [lia|lia|lra]|apply rnd_le; lra]. }
  assert (Q2 : (rnd (b + 1) <= bpow radix2 32)%R).
  { replace (bpow radix2 32) with (IZR 4294967296) by (cbn; lra). apply (rnd_between 0 4294967296); [lia|lia|lra]. }
  set (x := rnd (a + 1)) in *. set (y := rnd (b + 1)) in *.
  assert (Q3 : (bpow radix2 (-32) <= x / y <= 1)%R).
  { split.
    - apply Rmult_le_reg_r with y; [lra|]. unfold Rdiv. rewrite Rmult_assoc, Rinv_l by lra.
      apply Rle_trans with (bpow radix2 (-32) * bpow radix2 32)%R; [apply Rmult_le_compat_l; [apply bpow_ge_0|exact Q2]|].
      rewrite <- bpow_plus. cbn. lra.
    - apply Rmult_le_reg_r with y; [lra|]. unfold Rdiv. rewrite Rmult_assoc, Rinv_l by lra. lra. }
  pose proof (bpow_gt_0 radix2 (-32)) as P32.
  pose proof (ddiv_rep _ _ _ _ A1 B1 ltac:(lra) ltac:(apply (unit_abs _ 1); lra)) as D.
  assert (Q4 : (bpow radix2 (-32) <= rnd (x / y) <= 1)%R).
  { split.
    - replace (bpow radix2 (-32)) with (dy 1 (-32)) in * by (unfold dy; ring). rewrite <- (rnd_dy 1 (-32)) by lia. apply rnd_le. lra.
    - apply (rnd_between 0 1); [lia|lia|lra]. }
  destruct (single_of_double_rep _ _ D ltac:(apply (unit_abs _ 1); lra)) as (F & V).
  split; [exact F|]. unfold val, rand_gen. rewrite V. split.
  - apply Rlt_le_trans with (bpow radix2 (-32)); [exact P32|]. rewrite <- (rnd24_pow (-32)) by lia. apply rnd24_le. lra.
  - apply (rnd24_between 0 1); [lia|lia|lra].
Qed.

(** ** rand_init *)

Section Init.

Variable S : scalar.
Notation T := (elt S).
Variable elem : Z -> T.

Lemma rand_init_ok b rnd r c m : 0 <= r * c -> at_least m b (r * c) ->
  pok (pseq (rand_init S elem (b, 0) rnd r c)) m (fun _ m' => fills elem m m' b (r * c) rnd).
Proof.
  intros Hn (bi & Lb & Hb). set (n := r * c) in *.
  apply (pok_seq (fun b' i => b' = b /\ 0 <= i < n) (fun _ _ => False) _ m
           (fun m' => forall i, 0 <= i < n -> dat m' b i = Some (elem (rnd i)))).
  - unfold rand_init, tfor_. fold n.
    eapply (twp_tfor1 _ _ (fun i _ m' => forall j, 0 <= j < i -> dat m' b j = Some (elem (rnd j)))); [lia|lia| |].
    + intros i [] m' Hi HI HL HF. unfold pstore. cbn [fst snd]. rewrite Z.add_0_l.
      eapply twp_store; [split; [reflexivity|lia]|rewrite HL; exact Lb|lia|].
      intros j Hj. cbn [upd dat].
      destruct (Z.eqb_spec i j) as [->|Hne].
      * rewrite buf_eqb_refl. reflexivity.
      * rewrite Bool.andb_false_r. apply HI. lia.
    + intros [] m' HI _ _ i Hi. apply HI. exact Hi.
  - intros ms m' HQ _ HL HD HF. split; [intros; now rewrite HL|]. split; [intros i Hi; rewrite HD; auto|]. exact HF.
  - intros b' i. destruct (buf_eqb_spec b' b) as [->|E].
    + destruct (Z_le_dec 0 i); [destruct (Z_lt_dec i n)|]; [left|right|right]; intuition lia.
    + right. now intros (-> & _).
Qed.

End Init.

(** ** One test *)

Section One.

Variable S : scalar.
Notation T := (elt S).
Variable elem : Z -> T.

Local Open Scope prog_scope.

Definition prepare (rndA rndB : Z -> Z) (M N K : Z) : prog T unit :=
  palloc BufA (M * K) false None ;;;
  palloc BufB (K * N) false None ;;;
  palloc BufC (M * N) false (Some (zero S)) ;;;
  pseq (rand_init S elem (BufA, 0) rndA M K) ;;;
  pseq (rand_init S elem (BufB, 0) rndB K N).

Definition finish {R} (r : R) : prog T R := pfree BufA ;;; pfree BufB ;;; pfree BufC ;;; PRet r.

Lemma one_test_split {R} (call : prog T R) check rndA rndB M N K :
  one_test S elem call check rndA rndB M N K =
  pbind (prepare rndA rndB M N K) (fun _ => pbind call (fun r => pbind (check N M K) (fun _ => finish r))).
Proof. reflexivity. Qed.

Definition ready (m0 m : mem T) (rndA rndB : Z -> Z) (M N K : Z) : Prop :=
  caller m M N K (fun i k => elem (rndA (i * K + k))) (fun k j => elem (rndB (k * N + j))) /\
  live m BufA = Some (BInfo (M * K) false) /\ live m BufB = Some (BInfo (K * N) false) /\
  live m BufC = Some (BInfo (M * N) false) /\
  (forall b, b <> BufA -> b <> BufB -> b <> BufC -> live m b = live m0 b).

Lemma prepare_ok rndA rndB M N K m0 : 0 <= M -> 0 <= N -> 0 <= K -> nothing_yet m0 ->
  pok (prepare rndA rndB M N K) m0 (fun _ m => ready m0 m rndA rndB M N K).
Proof.
  intros HM HN HK (LA & LB & LC & LO).
  assert (HMK : 0 <= M * K) by nia. assert (HKN : 0 <= K * N) by nia. assert (HMN : 0 <= M * N) by nia.
  unfold prepare. apply pok_bind, pok_alloc; [exact HMK|exact LA|].
  apply pok_bind, pok_alloc; [exact HKN|exact LB|].
  apply pok_bind, pok_alloc; [exact HMN|exact LC|].
  set (m3 := do_alloc _ BufC _ _ _). 
  assert (L3 : live m3 BufA = Some (BInfo (M * K) false) /\ live m3 BufB = Some (BInfo (K * N) false) /\
     live m3 BufC = Some (BInfo (M * N) false) /\ (forall b, b <> BufA -> b <> BufB -> b <> BufC -> live m3 b = live m0 b)).
  { split; [reflexivity|]. split; [reflexivity|]. split; [reflexivity|]. intros b H1 H2 H3. subst m3. cbn [do_alloc live].
    rewrite !buf_eqb_neq by congruence. reflexivity. }
  clearbody m3. destruct L3 as (A3 & B3 & C3 & O3).
  apply pok_bind. eapply pok_mono; [apply rand_init_ok; [exact HMK|exists (BInfo (M * K) false); split; [exact A3|cbn; lia]]|].
  intros [] m4 (L4 & D4 & F4).
  eapply pok_mono; [apply rand_init_ok; [exact HKN|exists (BInfo (K * N) false); rewrite L4; split; [exact B3|cbn; lia]]|].
  intros [] m5 (L5 & D5 & F5).
  assert (E : forall b, live m5 b = live m3 b) by (intros; now rewrite L5, L4).
  split.
  - split; [eexists; rewrite E, A3; split; [reflexivity|cbn; lia]|]. split.
    { intros i k Hi Hk. rewrite F5 by (intros (? & _); discriminate). apply D4. nia. }
    split; [eexists; rewrite E, B3; split; [reflexivity|cbn; lia]|]. split.
    { intros k j Hk Hj. apply D5. nia. }
    split; [eexists; rewrite E, C3; split; [reflexivity|cbn; lia]|].
    intros b Hb. rewrite E, O3; [auto|intros ->; exact Hb..].
  - rewrite !E. split; [auto|]. split; [auto|]. split; [auto|]. intros b H1 H2 H3. rewrite E. auto.
Qed.

Lemma finish_ok {R} (r : R) m (Q : R -> mem T -> Prop) :
  live m BufA <> None -> live m BufB <> None -> live m BufC <> None ->
  (forall m', (forall b, b <> BufA -> b <> BufB -> b <> BufC -> live m' b = live m b /\ forall x, dat m' b x = dat m b x) ->
     live m' BufA = None -> live m' BufB = None -> live m' BufC = None -> Q r m') ->
  pok (finish r) m Q.
Proof.
  intros LA LB LC H. unfold finish.
  apply pok_bind, pok_free; [exact LA|]. apply pok_bind, pok_free; [exact LB|]. apply pok_bind, pok_free; [exact LC|].
  apply pok_ret. apply H; try reflexivity. intros b H1 H2 H3. cbn [do_free live dat].
  rewrite !buf_eqb_neq by congruence. auto.
Qed.

Lemma one_test_undefined {R} (call : prog T R) check rndA rndB M N K m0 :
  0 <= M -> 0 <= N -> 0 <= K -> nothing_yet m0 ->
  (forall m, ready m0 m rndA rndB M N K -> always_undefined call m) ->
  always_undefined (one_test S elem call check rndA rndB M N K) m0.
Proof.
  intros HM HN HK H0 H. rewrite one_test_split. eapply pu_bind; [apply prepare_ok; assumption|].
  intros [] m' Hm. apply pu_bind_l. now apply H.
Qed.

(** The tests on two or more cores *)
Lemma run_tests_undefined F ar nz one rows check rnd c m0 :
  2 <= ncores c -> 1 < mr c -> legal_2d F ar rows c 1 1 1 2 0 0 0 -> nothing_yet m0 ->
  always_undefined (run_tests S elem F ar nz one rows check rnd c) m0.
Proof.
  intros Hc Hm HL H0. unfold run_tests, pfor. cbn [Z.ltb Z.compare].
  assert (E : exists n, loop_count 2 (ncores c + 1) 1 = Datatypes.S n).
  { unfold loop_count. rewrite Z.div_1_r. exists (Z.to_nat (ncores c - 2)). rewrite <- Z2Nat.inj_succ by lia. f_equal. lia. }
  destruct E as (n & ->). cbn [piter]. apply pu_bind_l.
  change (loop_count 0 6 1) with 6%nat. cbn [piter]. do 3 apply pu_bind_l.
  change (test_size 0) with 1. apply pu_bind_l. apply one_test_undefined; [lia|lia|lia|exact H0|].
  intros m (_ & LA & _).
  apply (g2d_undefined_A S F ar c rows 1 1 1 2 c 0 0 0 m 1 0); [exact HL| |lia|].
  - split; [lia|]. unfold round_up, ceil_div. rewrite (Z.div_small (1 + mr c - 1 - mr c) (mr c)) || idtac.
    replace ((1 + mr c - 1) / mr c) with 1; [lia|]. apply (Z.div_unique _ _ _ 0); lia.
  - intros bi v E. rewrite LA in E. injection E as <-. cbn. lia.
Qed.

(** On one core nothing is tested. *)
Lemma run_tests_one_core F ar nz one rows check rnd c m0 : ncores c <= 1 ->
  always (run_tests S elem F ar nz one rows check rnd c) m0 (fun r m' => r = c /\ m' = m0).
Proof.
  intros Hc. apply pok_always. unfold run_tests, pfor. cbn [Z.ltb Z.compare].
  replace (loop_count 2 (ncores c + 1) 1) with O; [cbn [piter]; now apply pok_ret|].
  unfold loop_count. rewrite Z.div_1_r. lia.
Qed.

End One.

(** With the sizes computed in IEEE double arithmetic *)
Lemma run_tests_undefined_ieee (S : scalar) (elem : Z -> elt S) ar nz one rows check rnd c m0 :
  arch_ok ar -> ctx_min ar c -> machine c -> 2 <= ncores c -> 1 < mr c ->
  bytes (mr c) 1 (nr c) <= L1 c -> 4 * (mr c * mr c + mr c * nr c + mr c * mr c) <= L2 c -> nothing_yet m0 ->
  always_undefined (run_tests S elem ieee ar nz one rows check rnd c) m0.
Proof.
  intros Har Hc Hma H2 Hm HL1 HL2 H0.
  assert (Ep : fp_pn ieee 2 1 1 = 1) by (vm_compute; reflexivity).
  destruct (Z_lt_ge_dec (ncores c) (2 + rows)) as [Hr|Hr].
  - apply run_tests_undefined; auto. split; [auto|]. split; [auto|]. do 4 (split; [lia|]). split.
    + split; [lia|]. rewrite Ep. split; [lia|]. left. unfold aim. rewrite Ep. exists 2. reflexivity.
    + apply ieee_2d_tiles; auto.
  - unfold run_tests, pfor. cbn [Z.ltb Z.compare].
    assert (E : exists n, loop_count 2 (ncores c + 1) 1 = Datatypes.S n).
    { unfold loop_count. rewrite Z.div_1_r. exists (Z.to_nat (ncores c - 2)). rewrite <- Z2Nat.inj_succ by lia. f_equal. lia. }
    destruct E as (n & ->). cbn [piter]. apply pu_bind_l.
    change (loop_count 0 6 1) with 6%nat. cbn [piter]. do 3 apply pu_bind_l.
    change (test_size 0) with 1. apply pu_bind_l. apply one_test_undefined; [lia|lia|lia|exact H0|].
    intros m ((_ & _ & _ & _ & _ & Ho) & _).
    assert (Eg : grid_dims_2d ieee 1 1 2 (ncores c) rows = CUB).
    { unfold grid_dims_2d. rewrite Ep. change (1 =? 0) with false. change (2 <? 1) with false. cbv iota zeta.
      unfold grid_tab at 1. replace (ncores c - 2 <? rows) with false by (symmetry; apply Z.ltb_ge; lia).
      rewrite andb_false_r. reflexivity. }
    unfold cake_sgemm_2d, get_ctx. cbn [pbind].
    apply pu_alloc; [lia|apply Ho; cbn; lia|]. unfold init_block_dims_2d. rewrite Eg. cbn [cbind lift].
    apply pu_bind_l, undef_intro. intros o Ho'. now inversion Ho'.
Qed.

(** ** Single tests *)

Section Kinds.

Variable S : scalar.
Notation T := (elt S).
Variable elem : Z -> T.

Lemma past_A m0 m rA rB M N K i k : ready S elem m0 m rA rB M N K -> 0 <= M -> M <= i -> 0 <= k < K -> missing m BufA (i * K + k).
Proof. intros (_ & LA & _) HM Hi Hk bi v E. rewrite LA in E. injection E as <-. cbn [blen]. intros H. exfalso. nia. Qed.

Lemma past_B m0 m rA rB M N K j : ready S elem m0 m rA rB M N K -> 0 <= N -> N <= j -> 0 < K -> missing m BufB ((K - 1) * N + j).
Proof. intros (_ & _ & LB & _) HN Hj HK bi v E. rewrite LB in E. injection E as <-. cbn [blen]. intros H. exfalso. nia. Qed.

Lemma over a r : 0 < a -> 0 < r -> ~ (r | a) -> a <= a < round_up a r.
Proof.
  intros Ha Hr Hd. split; [lia|]. unfold round_up, ceil_div.
  pose proof (Z.div_mod (a + r - 1) r ltac:(lia)) as E. pose proof (Z.mod_pos_bound (a + r - 1) r Hr) as B.
  assert (a <> (a + r - 1) / r * r) by (intros Q; apply Hd; exists ((a + r - 1) / r); exact Q). lia.
Qed.

Lemma test_2d_undefined F ar q rows check rA rB M N K p c mcu kcu ncu m0 :
  legal_2d F ar rows c M N K p mcu kcu ncu -> 0 < K -> ~ ((mr c | M) /\ (nr c | N)) -> nothing_yet m0 ->
  always_undefined (one_test S elem (cake_sgemm_2d S F ar q rows M N K p (Some c) mcu kcu ncu) check rA rB M N K) m0.
Proof.
  intros L HK Hd H0. destruct (legal_2d_dims _ _ _ _ _ _ _ _ _ _ _ L) as (Hmr & Hnr & _).
  assert (L' := L). destruct L' as (_ & _ & HM & HN & _).
  apply one_test_undefined; [lia|lia|lia|exact H0|]. intros m R.
  destruct (Znumtheory.Zdivide_dec (mr c) M) as [D|D].
  - destruct (Znumtheory.Zdivide_dec (nr c) N) as [D'|D']; [tauto|].
    apply (g2d_undefined_B S F ar q rows M N K p c mcu kcu ncu m (K - 1) N); [exact L|lia|now apply over|].
    eapply past_B; eauto; lia.
  - apply (g2d_undefined_A S F ar q rows M N K p c mcu kcu ncu m M 0); [exact L|now apply over|lia|].
    eapply past_A; eauto; lia.
Qed.

Lemma test_online_undefined so F ar q check rA rB M N K p c mcu kcu ncu m0 :
  legal F ar KMN c M N K p mcu kcu ncu -> 0 < M -> 0 < N -> 0 < K ->
  ~ ((mr c | M) /\ (nr c | N)) -> nothing_yet m0 ->
  always_undefined (one_test S elem (cake_sgemm_online S so F ar q M N K p (Some c) mcu kcu ncu) check rA rB M N K) m0.
Proof.
  intros L HM HN HK Hd H0. destruct (ctx_for_pos ar KMN c) as (Hmr & Hnr); [apply L|apply L|].
  apply one_test_undefined; [lia|lia|lia|exact H0|]. intros m R.
  destruct (Znumtheory.Zdivide_dec (mr c) M) as [D|D].
  - destruct (Znumtheory.Zdivide_dec (nr c) N) as [D'|D']; [tauto|].
    apply (online_undefined_B S so F ar q M N K p c mcu kcu ncu m (K - 1) N); [exact L|lia|lia|lia|now apply over|].
    eapply past_B; eauto; lia.
  - apply (online_undefined_A S so F ar q M N K p c mcu kcu ncu m M 0); [exact L|lia|lia|now apply over|lia|].
    eapply past_A; eauto; lia.
Qed.

End Kinds.

(** ** What the test of cake_sgemm reports *)

Lemma divides_no_rim {V} (m : mem V) N K r : 0 < r -> (r | N) -> B_rim m N K r 0.
Proof.
  intros Hr (x & ->) k j Hk Hj. exfalso. unfold round_up, ceil_div in Hj.
  replace ((x * r + r - 1) / r) with x in Hj; [lia|]. apply (Z.div_unique _ _ _ (r - 1)); lia.
Qed.

Lemma lsum_le (f : Z -> R) (b : R) (l : list Z) : (forall k, In k l -> (f k <= b)%R) -> (fold_right (fun k acc => f k + acc) 0 l <= INR (length l) * b)%R.
Proof.
  induction l as [|x l IH]; intros H; [cbn; lra|]. cbn [fold_right length]. rewrite S_INR.
  specialize (IH (fun k Hk => H k (or_intror Hk))). specialize (H x (or_introl eq_refl)). lra.
Qed.

Lemma mass_le A B K i j : 0 <= K -> (forall k, 0 <= k < K -> (Rabs (val (A i k)) <= 1)%R /\ (Rabs (val (B k j)) <= 1)%R) ->
  (0 <= mass A B K i j <= IZR K)%R.
Proof.
  intros HK H. split; [apply lsum_pos; intros; apply Rabs_pos|]. unfold mass, sumR.
  eapply Rle_trans; [apply (lsum_le _ 1)|].
  - intros k Hk. apply in_zrange in Hk. destruct (H k ltac:(lia)). rewrite Rabs_mult.
    rewrite <- (Rmult_1_l 1). apply Rmult_le_compat; auto using Rabs_pos.
  - rewrite zrange_len, INR_IZR_INZ, Z2Nat.id by lia. lra.
Qed.

(** For K <= 91 the two error bounds together are below 1/1000 even if every product is 1. *)
Lemma small_enough K m : 0 <= K <= 91 -> (0 <= m <= IZR K)%R ->
  ((2 * grow (K + 1) - 2) * m + 3 * IZR K * grow (K + 1) * / 2 ^ 150 <= 1 / 1000)%R /\
  (grow (K + 1) * m + 2 * IZR K * grow (K + 1) * / 2 ^ 150 < 2 ^ 128)%R.
Proof.
  intros HK Hm. assert (HR : (0 <= IZR K <= 91)%R) by (split; apply IZR_le; lia).
  assert (G1 : (1 <= grow (K + 1))%R) by apply gg_ge1.
  assert (E : INR (Z.to_nat (K + 1)) = (IZR K + 1)%R) by (rewrite INR_IZR_INZ, Z2Nat.id by lia; apply plus_IZR).
  assert (G : (grow (K + 1) * (1 - (IZR K + 1) * uu) <= 1)%R).
  { rewrite <- E. apply gg_gamma. rewrite E, uu_val. lra. }
  rewrite uu_val in G. pose proof (big128) as B. assert (2 ^ 40 = 1099511627776)%R as E40 by (cbn; lra). rewrite E40 in B.
  assert (T : (0 <= / 2 ^ 150 <= / 1000000000000)%R).
  { split; [left; apply Rinv_0_lt_compat, pow_lt; lra|]. apply Rinv_le; [lra|]. apply Rle_trans with (2 ^ 40)%R; [cbn; lra|].
    apply Rle_pow; [lra|lia]. }
  generalize dependent (grow (K + 1)). intros g. generalize dependent (/ 2 ^ 150)%R. intros t T G1 G.
  assert (U : (g * (1 - 92 * / 16777216) <= 1)%R).
  { eapply Rle_trans; [|exact G]. apply Rmult_le_compat_l; [lra|]. assert ((IZR K + 1) * / 16777216 <= 92 * / 16777216)%R by (apply Rmult_le_compat_r; lra). lra. }
  assert (X : ((2 * g - 2) * m <= (2 * g - 2) * 91)%R) by (apply Rmult_le_compat_l; lra).
  assert (Y : (g * m <= g * 91)%R) by (apply Rmult_le_compat_l; lra).
  assert (Z : (0 <= IZR K * g * t <= 91 * g * / 1000000000000)%R).
  { split; [repeat apply Rmult_le_pos; lra|]. apply Rmult_le_compat; try lra; [apply Rmult_le_pos; lra|]. apply Rmult_le_compat_r; lra. }
  split; lra.
Qed.

Section Reports.

Variables (F : fpenv) (ar : arch) (q : cntx) (nz : single -> bool) (M N K p : Z) (c : cntx)
  (alpha beta : single) (s : sched) (mcu kcu ncu : Z) (ok bad : single) (rA rB : Z -> Z) (m0 : mem single).
Hypothesis L : legal F ar s c M N K p mcu kcu ncu.
Hypothesis Hb : s = KMN \/ nz beta = false.
Hypothesis Hs : s = KMN \/ (nr c | N).
Hypothesis H0 : nothing_yet m0.
Hypothesis Hret : at_least m0 retb 1.

Notation A := (fun i k => rand_elem (rA (i * K + k))).
Notation B := (fun k j => rand_elem (rB (k * N + j))).

Notation the_test := (one_test Single rand_elem
  (cake_sgemm Single F ar q nz M N K p (Some c) false false alpha beta s mcu kcu ncu)
  (cake_sgemm_checker Single_mul_add far_single ok bad (BufA, 0) (BufB, 0) (BufC, 0)) rA rB M N K).

Lemma test_reports : exists ord, orders K ord /\ forall r : bool,
  (r = true <-> forall i j, 0 <= i < M -> 0 <= j < N ->
     far_single (product Single_mul_add A B (fun _ _ => zrange 0 K) i j) (product Single A B ord i j) = false) ->
  always the_test m0 (fun _ m' => (forall b, live m' b = live m0 b) /\ dat m' retb 0 = Some (if r then ok else bad)).
Proof.
  assert (HL := L). destruct HL as (Har & Hc & HM & HN & HK & Hp & _). destruct (ctx_for_pos ar s c Har Hc) as (Hmr & Hnr).
  destruct (plain_ok Single F ar q nz M N K p c alpha beta s mcu kcu ncu L (Some c) 0 eq_refl Hb (or_introl eq_refl)) as (ord & c' & H1 & _ & H3).
  exists ord. split; [exact H1|]. intros r Hr. apply pok_always. rewrite one_test_split.
  apply pok_bind. eapply pok_mono; [apply prepare_ok; auto|]. cbv beta. intros [] m1 (Hca & LA & LB & LC & LO).
  apply pok_bind. eapply pok_mono; [apply always_pok, (H3 _ _ m1 Hca)|].
  { intros Hne. destruct Hs as [|D]; [contradiction|]. now apply divides_no_rim. }
  cbv beta. intros r1 m2 (_ & E & El & Ed). cbn [CallAll_facts.start] in El, Ed.
  destruct Hca as (HbA & HhA & HbB & HhB & HbC & Hown).
  assert (HL : forall b n, at_least m1 b n -> at_least m2 b n).
  { intros b n (bi & E1 & E2). exists bi. rewrite El. auto. }
  assert (HD : forall b rows cols X, b <> BufC -> at_least m1 b (rows * cols) -> holds m1 b rows cols X -> holds m2 b rows cols X).
  { intros b rows cols X Hne (bi & E1 & _) Hh i j Hi Hj. rewrite Ed; [apply Hh; auto| |].
    - intros Q. discriminate (eq_trans (eq_sym Q) E1).
    - intros (Q & _). contradiction. }
  assert (HR1 : at_least m1 retb 1).
  { destruct Hret as (bi & E1 & E2). exists bi. rewrite LO; [auto|discriminate..]. }
  apply pok_bind. eapply pok_mono.
  - apply always_pok. apply (checker_ok Single_mul_add far_single ok bad M N K A B (product Single A B ord) m2 HM HN HK); auto.
    + apply HD; auto. discriminate.
    + apply HD; auto. discriminate.
    + rewrite El. apply Hown. cbn. lia.
  - cbv beta. intros [] m3 (L3 & _ & rr & Hr1 & Hr2).
    apply finish_ok; [rewrite L3, El, LA; discriminate|rewrite L3, El, LB; discriminate|rewrite L3, El, LC; discriminate|].
    intros m4 Ho EA EB EC. split.
    + intros b. destruct H0 as (ZA & ZB & ZC & _).
      destruct (buf_eqb_spec b BufA) as [->|NA]; [etransitivity; [exact EA|symmetry; exact ZA]|].
      destruct (buf_eqb_spec b BufB) as [->|NB]; [etransitivity; [exact EB|symmetry; exact ZB]|].
      destruct (buf_eqb_spec b BufC) as [->|NC]; [etransitivity; [exact EC|symmetry; exact ZC]|].
      destruct (Ho b NA NB NC) as (-> & _). rewrite L3, El. auto.
    + destruct (Ho retb ltac:(discriminate) ltac:(discriminate) ltac:(discriminate)) as (_ & ->).
      etransitivity; [exact Hr1|]. assert (rr = r) as ->; [|reflexivity].
      apply eq_true_iff_eq. rewrite Hr2, Hr. unfold no_far, refk. reflexivity.
Qed.

Lemma test_accepts : (forall x, 0 <= rA x <= RAND_MAX) -> (forall x, 0 <= rB x <= RAND_MAX) -> K <= 91 ->
  always the_test m0 (fun _ m' => (forall b, live m' b = live m0 b) /\ dat m' retb 0 = Some ok).
Proof.
  intros HA HB HK. destruct test_reports as (ord & Ho & H). apply (H true). split; [|reflexivity]. intros _ i j Hi Hj.
  assert (0 <= K) by apply L.
  assert (FA : all_finite M K A) by (intros a b _ _; apply rand_elem_range, HA).
  assert (FB : all_finite K N B) by (intros a b _ _; apply rand_elem_range, HB).
  destruct (small_enough K (mass A B K i j)) as (E1 & E2); [lia| |].
  { apply mass_le; [lia|]. intros k Hk. destruct (rand_elem_range _ (HA (i * K + k))) as (_ & ?).
    destruct (rand_elem_range _ (HB (k * N + j))) as (_ & ?). split; apply Rabs_le; lra. }
  apply (near_checked A B M N K ord i j); auto.
Qed.

Lemma dot_const (S : scalar) (x : elt S) l : dot S (fun _ => x) (fun _ => x) l (zero S) = times S x (length l).
Proof.
  unfold dot, times. generalize (zero S). induction l as [|y l IH]; intros z; [reflexivity|].
  cbn [fold_left length]. rewrite IH. symmetry. 
  clear IH. induction (length l) as [|n IHn]; [reflexivity|]. exact (f_equal (fun a => fma S x x a) IHn).
Qed.

Lemma test_rejects r : (forall x, rA x = r) -> (forall x, rB x = r) -> 0 < M -> 0 < N ->
  far_single (times Single_mul_add (rand_elem r) (Z.to_nat K)) (times Single (rand_elem r) (Z.to_nat K)) = true ->
  always the_test m0 (fun _ m' => (forall b, live m' b = live m0 b) /\ dat m' retb 0 = Some bad).
Proof.
  intros HA HB HM HN Hf. destruct test_reports as (ord & Ho & H). apply (H false). split; [discriminate|].
  intros Q. specialize (Q 0 0 ltac:(lia) ltac:(lia)). rewrite <- Q, <- Hf. assert (0 <= K) by apply L.
  assert (P : forall (S : scalar) (f : Z -> elt S) ord, orders K ord ->
    product S (fun i k => f (rA (i * K + k))) (fun k j => f (rB (k * N + j))) ord 0 0 = times S (f r) (Z.to_nat K)).
  { intros S f o Hor. unfold product, dot. rewrite <- (zrange_len K) by lia. rewrite <- (Permutation_length (Hor 0 0)).
    rewrite <- dot_const. unfold dot. generalize (zero S). induction (o 0 0) as [|y l IH]; intros z; [reflexivity|].
    cbn [fold_left]. rewrite HA, HB. apply IH. }
  rewrite (P Single rand_elem ord Ho). f_equal. apply (P Single_mul_add rand_elem). intros i j. apply Permutation_refl.
Qed.

End Reports.
