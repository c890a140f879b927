(** * cake_sgemm on floats: accuracy, exact integers, the checker. *)

From Coq Require Import ZArith Reals List Bool Lia Lra Permutation.
From Flocq Require Import Core BinarySingleNaN Relative.
From Verif Require Import Lang Spec SpecTop SpecSingle ModelSizing ModelIEEE ModelSingle ModelTop ModelUtil
     Double_facts IEEE_facts IEEE32_facts Kernel_facts Lang_facts CallAll_facts Mult_facts Trans_facts Util_facts Single_facts.
Open Scope Z_scope.

(** ** Integers *)

Lemma fma_int a b c x y z : is_int a x -> is_int b y -> is_int c z -> Z.abs (x * y + z) <= 2 ^ 24 ->
  is_int (fma Single a b c) (x * y + z).
Proof.
  intros (Ha & Va) (Hb & Vb) (Hc & Vc) H.
  assert (E : (val a * val b + val c)%R = IZR (x * y + z)) by (rewrite Va, Vb, Vc, plus_IZR, mult_IZR; reflexivity).
  assert (Hf : finite (fma Single a b c)).
  { apply fma_finite; auto. rewrite E, <- abs_IZR. apply IZR_le in H. change (IZR (2 ^ 24)) with 16777216%R in H.
    pose proof uu_pos. assert (uu < 1)%R by (rewrite uu_val; lra).
    assert (eta <= 1)%R.
    { rewrite <- Rinv_1. apply Rinv_le; [lra|]. apply pow_R1_Rle. lra. }
    assert (bpow radix2 128 > 2 ^ 26)%R.
    { rewrite bpow128. apply Rlt_pow; [lra|lia]. }
    assert (2 ^ 26 = 67108864)%R as E26 by (cbn; lra). rewrite E26 in *.
    assert (0 <= IZR (Z.abs (x * y + z)))%R by (apply IZR_le; lia).
    generalize dependent (IZR (Z.abs (x * y + z))). intros w. intros. nra. }
  split; [exact Hf|]. rewrite fma_value, E by auto. now apply rnd24_int.
Qed.

Lemma dot_int a b x y : forall l acc n w,
  (forall k, In k l -> is_int (a k) (x k) /\ is_int (b k) (y k)) -> is_int acc n -> Z.abs n <= w ->
  w + fold_right (fun k s => Z.abs (x k * y k) + s) 0 l <= 2 ^ 24 ->
  is_int (dot Single a b l acc) (n + fold_right (fun k s => x k * y k + s) 0 l).
Proof.
  induction l as [|k l IH]; intros acc n w Hl Hn Hw H; cbn [fold_right] in *.
  - rewrite Z.add_0_r. exact Hn.
  - change (dot Single a b (k :: l) acc) with (dot Single a b l (fma Single (a k) (b k) acc)).
    destruct (Hl k (or_introl eq_refl)) as (Ha & Hb).
    assert (0 <= fold_right (fun k s => Z.abs (x k * y k) + s) 0 l).
    { clear. induction l; cbn [fold_right]; lia. }
    replace (n + (x k * y k + fold_right (fun k s => x k * y k + s) 0 l)) with
      (x k * y k + n + fold_right (fun k s => x k * y k + s) 0 l) by ring.
    apply (IH _ _ (w + Z.abs (x k * y k))); try lia.
    + intros; apply Hl; now right.
    + apply fma_int; auto. lia.
Qed.

Lemma fold_perm (f : Z -> Z) l l' : Permutation l l' ->
  fold_right (fun k s => f k + s) 0 l = fold_right (fun k s => f k + s) 0 l'.
Proof. induction 1; cbn [fold_right]; lia. Qed.

Lemma product_int A B a b M N K ord i j : 0 <= K -> orders K ord -> 0 <= i < M -> 0 <= j < N ->
  (forall i k, 0 <= i < M -> 0 <= k < K -> is_int (A i k) (a i k)) ->
  (forall k j, 0 <= k < K -> 0 <= j < N -> is_int (B k j) (b k j)) ->
  massZ a b K i j <= 2 ^ 24 ->
  is_int (product Single A B ord i j) (exactZ a b K i j).
Proof.
  intros HK Ho Hi Hj HA HB H. unfold product, exactZ, massZ in *.
  rewrite <- (fold_perm (fun k => a i k * b k j) _ _ (Ho i j)).
  rewrite <- (fold_perm (fun k => Z.abs (a i k * b k j)) _ _ (Ho i j)) in H.
  apply (dot_int (A i) (fun k => B k j) (a i) (fun k => b k j) (ord i j) (zero Single) 0 0); auto; try lia.
  - intros k Hk. apply (Permutation_in _ (Ho i j)), in_zrange in Hk. split; [apply HA|apply HB]; lia.
  - split; reflexivity.
Qed.

(** ** The comparison *)

Lemma eps_val : val eps_single = (8589935 * / 2 ^ 33)%R.
Proof. unfold val, eps_single, B2R, F2R. cbn [Fnum Fexp cond_Zopp]. change (-33) with (- Z.of_nat 33). rewrite bpow_neg. reflexivity. Qed.

Lemma eps_small : (1 / 1000 <= val eps_single < 1)%R.
Proof. rewrite eps_val. assert (2 ^ 33 = 8589934592)%R as -> by (cbn; lra). lra. Qed.

Lemma near_single a b : finite a -> finite b -> (Rabs (val a - val b) <= val eps_single)%R -> far_single a b = false.
Proof.
  intros Ha Hb H. unfold far_single, ssub.
  pose proof (@Bminus_correct 24 128 prec24 emax128 mode_NE a b Ha Hb) as X.
  assert (R : (Rabs (rnd24 (val a - val b)) <= val eps_single)%R).
  { apply abs_round_le_generic; auto with typeclass_instances. apply generic_format_B2R. }
  rewrite Rlt_bool_true in X.
  - destruct X as (V & Fi & _). rewrite Bltb_correct.
    + rewrite B2R_Babs, V. change (round radix2 fexp32 (round_mode mode_NE) (B2R a - B2R b)) with (rnd24 (val a - val b)).
      apply Rlt_bool_false. exact R.
    + reflexivity.
    + rewrite is_finite_Babs. exact Fi.
  - eapply Rle_lt_trans; [exact R|]. rewrite bpow128. apply Rlt_le_trans with 1%R; [apply eps_small|]. apply pow_R1_Rle. lra.
Qed.

Lemma far_single_iff a b : far_single a b = false <->
  is_nan (ssub a b) = true \/ (finite (ssub a b) /\ (Rabs (val (ssub a b)) <= val eps_single)%R).
Proof.
  unfold far_single. generalize (ssub a b). intros d. destruct (is_finite d) eqn:Fi.
  - rewrite Bltb_correct; [|reflexivity|now rewrite is_finite_Babs]. rewrite B2R_Babs. fold (val d) (val eps_single).
    destruct (Rlt_bool_spec (val eps_single) (Rabs (val d))).
    + split; [discriminate|]. intros [Hn|(_ & H')]; [destruct d; discriminate|lra].
    + split; auto.
  - destruct d; try discriminate Fi.
    + split; [|intros [Hn|(Hf & _)]; discriminate]. destruct s; discriminate.
    + split; auto.
Qed.

Lemma far_int a b n : is_int a n -> is_int b n -> far_single a b = false.
Proof.
  intros (Ha & Va) (Hb & Vb). apply near_single; auto. rewrite Va, Vb. replace (IZR n - IZR n)%R with 0%R by ring. rewrite Rabs_R0.
  pose proof eps_small. lra.
Qed.

Lemma checker_single ok bad M N K (A B C : Z -> Z -> single) m :
  0 <= M -> 0 <= N -> 0 <= K -> ok <> bad ->
  at_least m BufA (M * K) -> holds m BufA M K A ->
  at_least m BufB (K * N) -> holds m BufB K N B ->
  at_least m BufC (M * N) -> holds m BufC M N C ->
  at_least m retb 1 -> live m ckbuf = None ->
  always (cake_sgemm_checker Single_mul_add far_single ok bad (BufA, 0) (BufB, 0) (BufC, 0) N M K) m (fun _ m' =>
    dat m' retb 0 = Some ok <->
    forall i j, 0 <= i < M -> 0 <= j < N ->
      let d := ssub (product Single_mul_add A B (fun _ _ => zrange 0 K) i j) (C i j) in
      is_nan d = true \/ (finite d /\ (Rabs (val d) <= val eps_single)%R)).
Proof.
  intros HM HN HK Hne H1 H2 H3 H4 H5 H6 H7 H8.
  eapply always_mono; [exact (checker_ok Single_mul_add far_single ok bad M N K A B C m HM HN HK H1 H2 H3 H4 H5 H6 H7 H8)|].
  cbv beta. intros _ m' (_ & _ & r & Hr1 & Hr2). rewrite Hr1. cbv zeta.
  assert (E : Some (if r then ok else bad) = Some ok <-> r = true) by (destruct r; split; congruence).
  rewrite E, Hr2. split; intros H i j Hi Hj; apply far_single_iff; now apply H.
Qed.

Lemma near_checked A B M N K ord i j : 0 <= K -> all_finite M K A -> all_finite K N B -> orders K ord ->
  0 <= i < M -> 0 <= j < N ->
  ((2 * grow (K + 1) - 2) * mass A B K i j + 3 * IZR K * grow (K + 1) * / 2 ^ 150 <= 1 / 1000)%R ->
  (grow (K + 1) * mass A B K i j + 2 * IZR K * grow (K + 1) * / 2 ^ 150 < 2 ^ 128)%R ->
  far_single (product Single_mul_add A B (fun _ _ => zrange 0 K) i j) (product Single A B ord i j) = false.
Proof.
  intros HK HA HB Ho Hi Hj He Hlt.
  assert (HM : (0 <= mass A B K i j)%R) by (apply lsum_pos; intros; apply Rabs_pos).
  assert (G : (1 <= grow K <= grow (K + 1))%R).
  { unfold grow. split; [apply gg_ge1|]. apply Rle_pow; [pose proof uu_pos; lra|lia]. }
  assert (HKR : (0 <= IZR K)%R) by (now apply IZR_le). pose proof eta_pos as E.
  assert (X1 : (IZR K * grow K * eta <= IZR K * grow (K + 1) * eta)%R).
  { apply Rmult_le_compat_r; [lra|]. apply Rmult_le_compat_l; lra. }
  assert (X0 : (0 <= IZR K * grow K * eta)%R) by (repeat apply Rmult_le_pos; lra).
  assert (X2 : (grow K * mass A B K i j <= grow (K + 1) * mass A B K i j)%R) by (apply Rmult_le_compat_r; lra).
  assert (Hn : no_overflow K (mass A B K i j)).
  { unfold no_overflow. lra. }
  pose proof (product_finite A B M N K HK HA HB ord i j Ho Hi Hj Hn) as F1.
  pose proof (product_accurate A B M N K HK HA HB ord i j Ho Hi Hj F1) as A1.
  destruct (check_accurate A B M N K HK HA HB i j Hi Hj Hlt) as (F2 & A2). cbv zeta in F2, A2.
  apply near_single; auto. unfold accurate in A1.
  set (x := val (product Single A B ord i j)) in *.
  set (y := val (product Single_mul_add A B (fun _ _ => zrange 0 K) i j)) in *.
  replace (y - x)%R with ((y - exact A B K i j) - (x - exact A B K i j))%R by ring.
  eapply Rle_trans; [apply Rabs_triang|]. rewrite Rabs_Ropp.
  pose proof eps_small. lra.
Qed.

(** ** Whole calls *)

Section Top.
Variables (F : fpenv) (ar : arch) (q : cntx) (nz : single -> bool) (M N K p : Z) (c : cntx)
  (alpha beta : single) (s : sched) (mcu kcu ncu t : Z).
Hypothesis L : legal F ar s c M N K p mcu kcu ncu.
Hypothesis Hb : s = KMN \/ nz beta = false.
Hypothesis Ht : tail_ok c K p mcu kcu ncu t.

Lemma HK0 : 0 <= M /\ 0 <= N /\ 0 <= K.
Proof. destruct L as (_ & _ & ? & ? & ? & _). auto. Qed.

Lemma sgemm_accurate A B m0 :
  caller m0 M N K A B -> (s <> KMN -> B_rim m0 N K (nr c) t) -> all_finite M K A -> all_finite K N B ->
  (forall i j, 0 <= i < M -> 0 <= j < N -> no_overflow K (mass A B K i j)) ->
  always (cake_sgemm Single F ar q nz M N K p (Some c) false false alpha beta s mcu kcu ncu) m0 (fun _ m' =>
    exists C, holds m' BufC M N C /\ forall i j, 0 <= i < M -> 0 <= j < N ->
      finite (C i j) /\ accurate K (C i j) (exact A B K i j) (mass A B K i j)).
Proof.
  intros Hc Hr HA HB Hn.
  destruct (plain_ok Single F ar q nz M N K p c alpha beta s mcu kcu ncu L (Some c) t eq_refl Hb Ht) as (ord & c' & H1 & _ & H3).
  eapply always_mono; [apply (H3 A B m0 Hc Hr)|]. cbv beta. intros r m' (_ & E & _). eexists. split; [exact E|].
  intros i j Hi Hj. destruct HK0 as (_ & _ & HK).
  assert (finite (product Single A B ord i j)) by (eapply product_finite; eauto).
  split; [auto|]. eapply product_accurate; eauto.
Qed.

Lemma sgemm_int A B a b m0 :
  caller m0 M N K A B -> (s <> KMN -> B_rim m0 N K (nr c) t) ->
  (forall i k, 0 <= i < M -> 0 <= k < K -> is_int (A i k) (a i k)) ->
  (forall k j, 0 <= k < K -> 0 <= j < N -> is_int (B k j) (b k j)) ->
  (forall i j, 0 <= i < M -> 0 <= j < N -> massZ a b K i j <= 2 ^ 24) ->
  always (cake_sgemm Single F ar q nz M N K p (Some c) false false alpha beta s mcu kcu ncu) m0 (fun _ m' =>
    exists C, holds m' BufC M N C /\ forall i j, 0 <= i < M -> 0 <= j < N -> is_int (C i j) (exactZ a b K i j)).
Proof.
  intros Hc Hr HA HB Hn.
  destruct (plain_ok Single F ar q nz M N K p c alpha beta s mcu kcu ncu L (Some c) t eq_refl Hb Ht) as (ord & c' & H1 & _ & H3).
  eapply always_mono; [apply (H3 A B m0 Hc Hr)|]. cbv beta. intros r m' (_ & E & _). eexists. split; [exact E|].
  intros i j Hi Hj. destruct HK0 as (_ & _ & HK). eapply product_int; eauto.
Qed.

Lemma sgemm_then_check ok bad A B m0 :
  caller m0 M N K A B -> (s <> KMN -> B_rim m0 N K (nr c) t) -> all_finite M K A -> all_finite K N B ->
  at_least m0 retb 1 ->
  (forall i j, 0 <= i < M -> 0 <= j < N ->
    ((2 * grow (K + 1) - 2) * mass A B K i j + 3 * IZR K * grow (K + 1) * / 2 ^ 150 <= 1 / 1000)%R /\
    (grow (K + 1) * mass A B K i j + 2 * IZR K * grow (K + 1) * / 2 ^ 150 < 2 ^ 128)%R) ->
  always (pbind (cake_sgemm Single F ar q nz M N K p (Some c) false false alpha beta s mcu kcu ncu)
                (fun _ => cake_sgemm_checker Single_mul_add far_single ok bad (BufA, 0) (BufB, 0) (BufC, 0) N M K)) m0
    (fun _ m' => (forall b, live m' b = live m0 b) /\ dat m' retb 0 = Some ok).
Proof.
  intros Hc Hr HA HB Hret Hn. destruct HK0 as (HM & HN & HK).
  destruct (plain_ok Single F ar q nz M N K p c alpha beta s mcu kcu ncu L (Some c) t eq_refl Hb Ht) as (ord & c' & H1 & _ & H3).
  apply pok_always. apply pok_bind. eapply pok_mono; [apply always_pok, (H3 A B m0 Hc Hr)|]. cbv beta.
  intros r m' (_ & E & El & Ed). cbn [CallAll_facts.start] in El, Ed.
  destruct Hc as (HbA & HhA & HbB & HhB & HbC & Hown).
  assert (HL : forall b n, at_least m0 b n -> at_least m' b n).
  { intros b n (bi & E1 & E2). exists bi. rewrite El. auto. }
  assert (HD : forall b rows cols X, b <> BufC -> at_least m0 b (rows * cols) -> holds m0 b rows cols X -> holds m' b rows cols X).
  { intros b rows cols X Hne (bi & E1 & _) Hh i j Hi Hj. rewrite Ed; [apply Hh; auto| |].
    - intros Q. discriminate (eq_trans (eq_sym Q) E1).
    - intros (Q & _). contradiction. }
  apply always_pok. eapply always_mono.
  - apply (checker_ok Single_mul_add far_single ok bad M N K A B (product Single A B ord) m' HM HN HK); auto.
    + apply HD; auto. discriminate.
    + apply HD; auto. discriminate.
    + rewrite El. apply Hown. cbn. lia.
  - cbv beta. intros _ m'' (HL2 & _ & rr & Hr1 & Hr2). split; [intros b; now rewrite HL2, El|]. etransitivity; [exact Hr1|].
    assert (rr = true) as ->; [|reflexivity]. apply Hr2. intros i j Hi Hj. destruct (Hn i j Hi Hj).
    apply (near_checked A B M N K ord i j); auto.
Qed.
End Top.
