(** * The 32-bit checks of ModelInt.v against the rules of SpecIntSem.v.  Proofs only. *)

From Coq Require Import ZArith List Bool Lia.
From Verif Require Import Lang ModelSizing ModelInt SpecIntSem.
Open Scope Z_scope.

Lemma in_int_an z : in_int z = true <-> an_int z.
Proof.
  unfold in_int, an_int. rewrite andb_true_iff, Z.leb_le, Z.ltb_lt.
  change (2 ^ 31) with 2147483648. lia.
Qed.

Lemma isafe_evaluates e : isafe e = true -> evaluates e (ival e).
Proof.
  induction e; cbn [isafe ival]; intros H; repeat rewrite andb_true_iff in H; rewrite ?in_int_an in H;
    try (constructor; tauto).
  - destruct H as [[[H1 H2] H3] H4]. apply negb_true_iff, Z.eqb_neq in H3. constructor; auto.
  - destruct H as [[[H1 H2] H3] H4]. apply negb_true_iff, Z.eqb_neq in H3. constructor; auto.
Qed.

Lemma evaluates_isafe e v : evaluates e v -> isafe e = true /\ ival e = v.
Proof.
  induction 1; cbn [isafe ival]; [auto|..];
    destruct IHevaluates1 as [S1 E1], IHevaluates2 as [S2 E2]; rewrite E1, E2;
    (split; [|reflexivity]); rewrite S1, S2; cbn [andb].
  - now apply in_int_an.
  - now apply in_int_an.
  - now apply in_int_an.
  - apply Z.eqb_neq in H1. rewrite H1. now apply in_int_an.
  - apply Z.eqb_neq in H1. rewrite H1. now apply in_int_an.
Qed.

Lemma evaluates_iff e v : evaluates e v <-> isafe e = true /\ ival e = v.
Proof.
  split; [apply evaluates_isafe|]. intros [H1 H2]. subst v. now apply isafe_evaluates.
Qed.

Lemma cint_exact e :
  (forall v, cint e = CRet v <-> evaluates e v) /\ (cint e = CUB <-> forall v, ~ evaluates e v).
Proof.
  unfold cint. destruct (isafe e) eqn:E; split.
  - intros v. rewrite evaluates_iff. split; [intros H; inversion H; auto|intros [_ H]; now subst].
  - split; [discriminate|]. intros H. destruct (H _ (isafe_evaluates e E)).
  - intros v. rewrite evaluates_iff. split; [discriminate|intros [H _]; congruence].
  - split; [|reflexivity]. intros _ v H. apply evaluates_isafe in H. destruct H; congruence.
Qed.

Lemma tint_exact V e :
  (forall v, @tint V e = TRet v <-> evaluates e v) /\ (@tint V e = TFail <-> forall v, ~ evaluates e v).
Proof.
  unfold tint. destruct (isafe e) eqn:E; split.
  - intros v. rewrite evaluates_iff. split; [intros H; inversion H; auto|intros [_ H]; now subst].
  - split; [discriminate|]. intros H. destruct (H _ (isafe_evaluates e E)).
  - intros v. rewrite evaluates_iff. split; [discriminate|intros [H _]; congruence].
  - split; [|reflexivity]. intros _ v H. apply evaluates_isafe in H. destruct H; congruence.
Qed.

Lemma pint_exact V e :
  (forall v, @pint V e = PRet v <-> evaluates e v) /\ (@pint V e = PUB <-> forall v, ~ evaluates e v).
Proof.
  unfold pint. destruct (isafe e) eqn:E; split.
  - intros v. rewrite evaluates_iff. split; [intros H; inversion H; auto|intros [_ H]; now subst].
  - split; [discriminate|]. intros H. destruct (H _ (isafe_evaluates e E)).
  - intros v. rewrite evaluates_iff. split; [discriminate|intros [H _]; congruence].
  - split; [|reflexivity]. intros _ v H. apply evaluates_isafe in H. destruct H; congruence.
Qed.

Lemma counts_iff lo hi step i : 0 < step ->
  counts lo hi step i <-> exists n, 0 <= n <= Z.of_nat (loop_count lo hi step) /\ i = lo + n * step.
Proof.
  intros Hs.
  assert (L : forall n, 0 <= n < Z.of_nat (loop_count lo hi step) <-> 0 <= n /\ lo + n * step < hi).
  { intros n. unfold loop_count.
    set (q := (hi - lo + step - 1) / step).
    assert (Q : step * q <= hi - lo + step - 1 < step * q + step).
    { subst q. pose proof (Z.div_mod (hi - lo + step - 1) step ltac:(lia)).
      pose proof (Z.mod_pos_bound (hi - lo + step - 1) step Hs). lia. }
    split; intros H.
    - split; [lia|]. assert (n + 1 <= q) by lia.
      assert (step * (n + 1) <= step * q) by (apply Z.mul_le_mono_nonneg_l; lia). lia.
    - split; [lia|]. destruct (Z_lt_le_dec n q); [lia|].
      assert (step * q <= step * n) by (apply Z.mul_le_mono_nonneg_l; lia). lia. }
  split.
  - induction 1 as [|i Hi [n [Hn E]] Hlt].
    + exists 0. lia.
    + exists (n + 1). subst i. pose proof (proj2 (L n)). lia.
  - intros (n & Hn & ->). pose proof (proj1 Hn) as H0. revert n H0 Hn.
    apply (natlike_ind (fun n => 0 <= n <= Z.of_nat (loop_count lo hi step) -> counts lo hi step (lo + n * step))).
    + intros _. replace (lo + 0 * step) with lo by lia. constructor.
    + intros n Hn IH H. replace (lo + Z.succ n * step) with (lo + n * step + step) by lia.
      constructor; [apply IH; lia|]. apply L. lia.
Qed.

Lemma counter_exact lo hi step : 0 < step ->
  counter_ok lo hi step = true <-> forall i, counts lo hi step i -> i <= 2147483647.
Proof.
  intros Hs. unfold counter_ok. rewrite Z.ltb_lt. change (2 ^ 31) with 2147483648. split.
  - intros H i Hi. apply counts_iff in Hi; auto. destruct Hi as (n & Hn & ->).
    assert (n * step <= Z.of_nat (loop_count lo hi step) * step) by (apply Z.mul_le_mono_nonneg_r; lia). lia.
  - intros H. assert (C : counts lo hi step (lo + Z.of_nat (loop_count lo hi step) * step)).
    { apply counts_iff; auto. exists (Z.of_nat (loop_count lo hi step)). lia. }
    apply H in C. lia.
Qed.

Lemma loops_exact V lo hi step (tb : Z -> thr V unit) (pb : Z -> prog V unit) : 0 < step ->
  ((forall i, counts lo hi step i -> i <= 2147483647) ->
     tfor32_ lo hi step tb = tfor_ lo hi step tb /\ pfor32_ lo hi step pb = pfor_ lo hi step pb /\
     ppar_for32 lo hi step tb = ppar_for lo hi step tb) /\
  ((exists i, counts lo hi step i /\ 2147483647 < i) ->
     tfor32_ lo hi step tb = TFail /\ pfor32_ lo hi step pb = PUB /\ ppar_for32 lo hi step tb = PUB).
Proof.
  intros Hs. unfold tfor32_, pfor32_, ppar_for32. split.
  - intros H. apply counter_exact in H; auto. rewrite H. auto.
  - intros (i & Hi & Hlt). destruct (counter_ok lo hi step) eqn:E; [|auto].
    rewrite (counter_exact lo hi step Hs) in E. apply E in Hi. lia.
Qed.

Lemma carried_exact V R lo hi step s (tb : Z -> R -> thr V R) (pb : Z -> R -> prog V R) : 0 < step ->
  ((forall i, counts lo hi step i -> i <= 2147483647) ->
     tfor32 lo hi step s tb = tfor lo hi step s tb /\ pfor32 lo hi step s pb = pfor lo hi step s pb) /\
  ((exists i, counts lo hi step i /\ 2147483647 < i) ->
     tfor32 lo hi step s tb = TFail /\ pfor32 lo hi step s pb = PUB).
Proof.
  intros Hs. unfold tfor32, pfor32. split.
  - intros H. apply counter_exact in H; auto. rewrite H. auto.
  - intros (i & Hi & Hlt). destruct (counter_ok lo hi step) eqn:E; [|auto].
    rewrite (counter_exact lo hi step Hs) in E. apply E in Hi. lia.
Qed.

Lemma exact_cases :
  evaluates (IxDiv (IxMul 65536 1000) 1000) 65536 /\
  (forall v, ~ evaluates (IxDiv (IxMul 65536 65536) 65536) v) /\
  (forall v, ~ evaluates (IxRem 5 0) v) /\
  (counts 0 2147483640 16 2147483648 /\ 2147483647 < 2147483648).
Proof.
  split; [|split; [|split; [|split]]].
  - apply evaluates_iff. split; reflexivity.
  - intros v H. apply evaluates_iff in H. destruct H as [H _]. discriminate H.
  - intros v H. apply evaluates_iff in H. destruct H as [H _]. discriminate H.
  - apply counts_iff; [lia|]. exists 134217728. split; [|lia].
    unfold loop_count. rewrite Z2Nat.id; [|discriminate]. vm_compute. split; discriminate.
  - lia.
Qed.
