(** * Accuracy of sums of products in binary32. *)

From Coq Require Import ZArith Reals List Bool Lia Lra Permutation.
From Flocq Require Import Core BinarySingleNaN Relative.
From Verif Require Import Lang Spec SpecTop SpecSingle ModelIEEE ModelSingle Double_facts IEEE_facts IEEE32_facts Kernel_facts.
Open Scope R_scope.

Notation uu := (/ 2 ^ 24).
Notation eta := (/ 2 ^ 150).
Notation gg n := ((1 + uu) ^ n).

Lemma uu_val : uu = / 16777216. Proof. f_equal. lra. Qed.
Lemma uu_pos : 0 < uu. Proof. rewrite uu_val. lra. Qed.
Lemma eta_pos : 0 < eta. Proof. apply Rinv_0_lt_compat, pow_lt. lra. Qed.

Lemma bpow_neg (n : nat) : bpow radix2 (- Z.of_nat n) = / 2 ^ n.
Proof. rewrite bpow_opp. f_equal. rewrite bpow_powerRZ, <- pow_powerRZ. reflexivity. Qed.

Lemma rnd_err x : Rabs (rnd24 x - x) <= uu * Rabs x + eta.
Proof.
  destruct (error_N_FLT radix2 (-149) 24 eq_refl (fun x => negb (Z.even x)) x) as (e & d & H1 & H2 & _ & H4).
  change (FLT_exp (-149) 24) with fexp32 in H4. rewrite H4.
  change (- (24) + 1)%Z with (-23)%Z in H1. replace (/ 2 * bpow radix2 (-23)) with uu in H1.
  2: { change (-23)%Z with (- Z.of_nat 23)%Z. rewrite bpow_neg. rewrite <- Rinv_mult. reflexivity. }
  replace (/ 2 * bpow radix2 (-149)) with eta in H2.
  2: { change (-149)%Z with (- Z.of_nat 149)%Z. rewrite bpow_neg. rewrite <- Rinv_mult. reflexivity. }
  replace (x * (1 + e) + d - x) with (x * e + d) by ring.
  eapply Rle_trans; [apply Rabs_triang|]. rewrite Rabs_mult. pose proof (Rabs_pos x).
  assert (Rabs x * Rabs e <= Rabs x * uu) by (apply Rmult_le_compat_l; auto). lra.
Qed.

Lemma rnd_abs x : Rabs (rnd24 x) <= (1 + uu) * Rabs x + eta.
Proof.
  pose proof (rnd_err x). replace (rnd24 x) with ((rnd24 x - x) + x) by ring.
  eapply Rle_trans; [apply Rabs_triang|]. lra.
Qed.

(** ** One operation *)

Lemma fma_value a b c : finite a -> finite b -> finite c -> finite (fma Single a b c) ->
  val (fma Single a b c) = rnd24 (val a * val b + val c).
Proof.
  intros Ha Hb Hc H. pose proof (@Bfma_correct 24 128 prec24 emax128 mode_NE a b c Ha Hb Hc) as X. cbv zeta in X.
  destruct (Rlt_bool _ _); [exact (proj1 X)|]. unfold finite in H. cbn [fma Single] in H.
  rewrite <- is_finite_SF_B2SF in H. rewrite X in H. discriminate.
Qed.

Lemma fma_finite a b c : finite a -> finite b -> finite c ->
  (1 + uu) * Rabs (val a * val b + val c) + eta < bpow radix2 128 ->
  finite (fma Single a b c).
Proof.
  intros Ha Hb Hc H. pose proof (@Bfma_correct 24 128 prec24 emax128 mode_NE a b c Ha Hb Hc) as X. cbv zeta in X.
  rewrite Rlt_bool_true in X; [exact (proj1 (proj2 X))|].
  eapply Rle_lt_trans; [apply rnd_abs|exact H].
Qed.

Lemma fma_acc a b c : finite a -> finite b -> finite (fma Single a b c) -> finite c.
Proof.
  unfold finite. cbn [fma Single]. intros Ha Hb H. destruct c as [| | |]; auto; destruct a, b; discriminate.
Qed.

Lemma plus_value a b : finite a -> finite b -> finite (@Bplus 24 128 prec24 emax128 mode_NE a b) ->
  val (@Bplus 24 128 prec24 emax128 mode_NE a b) = rnd24 (val a + val b).
Proof.
  intros Ha Hb H. pose proof (@Bplus_correct 24 128 prec24 emax128 mode_NE a b Ha Hb) as X.
  destruct (Rlt_bool _ _); [exact (proj1 X)|]. unfold finite in H.
  rewrite <- is_finite_SF_B2SF in H. rewrite (proj1 X) in H. discriminate.
Qed.

Lemma plus_finite a b : finite a -> finite b -> (1 + uu) * Rabs (val a + val b) + eta < bpow radix2 128 ->
  finite (@Bplus 24 128 prec24 emax128 mode_NE a b).
Proof.
  intros Ha Hb H. pose proof (@Bplus_correct 24 128 prec24 emax128 mode_NE a b Ha Hb) as X.
  rewrite Rlt_bool_true in X; [exact (proj1 (proj2 X))|].
  eapply Rle_lt_trans; [apply rnd_abs|exact H].
Qed.

Lemma mult_value a b : finite a -> finite b -> finite (@Bmult 24 128 prec24 emax128 mode_NE a b) ->
  val (@Bmult 24 128 prec24 emax128 mode_NE a b) = rnd24 (val a * val b).
Proof.
  intros Ha Hb H. pose proof (@Bmult_correct 24 128 prec24 emax128 mode_NE a b) as X.
  destruct (Rlt_bool _ _); [exact (proj1 X)|]. unfold finite in H.
  rewrite <- is_finite_SF_B2SF in H. rewrite X in H. discriminate.
Qed.

Lemma mult_finite a b : finite a -> finite b -> (1 + uu) * Rabs (val a * val b) + eta < bpow radix2 128 ->
  finite (@Bmult 24 128 prec24 emax128 mode_NE a b).
Proof.
  intros Ha Hb H. pose proof (@Bmult_correct 24 128 prec24 emax128 mode_NE a b) as X.
  rewrite Rlt_bool_true in X; [|eapply Rle_lt_trans; [apply rnd_abs|exact H]].
  unfold finite in *. rewrite (proj1 (proj2 X)), Ha, Hb. reflexivity.
Qed.

(** ** Sums *)

Definition lsum (f : Z -> R) (l : list Z) : R := fold_right (fun k acc => f k + acc) 0 l.

Lemma lsum_perm f l l' : Permutation l l' -> lsum f l = lsum f l'.
Proof. induction 1; cbn [lsum fold_right]; auto; unfold lsum in *; lra. Qed.

Lemma lsum_abs f l : Rabs (lsum f l) <= lsum (fun k => Rabs (f k)) l.
Proof.
  induction l as [|k l IH]; cbn [lsum fold_right]; [rewrite Rabs_R0; lra|].
  eapply Rle_trans; [apply Rabs_triang|]. fold (lsum f l) (lsum (fun k => Rabs (f k)) l). lra.
Qed.

Lemma lsum_pos f l : (forall k, 0 <= f k) -> 0 <= lsum f l.
Proof. intros H. induction l as [|k l IH]; cbn [lsum fold_right]; [lra|]. pose proof (H k). fold (lsum f l). lra. Qed.

Lemma gg_ge1 n : 1 <= gg n.
Proof. apply pow_R1_Rle. pose proof uu_pos. lra. Qed.

(** (1+u)(g-1)T + u|s + ab| + ... stays below the next bound *)
Lemma bound_step n T t D : 0 <= T -> 0 <= t -> 0 <= D ->
  (1 + uu) * ((gg n - 1) * T + INR n * gg n * eta + D) + uu * (T + t) + eta
   <= (gg (S n) - 1) * (T + t) + INR (S n) * gg (S n) * eta + (1 + uu) * D.
Proof.
  intros HT Ht HD. rewrite S_INR. pose proof (gg_ge1 n) as G. pose proof uu_pos as U. pose proof eta_pos as E.
  change (gg (S n)) with ((1 + uu) * gg n).
  generalize dependent (gg n). intros g G. pose proof (pos_INR n) as P. generalize dependent (INR n). intros x P.
  generalize dependent uu. intros u U. generalize dependent eta. intros e E.
  assert (G1 : 0 <= (1 + u) * (g - 1)) by (apply Rmult_le_pos; lra).
  pose proof (Rmult_le_pos _ _ G1 Ht) as H1.
  assert (0 <= (1 + u) * g - 1) as G2 by lra.
  pose proof (Rmult_le_pos _ _ G2 (Rlt_le _ _ E)) as H2. lra.
Qed.

Lemma dot_acc a b : forall l x, (forall k, In k l -> finite (a k) /\ finite (b k)) ->
  finite (dot Single a b l x) -> finite x.
Proof.
  induction l as [|k l IH]; intros x Hl H; [exact H|].
  change (dot Single a b (k :: l) x) with (dot Single a b l (fma Single (a k) (b k) x)) in H.
  apply IH in H; [|intros; apply Hl; now right]. destruct (Hl k (or_introl eq_refl)). now apply (fma_acc (a k) (b k)).
Qed.

(** the fused operation: one rounding *)
Lemma dot_fma a b : forall l acc s T n,
  (forall k, In k l -> finite (a k) /\ finite (b k)) ->
  Rabs s <= T -> Rabs (val acc - s) <= (gg n - 1) * T + INR n * gg n * eta ->
  finite (dot Single a b l acc) ->
  let f := fun k => val (a k) * val (b k) in
  Rabs (val (dot Single a b l acc) - (s + lsum f l))
    <= (gg (n + length l) - 1) * (T + lsum (fun k => Rabs (f k)) l) + INR (n + length l) * gg (n + length l) * eta.
Proof.
  induction l as [|k l IH]; intros acc s T n Hf Hs He Hfin f.
  - cbn [dot fold_left lsum fold_right length] in *. rewrite Nat.add_0_r, !Rplus_0_r. exact He.
  - cbn [length]. replace (n + S (length l))%nat with (S n + length l)%nat by lia.
    change (dot Single a b (k :: l) acc) with (dot Single a b l (fma Single (a k) (b k) acc)) in *.
    destruct (Hf k (or_introl eq_refl)) as (Ha & Hb).
    assert (Hl : forall k, In k l -> finite (a k) /\ finite (b k)) by (intros; apply Hf; now right).
    assert (Hacc : finite (fma Single (a k) (b k) acc)).
    { eapply dot_acc; eauto. }
    assert (Hacc0 : finite acc) by (now apply (fma_acc (a k) (b k))).
    cbn [lsum fold_right]. fold (lsum f l) (lsum (fun k => Rabs (f k)) l).
    rewrite <- !Rplus_assoc. apply (IH (fma Single (a k) (b k) acc) (s + f k) (T + Rabs (f k)) (S n)); auto.
    + eapply Rle_trans; [apply Rabs_triang|]. lra.
    + rewrite fma_value by auto. fold (f k). set (x := f k + val acc).
      replace (rnd24 x - (s + f k)) with ((rnd24 x - x) + (val acc - s)) by (unfold x; ring).
      eapply Rle_trans; [apply Rabs_triang|]. pose proof (rnd_err x) as R1.
      assert (Rabs x <= Rabs (val acc - s) + (T + Rabs (f k))) as R2.
      { unfold x. replace (f k + val acc) with ((val acc - s) + (s + f k)) by ring.
        eapply Rle_trans; [apply Rabs_triang|]. apply Rplus_le_compat_l.
        eapply Rle_trans; [apply Rabs_triang|]. lra. }
      assert (0 <= T) as HT by (pose proof (Rabs_pos s); lra).
      pose proof (bound_step n T (Rabs (f k)) 0 HT (Rabs_pos _) (Rle_refl 0)) as B. rewrite Rmult_0_r, !Rplus_0_r in B.
      eapply Rle_trans; [|exact B]. clear B. pose proof uu_pos.
      assert (uu * Rabs x <= uu * (Rabs (val acc - s) + (T + Rabs (f k)))) by (apply Rmult_le_compat_l; lra).
      assert ((1 + uu) * Rabs (val acc - s) <= (1 + uu) * ((gg n - 1) * T + INR n * gg n * eta)) by (apply Rmult_le_compat_l; lra).
      lra.
Qed.

(** no overflow: the running sum stays below g T + n g eta *)
Lemma dot_fma_finite a b : forall l acc s T n,
  (forall k, In k l -> finite (a k) /\ finite (b k)) -> finite acc ->
  Rabs s <= T -> Rabs (val acc - s) <= (gg n - 1) * T + INR n * gg n * eta ->
  let f := fun k => val (a k) * val (b k) in
  gg (n + length l) * (T + lsum (fun k => Rabs (f k)) l) + INR (n + length l) * gg (n + length l) * eta < bpow radix2 128 ->
  finite (dot Single a b l acc).
Proof.
  induction l as [|k l IH]; intros acc s T n Hf Hacc Hs He f Hlt; [exact Hacc|].
  change (dot Single a b (k :: l) acc) with (dot Single a b l (fma Single (a k) (b k) acc)).
  destruct (Hf k (or_introl eq_refl)) as (Ha & Hb).
  assert (Hl : forall k, In k l -> finite (a k) /\ finite (b k)) by (intros; apply Hf; now right).
  cbn [length] in Hlt. replace (n + S (length l))%nat with (S n + length l)%nat in Hlt by lia.
  cbn [lsum fold_right] in Hlt. fold (lsum (fun k => Rabs (f k)) l) in Hlt. rewrite <- Rplus_assoc in Hlt.
  assert (0 <= T) as HT by (pose proof (Rabs_pos s); lra).
  pose proof (lsum_pos (fun k => Rabs (f k)) l (fun k => Rabs_pos _)) as HP.
  set (x := f k + val acc).
  assert (R2 : Rabs x <= Rabs (val acc - s) + (T + Rabs (f k))).
  { unfold x. replace (f k + val acc) with ((val acc - s) + (s + f k)) by ring.
    eapply Rle_trans; [apply Rabs_triang|]. apply Rplus_le_compat_l.
    eapply Rle_trans; [apply Rabs_triang|]. lra. }
  pose proof (bound_step n T (Rabs (f k)) 0 HT (Rabs_pos _) (Rle_refl 0)) as B. rewrite Rmult_0_r, !Rplus_0_r in B.
  pose proof uu_pos as U.
  assert (E1 : (1 + uu) * Rabs (val acc - s) <= (1 + uu) * ((gg n - 1) * T + INR n * gg n * eta)) by (apply Rmult_le_compat_l; lra).
  assert (E2 : (1 + uu) * Rabs x <= (1 + uu) * (Rabs (val acc - s) + (T + Rabs (f k)))) by (apply Rmult_le_compat_l; lra).
  assert (E3 : (1 + uu) * Rabs x + eta <= gg (S n) * (T + Rabs (f k)) + INR (S n) * gg (S n) * eta) by lra.
  assert (Hfin : finite (fma Single (a k) (b k) acc)).
  { apply fma_finite; auto. fold (f k). fold x. eapply Rle_lt_trans; [exact E3|]. eapply Rle_lt_trans; [|exact Hlt].
    assert (G : gg (S n) <= gg (S n + length l)) by (apply Rle_pow; [lra|lia]).
    assert (I : INR (S n) <= INR (S n + length l)) by (apply le_INR; lia).
    pose proof (gg_ge1 (S n)). pose proof (pos_INR (S n)). pose proof eta_pos. pose proof (Rabs_pos (f k)).
    apply Rplus_le_compat.
    - apply Rmult_le_compat; lra.
    - apply Rmult_le_compat_r; [lra|]. apply Rmult_le_compat; lra. }
  apply (IH _ (s + f k) (T + Rabs (f k)) (S n)); auto.
  - eapply Rle_trans; [apply Rabs_triang|]. lra.
  - rewrite fma_value by auto. fold (f k). fold x.
    replace (rnd24 x - (s + f k)) with ((rnd24 x - x) + (val acc - s)) by (unfold x; ring).
    eapply Rle_trans; [apply Rabs_triang|]. pose proof (rnd_err x) as R1. lra.
Qed.

(** the unfused operation: two roundings *)
Notation step2 := (fma Single_mul_add).

Lemma step2_err a b c s T n : finite a -> finite b -> finite c ->
  Rabs s <= T -> Rabs (val c - s) <= (gg (S n) - 1) * T + 2 * INR n * gg (S n) * eta ->
  let t := Rabs (val a * val b) in
  gg (S (S n)) * (T + t) + 2 * INR (S n) * gg (S (S n)) * eta < bpow radix2 128 ->
  finite (step2 a b c) /\
  Rabs (val (step2 a b c) - (s + val a * val b)) <= (gg (S (S n)) - 1) * (T + t) + 2 * INR (S n) * gg (S (S n)) * eta.
Proof.
  intros Ha Hb Hc Hs He t Hlt. cbn [fma Single_mul_add].
  assert (0 <= T) as HT by (pose proof (Rabs_pos s); lra).
  assert (0 <= t) as Ht by apply Rabs_pos.
  pose proof (rnd_err (val a * val b)) as P1. fold t in P1. set (q := val a * val b) in *.
  assert (P2 : Rabs (val c + rnd24 q) <= Rabs (val c - s) + T + t + (uu * t + eta)).
  { replace (val c + rnd24 q) with ((val c - s) + s + q + (rnd24 q - q)) by ring.
    eapply Rle_trans; [apply Rabs_triang|]. apply Rplus_le_compat; [|exact P1].
    eapply Rle_trans; [apply Rabs_triang|]. apply Rplus_le_compat; [|apply Rle_refl].
    eapply Rle_trans; [apply Rabs_triang|]. lra. }
  pose proof (rnd_err (val c + rnd24 q)) as P3.
  assert (P4 : Rabs (rnd24 (val c + rnd24 q) - (s + q)) <=
    (1 + uu) * (Rabs (val c - s) + (uu * t + eta)) + uu * (T + t) + eta).
  { replace (rnd24 (val c + rnd24 q) - (s + q)) with
      ((rnd24 (val c + rnd24 q) - (val c + rnd24 q)) + (val c - s) + (rnd24 q - q)) by ring.
    eapply Rle_trans; [apply Rabs_triang|]. eapply Rle_trans; [apply Rplus_le_compat_r, Rabs_triang|].
    pose proof uu_pos.
    assert (uu * Rabs (val c + rnd24 q) <= uu * (Rabs (val c - s) + T + t + (uu * t + eta))) by (apply Rmult_le_compat_l; lra).
    lra. }
  assert (P5 : (1 + uu) * ((gg (S n) - 1) * T + 2 * INR n * gg (S n) * eta + (uu * t + eta)) + uu * (T + t) + eta
     <= (gg (S (S n)) - 1) * (T + t) + 2 * INR (S n) * gg (S (S n)) * eta).
  { rewrite S_INR. pose proof (gg_ge1 n) as G. pose proof uu_pos as U. pose proof eta_pos as E.
    change (gg (S (S n))) with ((1 + uu) * ((1 + uu) * gg n)). change (gg (S n)) with ((1 + uu) * gg n).
    pose proof (pos_INR n) as P. clear - HT Ht G U E P. generalize dependent (gg n). intros g G. generalize dependent (INR n). intros x P.
    generalize dependent uu. intros u U. generalize dependent eta. intros e E.
    assert (G1 : 0 <= (1 + u) * ((1 + u) * (g - 1))) by (repeat apply Rmult_le_pos; lra).
    pose proof (Rmult_le_pos _ _ G1 Ht) as H1.
    assert (0 <= u * u) as U2 by (apply Rmult_le_pos; lra).
    assert (0 <= 2 * ((1 + u) * ((1 + u) * g)) - (1 + u) - 1) as G2 by lra.
    pose proof (Rmult_le_pos _ _ G2 (Rlt_le _ _ E)) as H2. lra. }
  assert (P6 : (1 + uu) * (Rabs (val c - s) + (uu * t + eta)) + uu * (T + t) + eta
     <= (gg (S (S n)) - 1) * (T + t) + 2 * INR (S n) * gg (S (S n)) * eta).
  { eapply Rle_trans; [|exact P5]. pose proof uu_pos. apply Rplus_le_compat_r, Rplus_le_compat_r, Rmult_le_compat_l; lra. }
  pose proof uu_pos as U. pose proof eta_pos as E.
  assert (Fm : finite (@Bmult 24 128 prec24 emax128 mode_NE a b)).
  { apply mult_finite; auto. fold q. fold t. eapply Rle_lt_trans; [|exact Hlt].
    pose proof (gg_ge1 n) as G. change (gg (S (S n))) with ((1 + uu) * ((1 + uu) * gg n)).
    rewrite S_INR. pose proof (pos_INR n).
    assert (1 <= (1 + uu) * gg n) by (replace 1 with (1 * 1) at 1 by ring; apply Rmult_le_compat; lra).
    assert (1 * 1 <= (1 + uu) * ((1 + uu) * gg n)) by (apply Rmult_le_compat; lra).
    assert ((1 + uu) * 1 <= (1 + uu) * ((1 + uu) * gg n)) by (apply Rmult_le_compat_l; lra).
    apply Rplus_le_compat.
    - apply Rmult_le_compat; lra.
    - rewrite <- (Rmult_1_l eta) at 1. apply Rmult_le_compat_r; [lra|].
      assert (0 <= INR n * ((1 + uu) * ((1 + uu) * gg n))) by (apply Rmult_le_pos; lra). lra. }
  assert (Vq : val (@Bmult 24 128 prec24 emax128 mode_NE a b) = rnd24 q) by (apply mult_value; auto).
  assert (Fp : finite (@Bplus 24 128 prec24 emax128 mode_NE c (@Bmult 24 128 prec24 emax128 mode_NE a b))).
  { apply plus_finite; auto. rewrite Vq. eapply Rle_lt_trans; [|exact Hlt].
    assert ((1 + uu) * Rabs (val c + rnd24 q) <= (1 + uu) * (Rabs (val c - s) + T + t + (uu * t + eta))) by (apply Rmult_le_compat_l; lra).
    lra. }
  split; [exact Fp|]. rewrite plus_value, Vq by auto. eapply Rle_trans; [exact P4|exact P6].
Qed.

Lemma dot_two a b : forall l acc s T n,
  (forall k, In k l -> finite (a k) /\ finite (b k)) -> finite acc ->
  Rabs s <= T -> Rabs (val acc - s) <= (gg (S n) - 1) * T + 2 * INR n * gg (S n) * eta ->
  let f := fun k => val (a k) * val (b k) in
  gg (S (n + length l)) * (T + lsum (fun k => Rabs (f k)) l) + 2 * INR (n + length l) * gg (S (n + length l)) * eta < bpow radix2 128 ->
  finite (dot Single_mul_add a b l acc) /\
  Rabs (val (dot Single_mul_add a b l acc) - (s + lsum f l))
    <= (gg (S (n + length l)) - 1) * (T + lsum (fun k => Rabs (f k)) l) + 2 * INR (n + length l) * gg (S (n + length l)) * eta.
Proof.
  induction l as [|k l IH]; intros acc s T n Hf Hacc Hs He f Hlt.
  - cbn [dot fold_left lsum fold_right length] in *. rewrite Nat.add_0_r, !Rplus_0_r. auto.
  - change (dot Single_mul_add a b (k :: l) acc) with (dot Single_mul_add a b l (step2 (a k) (b k) acc)).
    destruct (Hf k (or_introl eq_refl)) as (Ha & Hb).
    assert (Hl : forall k, In k l -> finite (a k) /\ finite (b k)) by (intros; apply Hf; now right).
    cbn [length] in *. replace (n + S (length l))%nat with (S n + length l)%nat in * by lia.
    cbn [lsum fold_right] in *. fold (lsum f l) (lsum (fun k => Rabs (f k)) l) in *. rewrite <- !Rplus_assoc in *.
    assert (0 <= T) as HT by (pose proof (Rabs_pos s); lra).
    pose proof (lsum_pos (fun k => Rabs (f k)) l (fun k => Rabs_pos _)) as HP.
    destruct (step2_err (a k) (b k) acc s T n Ha Hb Hacc Hs He) as (X1 & X2).
    { eapply Rle_lt_trans; [|exact Hlt]. fold (f k).
      pose proof uu_pos. pose proof eta_pos. pose proof (Rabs_pos (f k)).
      assert (G : gg (S (S n)) <= gg (S (S n + length l))) by (apply Rle_pow; [lra|lia]).
      assert (I : INR (S n) <= INR (S n + length l)) by (apply le_INR; lia).
      pose proof (gg_ge1 (S (S n))). pose proof (pos_INR (S n)).
      apply Rplus_le_compat.
      - apply Rmult_le_compat; lra.
      - apply Rmult_le_compat_r; [lra|]. apply Rmult_le_compat; lra. }
    fold (f k) in X2. apply (IH _ (s + f k) (T + Rabs (f k)) (S n)); auto.
    eapply Rle_trans; [apply Rabs_triang|]. lra.
Qed.

(** ** Matrices *)

Lemma zrange_len K : (0 <= K)%Z -> length (zrange 0 K) = Z.to_nat K.
Proof. intros _. unfold zrange. apply Lang_facts.zseq_length. Qed.

Lemma ord_facts K l : (0 <= K)%Z -> Permutation l (zrange 0 K) ->
  length l = Z.to_nat K /\ (forall k, In k l -> (0 <= k < K)%Z) /\ forall f, lsum f l = sumR K f.
Proof.
  intros HK P. split; [rewrite (Permutation_length P); now apply zrange_len|]. split.
  - intros k Hk. apply (Permutation_in _ P) in Hk. apply in_zrange in Hk. lia.
  - intros f. now apply lsum_perm.
Qed.

Lemma bpow128 : bpow radix2 128 = 2 ^ 128.
Proof. change 128%Z with (Z.of_nat 128). rewrite bpow_powerRZ, <- pow_powerRZ. reflexivity. Qed.

Lemma val0 : val (zero Single) = 0. Proof. reflexivity. Qed.

Section Elem.
Variables (A B : Z -> Z -> single) (M N K : Z).
Hypothesis HK : (0 <= K)%Z.
Hypothesis HA : all_finite M K A.
Hypothesis HB : all_finite K N B.

Lemma ops_finite l i j : Permutation l (zrange 0 K) -> (0 <= i < M)%Z -> (0 <= j < N)%Z ->
  forall k, In k l -> finite (A i k) /\ finite (B k j).
Proof. intros P Hi Hj k Hk. apply (ord_facts K l HK P) in Hk. split; [apply HA|apply HB]; auto. Qed.

Lemma product_finite ord i j : orders K ord -> (0 <= i < M)%Z -> (0 <= j < N)%Z ->
  no_overflow K (mass A B K i j) -> finite (product Single A B ord i j).
Proof.
  intros Ho Hi Hj Hn. destruct (ord_facts K _ HK (Ho i j)) as (E1 & _ & E3).
  unfold product. apply (dot_fma_finite _ _ (ord i j) (zero Single) 0 0 0).
  - apply ops_finite; auto.
  - reflexivity.
  - rewrite Rabs_R0. lra.
  - rewrite val0. replace (0 - 0) with 0 by ring. rewrite Rabs_R0. change (INR 0) with 0. lra.
  - rewrite E3, bpow128. change (0 + length (ord i j))%nat with (length (ord i j)). rewrite E1.
    rewrite INR_IZR_INZ, Z2Nat.id by auto. unfold no_overflow, grow, mass in Hn. rewrite Rplus_0_l. exact Hn.
Qed.

Lemma product_accurate ord i j : orders K ord -> (0 <= i < M)%Z -> (0 <= j < N)%Z ->
  finite (product Single A B ord i j) -> accurate K (product Single A B ord i j) (exact A B K i j) (mass A B K i j).
Proof.
  intros Ho Hi Hj Hf. destruct (ord_facts K _ HK (Ho i j)) as (E1 & _ & E3).
  unfold product in *.
  pose proof (dot_fma (A i) (fun k => B k j) (ord i j) (zero Single) 0 0 0 (ops_finite _ i j (Ho i j) Hi Hj)) as X.
  cbv zeta in X. rewrite !E3 in X. change (0 + length (ord i j))%nat with (length (ord i j)) in X. rewrite E1 in X.
  rewrite (INR_IZR_INZ (Z.to_nat K)), Z2Nat.id, !Rplus_0_l in X by auto. apply X; auto.
  - rewrite Rabs_R0. lra.
  - rewrite val0. replace (0 - 0) with 0 by ring. rewrite Rabs_R0. change (INR 0) with 0. lra.
Qed.

(** the checker's sum *)
Lemma check_accurate i j : (0 <= i < M)%Z -> (0 <= j < N)%Z ->
  grow (K + 1) * mass A B K i j + 2 * IZR K * grow (K + 1) * eta < 2 ^ 128 ->
  let x := product Single_mul_add A B (fun _ _ => zrange 0 K) i j in
  finite x /\ Rabs (val x - exact A B K i j) <= (grow (K + 1) - 1) * mass A B K i j + 2 * IZR K * grow (K + 1) * eta.
Proof.
  intros Hi Hj Hlt x. destruct (ord_facts K _ HK (Permutation_refl _)) as (E1 & _ & E3).
  pose proof (dot_two (A i) (fun k => B k j) (zrange 0 K) (zero Single) 0 0 0 (ops_finite _ i j (Permutation_refl _) Hi Hj)) as X.
  cbv zeta in X. rewrite !E3 in X. change (0 + length (zrange 0 K))%nat with (length (zrange 0 K)) in X. rewrite E1 in X.
  rewrite (INR_IZR_INZ (Z.to_nat K)), Z2Nat.id, !Rplus_0_l, bpow128 in X by auto.
  unfold grow in *. replace (Z.to_nat (K + 1)) with (S (Z.to_nat K)) in * by lia.
  apply X; auto.
  - reflexivity.
  - rewrite Rabs_R0. lra.
  - rewrite val0. replace (0 - 0) with 0 by ring. rewrite Rabs_R0. change (INR 0) with 0. lra.
Qed.
End Elem.

(** (1+u)^n <= 1/(1-nu) *)
Lemma gg_gamma n : INR n * uu < 1 -> gg n * (1 - INR n * uu) <= 1.
Proof.
  pose proof uu_pos as U. induction n as [|n IH]; [cbn; lra|]. rewrite S_INR. intros H.
  change (gg (S n)) with ((1 + uu) * gg n). pose proof (gg_ge1 n) as G. pose proof (pos_INR n) as P.
  revert IH H G P U. generalize (gg n). intros g. generalize (INR n). intros x. generalize uu. intros u IH H G P U.
  specialize (IH ltac:(lra)). assert (0 <= (x + 1) * (u * u)) by (repeat apply Rmult_le_pos; lra).
  assert ((1 + u) * (1 - (x + 1) * u) <= 1 - x * u) by lra.
  assert (g * ((1 + u) * (1 - (x + 1) * u)) <= g * (1 - x * u)) by (apply Rmult_le_compat_l; lra). lra.
Qed.

Lemma grow_small K : (0 <= K <= 2 ^ 23)%Z -> grow K - 1 <= 2 * IZR K * uu.
Proof.
  intros H. unfold grow. set (n := Z.to_nat K).
  assert (E : IZR K = INR n) by (unfold n; rewrite INR_IZR_INZ, Z2Nat.id by lia; reflexivity). rewrite E.
  assert (B : INR n * uu <= / 2).
  { rewrite <- E, uu_val. assert (IZR K <= IZR (2 ^ 23)) by (apply IZR_le; lia). change (IZR (2 ^ 23)) with 8388608 in H0. lra. }
  pose proof (gg_gamma n ltac:(lra)) as G. pose proof (gg_ge1 n). pose proof (pos_INR n). pose proof uu_pos.
  assert (0 <= INR n * uu) by (apply Rmult_le_pos; lra).
  replace (2 * INR n * uu) with (2 * (INR n * uu)) by ring.
  clear - B G H0 H3. generalize dependent (INR n * uu). intros y. generalize dependent (gg n). intros g. intros. nra.
Qed.
