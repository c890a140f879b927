(** * Reasoning rules for the execution model of [Lang.v]. *)

From Coq Require Import ZArith List Bool Lia.
From Verif Require Import Lang.
Import ListNotations.
Open Scope Z_scope.

Lemma buf_eqb_spec x y : reflect (x = y) (buf_eqb x y).
Proof.
  destruct x, y; cbn; try (constructor; congruence);
    (destruct (Z.eqb_spec i i0); constructor; congruence).
Qed.

Lemma buf_eqb_refl x : buf_eqb x x = true.
Proof. destruct (buf_eqb_spec x x); congruence. Qed.

Lemma buf_eqb_neq x y : x <> y -> buf_eqb x y = false.
Proof. destruct (buf_eqb_spec x y); congruence. Qed.

Section Facts.

Context {V : Type}.
Notation mem := (mem V).
Notation thr := (thr V).
Notation prog := (prog V).
Notation region := (buf -> Z -> Prop).

(** ** Single operations. *)
Lemma dat_upd_same (m : mem) b i v : dat (upd m b i v) b i = Some v.
Proof. cbn. now rewrite buf_eqb_refl, Z.eqb_refl. Qed.

Lemma dat_upd_other (m : mem) b i v b' i' :
  b <> b' \/ i <> i' -> dat (upd m b i v) b' i' = dat m b' i'.
Proof.
  intros H. cbn. destruct (buf_eqb_spec b b'); cbn; auto.
  destruct (Z.eqb_spec i i'); auto. destruct H; congruence.
Qed.

Lemma load_intro (m : mem) al b i bi v :
  live m b = Some bi -> 0 <= i < blen bi -> aligned al bi i = true ->
  dat m b i = Some v -> load m al b i = Some v.
Proof.
  intros H1 H2 H3 H4. unfold load. rewrite H1, H3.
  replace (0 <=? i) with true by lia. replace (i <? blen bi) with true by lia. easy.
Qed.

Lemma load_elim (m : mem) al b i v :
  load m al b i = Some v ->
  exists bi, live m b = Some bi /\ 0 <= i < blen bi /\ aligned al bi i = true /\ dat m b i = Some v.
Proof.
  unfold load. destruct (live m b) as [bi|] eqn:E; [|discriminate].
  destruct (0 <=? i) eqn:E1; [|discriminate].
  destruct (i <? blen bi) eqn:E2; [|discriminate].
  destruct (aligned al bi i) eqn:E3; [|discriminate]. cbn. intros.
  exists bi. repeat split; auto; lia.
Qed.

Lemma aligned_1 bi i : aligned 1 bi i = true.
Proof. reflexivity. Qed.

Lemma can_store_intro (m : mem) b i bi :
  live m b = Some bi -> 0 <= i < blen bi -> can_store m b i = true.
Proof. intros H1 H2. unfold can_store. rewrite H1. lia. Qed.

(** ** Weakest preconditions of threads, with footprints: [W] is the set of cells
    the thread may write, [Rd] the further cells it may read. *)
Fixpoint twp {R} (W Rd : region) (t : thr R) (Q : R -> mem -> Prop) (m : mem) : Prop :=
  match t with
  | TRet r => Q r m
  | TLoad al b i k =>
      (Rd b i \/ W b i) /\ exists v, load m al b i = Some v /\ twp W Rd (k v) Q m
  | TStore b i v k => W b i /\ can_store m b i = true /\ twp W Rd k Q (upd m b i v)
  | TFail => False
  end.

Lemma twp_mono {R} (W Rd : region) (t : thr R) (Q Q' : R -> mem -> Prop) m :
  twp W Rd t Q m -> (forall r m', Q r m' -> Q' r m') -> twp W Rd t Q' m.
Proof.
  revert m; induction t as [r|al b i k IH|b i v k IH|]; cbn; intros m H HQ; auto.
  - destruct H as (H1 & v & H2 & H3). split; auto. exists v; split; auto.
  - destruct H as (H1 & H2 & H3). auto.
Qed.

Lemma twp_weaken {R} (W Rd W' Rd' : region) (t : thr R) (Q : R -> mem -> Prop) m :
  twp W Rd t Q m -> (forall b i, W b i -> W' b i) ->
  (forall b i, Rd b i -> Rd' b i \/ W' b i) -> twp W' Rd' t Q m.
Proof.
  revert m; induction t as [r|al b i k IH|b i v k IH|]; cbn; intros m H HW HR; auto.
  - destruct H as (H1 & v & H2 & H3). split; [destruct H1; auto|]. exists v; split; auto.
  - destruct H as (H1 & H2 & H3). auto.
Qed.

Lemma twp_frame {R} (W Rd : region) (t : thr R) (Q : R -> mem -> Prop) m :
  twp W Rd t Q m ->
  twp W Rd t (fun r m' => Q r m' /\ live m' = live m /\
                          forall b i, ~ W b i -> dat m' b i = dat m b i) m.
Proof.
  revert m; induction t as [r|al b i k IH|b i v k IH|]; cbn; intros m H; auto.
  - destruct H as (H1 & v & H2 & H3). split; auto. exists v; split; auto.
  - destruct H as (H1 & H2 & H3). split; [|split]; auto.
    eapply twp_mono; [apply IH, H3|].
    cbn. intros r m' (HQ & HL & HD). split; [|split]; auto.
    intros b' i' HW. rewrite HD by auto. apply (dat_upd_other m).
    destruct (buf_eqb_spec b b'); subst; auto.
    destruct (Z.eq_dec i i'); subst; auto.
Qed.

Lemma twp_conseq {R} (W Rd : region) (t : thr R) (Q Q' : R -> mem -> Prop) m :
  twp W Rd t Q m ->
  (forall r m', Q r m' -> live m' = live m ->
                (forall b i, ~ W b i -> dat m' b i = dat m b i) -> Q' r m') ->
  twp W Rd t Q' m.
Proof. intros H HQ. eapply twp_mono; [apply twp_frame, H|]. cbn. intuition. Qed.

Lemma twp_ret {R} (W Rd : region) (r : R) (Q : R -> mem -> Prop) m :
  Q r m -> twp W Rd (TRet r) Q m.
Proof. auto. Qed.

Lemma twp_bind {R S} (W Rd : region) (t : thr R) (f : R -> thr S) Q m :
  twp W Rd t (fun r m' => twp W Rd (f r) Q m') m -> twp W Rd (tbind t f) Q m.
Proof.
  revert m; induction t as [r|al b i k IH|b i v k IH|]; cbn; intros m H; auto.
  - destruct H as (H1 & v & H2 & H3). split; auto. exists v; split; auto.
  - destruct H as (H1 & H2 & H3). auto.
Qed.

Lemma twp_load (W Rd : region) b i v (Q : V -> mem -> Prop) m bi :
  (Rd b i \/ W b i) -> live m b = Some bi -> 0 <= i < blen bi -> dat m b i = Some v ->
  Q v m -> twp W Rd (tload b i) Q m.
Proof.
  intros. cbn. split; auto. exists v. split; auto. eapply load_intro; eauto.
Qed.

Lemma twp_load_al (W Rd : region) al b i v (Q : V -> mem -> Prop) m bi :
  (Rd b i \/ W b i) -> live m b = Some bi -> 0 <= i < blen bi -> dat m b i = Some v ->
  aligned al bi i = true -> Q v m -> twp W Rd (tload_al al b i) Q m.
Proof.
  intros. cbn. split; auto. exists v. split; auto. eapply load_intro; eauto.
Qed.

Lemma twp_store (W Rd : region) b i v (Q : unit -> mem -> Prop) m bi :
  W b i -> live m b = Some bi -> 0 <= i < blen bi ->
  Q tt (upd m b i v) -> twp W Rd (tstore b i v) Q m.
Proof. intros. cbn. repeat split; auto. eapply can_store_intro; eauto. Qed.

(** Loops.  [I c] holds after [c] iterations; the body may also use that nothing
    outside [W] has changed since the loop was entered. *)
Lemma twp_titer {S} (W Rd : region) (I : Z -> S -> mem -> Prop) (f : Z -> S -> thr S) step m0 :
  forall (n : nat) i c s m (Q : S -> mem -> Prop),
  (forall c' s' m', c <= c' < c + Z.of_nat n -> I c' s' m' -> live m' = live m0 ->
     (forall b x, ~ W b x -> dat m' b x = dat m0 b x) ->
     twp W Rd (f (i + (c' - c) * step) s') (I (c' + 1)) m') ->
  I c s m -> live m = live m0 -> (forall b x, ~ W b x -> dat m b x = dat m0 b x) ->
  (forall s' m', I (c + Z.of_nat n) s' m' -> live m' = live m0 ->
     (forall b x, ~ W b x -> dat m' b x = dat m0 b x) -> Q s' m') ->
  twp W Rd (titer n i step f s) Q m.
Proof.
  induction n as [|n IH]; intros i c s m Q Hb HI HL HD HQ.
  - cbn. apply HQ; auto. now rewrite Z.add_0_r.
  - cbn [titer]. apply twp_bind.
    eapply twp_conseq.
    + pose proof (Hb c s m ltac:(lia) HI HL HD) as H.
      replace (i + (c - c) * step) with i in H by lia. exact H.
    + cbn. intros s' m' HI' HL' HD'.
      apply (IH (i + step) (c + 1) s' m' Q); auto.
      * intros c' s'' m'' Hc Hi Hl Hd.
        replace (i + step + (c' - (c + 1)) * step) with (i + (c' - c) * step) by ring.
        apply Hb; auto. lia.
      * congruence.
      * intros. rewrite HD' by auto. auto.
      * intros s'' m'' H1 H2 H3. apply HQ; auto.
        replace (c + Z.of_nat (Datatypes.S n)) with (c + 1 + Z.of_nat n) by lia. auto.
Qed.

(** for (i = lo; i < lo + n*step; i += step), [n] iterations. *)
Lemma loop_count_exact lo n step :
  0 < step -> 0 <= n -> loop_count lo (lo + n * step) step = Z.to_nat n.
Proof.
  intros Hs Hn. unfold loop_count. f_equal.
  symmetry. apply (Z.div_unique _ _ _ (step - 1)); lia.
Qed.

Lemma twp_tfor {S} (W Rd : region) (I : Z -> S -> mem -> Prop) (f : Z -> S -> thr S)
      lo hi step n s m (Q : S -> mem -> Prop) :
  0 < step -> 0 <= n -> hi = lo + n * step ->
  I 0 s m ->
  (forall c s' m', 0 <= c < n -> I c s' m' -> live m' = live m ->
     (forall b x, ~ W b x -> dat m' b x = dat m b x) ->
     twp W Rd (f (lo + c * step) s') (I (c + 1)) m') ->
  (forall s' m', I n s' m' -> live m' = live m ->
     (forall b x, ~ W b x -> dat m' b x = dat m b x) -> Q s' m') ->
  twp W Rd (tfor lo hi step s f) Q m.
Proof.
  intros Hs Hn -> HI Hb HQ. unfold tfor. replace (0 <? step) with true by lia.
  rewrite loop_count_exact by lia.
  eapply (twp_titer W Rd I f step m) with (c := 0); auto.
  - intros c' s' m' Hc Hi Hl Hd. replace (c' - 0) with c' by lia. apply Hb; auto. lia.
  - intros s' m' H1 H2 H3. apply HQ; auto. rewrite Z2Nat.id in H1 by lia. exact H1.
Qed.

(** for (i = lo; i < hi; i++). *)
Lemma twp_tfor1 {S} (W Rd : region) (I : Z -> S -> mem -> Prop) (f : Z -> S -> thr S)
      lo hi s m (Q : S -> mem -> Prop) :
  lo <= hi ->
  I lo s m ->
  (forall i s' m', lo <= i < hi -> I i s' m' -> live m' = live m ->
     (forall b x, ~ W b x -> dat m' b x = dat m b x) ->
     twp W Rd (f i s') (I (i + 1)) m') ->
  (forall s' m', I hi s' m' -> live m' = live m ->
     (forall b x, ~ W b x -> dat m' b x = dat m b x) -> Q s' m') ->
  twp W Rd (tfor lo hi 1 s f) Q m.
Proof.
  intros Hs HI Hb HQ.
  eapply (twp_tfor W Rd (fun c => I (lo + c)) f lo hi 1 (hi - lo)); try lia.
  - now rewrite Z.add_0_r.
  - intros c s' m' Hc Hi Hl Hd. rewrite Z.mul_1_r, Z.add_assoc. apply Hb; auto. lia.
  - intros s' m' H1. replace (lo + (hi - lo)) with hi in H1 by lia. auto.
Qed.

(** for (i = start; i != stop; i += inc). *)
Lemma twp_tfor_ne {S} (W Rd : region) (I : Z -> S -> mem -> Prop) (f : Z -> S -> thr S)
      start stop inc n s m (Q : S -> mem -> Prop) :
  inc * inc = 1 -> 0 <= n -> stop = start + n * inc ->
  I 0 s m ->
  (forall c s' m', 0 <= c < n -> I c s' m' -> live m' = live m ->
     (forall b x, ~ W b x -> dat m' b x = dat m b x) ->
     twp W Rd (f (start + c * inc) s') (I (c + 1)) m') ->
  (forall s' m', I n s' m' -> live m' = live m ->
     (forall b x, ~ W b x -> dat m' b x = dat m b x) -> Q s' m') ->
  twp W Rd (tfor_ne start stop inc s f) Q m.
Proof.
  intros Hi Hn -> HI Hb HQ. unfold tfor_ne.
  replace ((start + n * inc - start) * inc) with n
    by (transitivity (n * (inc * inc)); [rewrite Hi|]; ring).
  rewrite Hi. replace (0 <=? n) with true by lia. cbn [andb Z.eqb].
  replace (1 =? 1) with true by reflexivity.
  eapply (twp_titer W Rd I f inc m) with (c := 0); auto.
  - intros c' s' m' Hc HI' Hl Hd. replace (c' - 0) with c' by lia. apply Hb; auto. lia.
  - intros s' m' H1 H2 H3. apply HQ; auto. rewrite Z2Nat.id in H1 by lia. exact H1.
Qed.

(** A loop whose range is empty. *)
Lemma tfor_empty {S} lo hi step (s : S) (f : Z -> S -> thr S) :
  0 < step -> hi <= lo -> tfor lo hi step s f = TRet s.
Proof.
  intros. unfold tfor. replace (0 <? step) with true by lia.
  unfold loop_count. replace (Z.to_nat _) with 0%nat; [reflexivity|].
  assert ((hi - lo + step - 1) / step < 1) by (apply Z.div_lt_upper_bound; lia). lia.
Qed.

(** ** Parallel regions. *)
Definition par_spec (ts : list (thr unit)) (m : mem) (Post : mem -> Prop) : Prop :=
  (exists ts' m', psteps (ts, m) (ts', m') /\ pdone (ts', m')) /\
  (forall s, psteps (ts, m) s -> ~ pfault s) /\
  (forall ts' m', psteps (ts, m) (ts', m') -> pdone (ts', m') -> Post m').

Lemma psteps_trans (s1 s2 s3 : pstate V) : psteps s1 s2 -> psteps s2 s3 -> psteps s1 s3.
Proof. induction 1; auto. intros. econstructor; eauto. Qed.

(** Every run of every parallel region is finite. *)
Definition tsub (t' t : thr unit) : Prop := exists m m', tstep t m t' m'.

Lemma tsub_wf t : Acc tsub t.
Proof.
  induction t as [r|al b i k IH|b i v k IH|]; constructor; intros y (m & m' & H);
    inversion H; subst; auto.
Qed.

Definition tssub (ts' ts : list (thr unit)) : Prop :=
  exists ts1 t t' ts2, ts = ts1 ++ t :: ts2 /\ ts' = ts1 ++ t' :: ts2 /\ tsub t' t.

Lemma tssub_wf ts : Acc tssub ts.
Proof.
  induction ts as [|t ts IH].
  - constructor. intros y (ts1 & t & t' & ts2 & H & _). destruct ts1; discriminate.
  - pose proof (tsub_wf t) as Ht. revert ts IH. induction Ht as [t _ IHt].
    intros ts Hts. induction Hts as [ts Hts' IHts].
    constructor. intros y (ts1 & u & u' & ts2 & H1 & H2 & H3).
    destruct ts1 as [|w ts1]; cbn in *.
    + injection H1 as -> ->. subst y. apply IHt; auto. constructor. auto.
    + injection H1 as -> ->. subst y. apply IHts. exists ts1, u, u', ts2. auto.
Qed.

Theorem par_terminates (s : pstate V) : Acc (fun s' s => pstep s s') s.
Proof.
  destruct s as [ts m]. revert m.
  pose proof (tssub_wf ts) as H. induction H as [ts _ IH]. intros m.
  constructor. intros [ts' m'] Hs. inversion Hs; subst.
  apply IH. exists ts1, t, t', ts2. repeat split. now exists m, m'.
Qed.

Section Par.

Variables (m0 : mem) (n : nat).
Variables (W Rd : nat -> region) (Q : nat -> mem -> Prop).
Hypothesis disj : forall i j b x, (i < n)%nat -> (j < n)%nat -> i <> j ->
  W i b x -> ~ (W j b x \/ Rd j b x).

Definition pinv (s : pstate V) : Prop :=
  length (fst s) = n /\ live (snd s) = live m0 /\
  (forall b x, (forall i, (i < n)%nat -> ~ W i b x) -> dat (snd s) b x = dat m0 b x) /\
  (forall i t, nth_error (fst s) i = Some t ->
     exists ms, twp (W i) (Rd i) t (fun _ => Q i) ms /\ live ms = live m0 /\
       forall b x, W i b x \/ Rd i b x -> dat ms b x = dat (snd s) b x).

Lemma load_agree (m1 m2 : mem) al b i v :
  live m1 = live m2 -> dat m1 b i = dat m2 b i -> load m1 al b i = Some v -> load m2 al b i = Some v.
Proof. intros H1 H2. unfold load. now rewrite H1, H2. Qed.

Lemma nth_mid {A} (l1 l2 : list A) x y : nth_error (l1 ++ x :: l2) (length l1) = Some y -> x = y.
Proof.
  rewrite nth_error_app2 by lia. rewrite Nat.sub_diag. cbn. congruence.
Qed.

Lemma nth_mid_other {A} (l1 l2 : list A) x y i :
  i <> length l1 -> nth_error (l1 ++ x :: l2) i = nth_error (l1 ++ y :: l2) i.
Proof.
  intros H. destruct (Nat.lt_ge_cases i (length l1)).
  - rewrite !nth_error_app1 by lia. easy.
  - rewrite !nth_error_app2 by lia. destruct (i - length l1)%nat eqn:E; [lia|easy].
Qed.

Lemma pinv_step s s' : pinv s -> pstep s s' -> pinv s'.
Proof.
  intros (Hlen & Hlive & Hdat & Hthr) Hs. inversion Hs; subst; cbn in *.
  set (i0 := length ts1) in *.
  assert (Hi0 : (i0 < n)%nat) by (rewrite <- Hlen, app_length; cbn; lia).
  assert (Ht : nth_error (ts1 ++ t :: ts2) i0 = Some t).
  { rewrite nth_error_app2 by lia. unfold i0. now rewrite Nat.sub_diag. }
  assert (Hlen' : length (ts1 ++ t' :: ts2) = n)
    by (rewrite <- Hlen, !app_length; reflexivity).
  destruct (Hthr _ _ Ht) as (ms & Hwp & Hl & Hag).
  inversion H; subst.
  - cbn in Hwp. destruct Hwp as (Hr & v' & Hv' & Hk).
    assert (v' = v) as ->.
    { eapply load_agree in Hv'; [|rewrite Hl, <- Hlive; reflexivity|apply Hag; tauto].
      congruence. }
    repeat split; cbn; auto.
    intros j u Hj. destruct (Nat.eq_dec j i0) as [->|Hne].
    + apply nth_mid in Hj. subst u. exists ms. auto.
    + apply Hthr. rewrite <- Hj. apply nth_mid_other. auto.
  - cbn in Hwp. destruct Hwp as (Hw & Hc & Hk).
    split; [exact Hlen'|]. split; [exact Hlive|]. split.
    + intros b' x' Hn. cbn [snd]. rewrite dat_upd_other; auto.
      destruct (buf_eqb_spec b b'); subst; auto.
      destruct (Z.eq_dec i x'); subst; auto. exfalso. eapply Hn; eauto.
    + intros j u Hj. cbn [fst snd] in *. destruct (Nat.eq_dec j i0) as [->|Hne].
      * apply nth_mid in Hj. subst u. exists (upd ms b i v).
        split; [exact Hk|]. split; [exact Hl|].
        intros b' x' Hin. cbn. destruct (buf_eqb b b' && (i =? x')); auto.
      * assert (Hjn : (j < n)%nat).
        { rewrite <- Hlen'. apply nth_error_Some. congruence. }
        rewrite (nth_mid_other _ _ _ (TStore b i v t')) in Hj by auto.
        destruct (Hthr _ _ Hj) as (msj & Hwpj & Hlj & Hagj).
        exists msj. split; [exact Hwpj|]. split; [exact Hlj|].
        intros b' x' Hin. rewrite dat_upd_other; auto.
        destruct (buf_eqb_spec b b'); subst; auto.
        destruct (Z.eq_dec i x'); subst; auto. exfalso.
        exact (disj i0 j b' x' Hi0 Hjn (Nat.neq_sym _ _ Hne) Hw Hin).
Qed.

Lemma pinv_steps s s' : pinv s -> psteps s s' -> pinv s'.
Proof. intros H Hs. induction Hs; auto. apply IHHs. eapply pinv_step; eauto. Qed.

Lemma pinv_nofault s : pinv s -> ~ pfault s.
Proof.
  intros (Hlen & Hlive & Hdat & Hthr) [(t & Hin & Hf)|(ts1 & t1 & ts2 & t2 & ts3 & He & Hc)].
  - apply In_nth_error in Hin. destruct Hin as (i & Hi).
    destruct (Hthr _ _ Hi) as (ms & Hwp & Hl & Hag).
    destruct t as [r|al b x k|b x v k|]; cbn in *; auto.
    + destruct Hwp as (Hr & v & Hv & _).
      eapply (load_agree _ (snd s)) in Hv; [congruence|congruence|]. apply Hag. tauto.
    + destruct Hwp as (Hw & Hc & _). unfold can_store in *. rewrite Hlive, <- Hl in Hf. congruence.
  - destruct Hc as (w1 & w2 & b & x & H1 & H2 & Hor).
    assert (E1 : nth_error (fst s) (length ts1) = Some t1).
    { rewrite He, nth_error_app2 by lia. now rewrite Nat.sub_diag. }
    assert (E2 : nth_error (fst s) (length ts1 + S (length ts2)) = Some t2).
    { rewrite He, nth_error_app2 by lia.
      replace (length ts1 + S (length ts2) - length ts1)%nat with (S (length ts2)) by lia.
      cbn. rewrite nth_error_app2 by lia. now rewrite Nat.sub_diag. }
    assert (N1 : (length ts1 < n)%nat) by (rewrite <- Hlen; apply nth_error_Some; congruence).
    assert (N2 : (length ts1 + S (length ts2) < n)%nat)
      by (rewrite <- Hlen; apply nth_error_Some; congruence).
    destruct (Hthr _ _ E1) as (ms1 & Hwp1 & _). destruct (Hthr _ _ E2) as (ms2 & Hwp2 & _).
    assert (F : forall t i ms w, twp (W i) (Rd i) t (fun _ => Q i) ms -> tnext t = Some (w, b, x) ->
                 (if w then W i b x else (W i b x \/ Rd i b x))).
    { intros t i ms w Hwp Hn. destruct t; cbn in *; try discriminate; injection Hn as <- <- <-; tauto. }
    pose proof (F _ _ _ _ Hwp1 H1) as G1. pose proof (F _ _ _ _ Hwp2 H2) as G2.
    destruct w1.
    + apply (disj (length ts1) (length ts1 + S (length ts2)) b x N1 N2 ltac:(lia) G1).
      destruct w2; tauto.
    + destruct w2; [|discriminate].
      apply (disj (length ts1 + S (length ts2)) (length ts1) b x N2 N1 ltac:(lia) G2 G1).
Qed.

Lemma pinv_progress s : pinv s -> pdone s \/ exists s', pstep s s'.
Proof.
  intros (Hlen & Hlive & Hdat & Hthr). destruct s as [ts m]. cbn in *.
  assert (H : (exists t, In t ts /\ t <> TRet tt) \/ (forall t, In t ts -> t = TRet tt)).
  { clear. induction ts as [|t ts [(u & Hu & Hn)|IH]].
    - right. intros t [].
    - left. exists u. split; auto. now right.
    - destruct t as [[]|al b i k|b i v k|].
      + right. intros t [<-|Hin]; auto.
      + left. eexists. split; [now left|]. discriminate.
      + left. eexists. split; [now left|]. discriminate.
      + left. eexists. split; [now left|]. discriminate. }
  destruct H as [(t & Hin & Hne)|Hd]; [|now left]. right.
  apply In_nth_error in Hin. destruct Hin as (i & Hi).
  destruct (Hthr _ _ Hi) as (ms & Hwp & Hl & Hag).
  apply nth_error_split in Hi. destruct Hi as (ts1 & ts2 & -> & _).
  destruct t as [[]|al b x k|b x v k|]; cbn in Hwp; try congruence; try tauto.
  - destruct Hwp as (Hr & v & Hv & _).
    eexists. constructor. constructor.
    eapply load_agree; [| |exact Hv]; [congruence|]. apply Hag. tauto.
  - destruct Hwp as (_ & Hc & _). eexists. constructor. constructor.
    unfold can_store in *. rewrite Hlive, <- Hl. exact Hc.
Qed.

Lemma pinv_final ts : pinv (ts, m0) ->
  par_spec ts m0 (fun m' =>
    live m' = live m0 /\
    (forall i, (i < n)%nat -> exists ms, Q i ms /\ live ms = live m0 /\
        forall b x, W i b x -> dat m' b x = dat ms b x) /\
    (forall b x, (forall i, (i < n)%nat -> ~ W i b x) -> dat m' b x = dat m0 b x)).
Proof.
  intros Hi. split; [|split].
  - assert (G : forall s, pinv s -> exists s', psteps s s' /\ pdone s').
    { intros s. induction (par_terminates s) as [s _ IH]. intros Hs.
      destruct (pinv_progress s Hs) as [Hd|(s' & Hs')].
      - exists s. split; auto. constructor.
      - destruct (IH s' Hs' (pinv_step _ _ Hs Hs')) as (s'' & H1 & H2).
        exists s''. split; auto. econstructor; eauto. }
    destruct (G _ Hi) as ([ts' m'] & H1 & H2). eauto.
  - intros s Hs. apply pinv_nofault. eapply pinv_steps; eauto.
  - intros ts' m' Hs Hd. destruct (pinv_steps _ _ Hi Hs) as (Hlen & Hlive & Hdat & Hthr).
    cbn in *. split; [auto|split; auto].
    intros i Hin. destruct (nth_error ts' i) as [t|] eqn:E.
    + destruct (Hthr _ _ E) as (ms & Hwp & Hl & Hag).
      rewrite (Hd t) in Hwp by (eapply nth_error_In; eauto).
      exists ms. split; [exact Hwp|]. split; auto.
      intros. symmetry. apply Hag. auto.
    + apply nth_error_None in E. lia.
Qed.

End Par.

Lemma par_spec_mono ts m (P P' : mem -> Prop) :
  par_spec ts m P -> (forall m', P m' -> P' m') -> par_spec ts m P'.
Proof. intros (H1 & H2 & H3) HP. split; [|split]; eauto. Qed.

Lemma zseq_length n i step : length (zseq n i step) = n.
Proof. revert i; induction n; cbn; intros; auto. Qed.

Lemma zseq_nth n i step j : (j < n)%nat ->
  nth_error (zseq n i step) j = Some (i + Z.of_nat j * step).
Proof.
  revert i j; induction n; intros i j H; [lia|].
  destruct j; cbn [zseq nth_error]. - f_equal; lia. - rewrite IHn by lia. f_equal; lia.
Qed.

(** [n] threads, indexed by 0..n-1. *)
Lemma par_spec_for (n : nat) (i0 step : Z) (body : Z -> thr unit) (m : mem)
      (W Rd : Z -> region) (Q : Z -> mem -> Prop) :
  (forall c, 0 <= c < Z.of_nat n ->
     twp (W c) (Rd c) (body (i0 + c * step)) (fun _ => Q c) m) ->
  (forall c d b x, 0 <= c < Z.of_nat n -> 0 <= d < Z.of_nat n -> c <> d ->
     W c b x -> ~ (W d b x \/ Rd d b x)) ->
  par_spec (map body (zseq n i0 step)) m (fun m' =>
    live m' = live m /\
    (forall c, 0 <= c < Z.of_nat n -> exists ms, Q c ms /\ live ms = live m /\
        (forall b x, ~ W c b x -> dat ms b x = dat m b x) /\
        forall b x, W c b x -> dat m' b x = dat ms b x) /\
    (forall b x, (forall c, 0 <= c < Z.of_nat n -> ~ W c b x) -> dat m' b x = dat m b x)).
Proof.
  intros Hb Hd.
  eapply par_spec_mono.
  - apply (pinv_final m n (fun i => W (Z.of_nat i)) (fun i => Rd (Z.of_nat i))
             (fun i m' => Q (Z.of_nat i) m' /\ forall b x, ~ W (Z.of_nat i) b x -> dat m' b x = dat m b x)).
    + intros i j b x H1 H2 H3. apply Hd; lia.
    + split; [|split; [|split]]; cbn; auto.
      * now rewrite map_length, zseq_length.
      * intros i t Ht.
        assert (Hi : (i < n)%nat).
        { pose proof (nth_error_Some (map body (zseq n i0 step)) i) as H.
          rewrite map_length, zseq_length in H. apply H. congruence. }
        rewrite nth_error_map, zseq_nth in Ht by auto. cbn in Ht. injection Ht as <-.
        exists m. split; [|split]; auto.
        eapply twp_conseq; [apply Hb; lia|]. cbn. auto.
  - cbn. intros m' (HL & HT & HF). split; [auto|split].
    + intros c Hc. destruct (HT (Z.to_nat c) ltac:(lia)) as (ms & (Hq & Hf) & Hl & Hag).
      rewrite Z2Nat.id in * by lia. exists ms. auto.
    + intros b x Hn. apply HF. intros i Hi. apply Hn. lia.
Qed.

(** ** Programs: every execution ends, never in undefined behaviour or exit(), and
    in a state satisfying [Q]. *)
Definition pok {R} (p : prog R) (m : mem) (Q : R -> mem -> Prop) : Prop :=
  (exists o, pexec p m o) /\
  (forall o, pexec p m o -> exists r m', o = Done r m' /\ Q r m').

Lemma pok_mono {R} (p : prog R) m (Q Q' : R -> mem -> Prop) :
  pok p m Q -> (forall r m', Q r m' -> Q' r m') -> pok p m Q'.
Proof.
  intros (H1 & H2) H. split; auto. intros o Ho.
  destruct (H2 o Ho) as (r & m' & -> & Hq). eauto.
Qed.

Lemma pok_ret {R} (r : R) m (Q : R -> mem -> Prop) : Q r m -> pok (PRet r) m Q.
Proof.
  intros H. split; [eexists; constructor|]. intros o Ho. inversion Ho; subst. eauto.
Qed.

Lemma pexec_bind {R S} (p : prog R) (f : R -> prog S) m o :
  pexec (pbind p f) m o <->
  ((exists r m1, pexec p m (Done r m1) /\ pexec (f r) m1 o) \/
   (o = Undef /\ pexec p m Undef) \/ (o = Exited /\ pexec p m Exited)).
Proof.
  split.
  - revert m o; induction p as [r|ts k IH|b n al init k IH|b k IH| |]; cbn; intros m o H.
    + left. exists r, m. split; auto. constructor.
    + inversion H; subst.
      * destruct (IH _ _ H6) as [(r & m1 & A & B)|[(A & B)|(A & B)]].
        -- left. exists r, m1. split; auto. econstructor; eauto.
        -- right; left. split; auto. econstructor; eauto.
        -- right; right. split; auto. econstructor; eauto.
      * right; left. split; auto. eapply PE_par_ub; eauto.
    + inversion H; subst.
      * destruct (IH _ _ H9) as [(r & m1 & A & B)|[(A & B)|(A & B)]].
        -- left. exists r, m1. split; auto. apply PE_alloc; auto.
        -- right; left. split; auto. apply PE_alloc; auto.
        -- right; right. split; auto. apply PE_alloc; auto.
      * right; left. split; auto. now apply PE_alloc_ub.
    + inversion H; subst.
      * destruct (IH _ _ H5) as [(r & m1 & A & B)|[(A & B)|(A & B)]].
        -- left. exists r, m1. split; auto. apply PE_free; auto.
        -- right; left. split; auto. apply PE_free; auto.
        -- right; right. split; auto. apply PE_free; auto.
      * right; left. split; auto. now apply PE_free_ub.
    + inversion H; subst. right; left. split; auto. constructor.
    + inversion H; subst. right; right. split; auto. constructor.
  - revert m o; induction p as [r|ts k IH|b n al init k IH|b k IH| |]; cbn; intros m o H.
    + destruct H as [(r' & m1 & A & B)|[(A & B)|(A & B)]]; inversion B || inversion A; subst; auto;
        inversion A; subst; auto; inversion B.
    + destruct H as [(r' & m1 & A & B)|[(A & B)|(A & B)]]; subst.
      * inversion A; subst. eapply PE_par_ok; [eassumption|eassumption|]. apply IH. left; eauto.
      * inversion B; subst. -- eapply PE_par_ok; [eassumption|eassumption|]. apply IH. auto. -- eapply PE_par_ub; eauto.
      * inversion B; subst. eapply PE_par_ok; [eassumption|eassumption|]. apply IH. auto.
    + destruct H as [(r' & m1 & A & B)|[(A & B)|(A & B)]]; subst.
      * inversion A; subst. apply PE_alloc; auto. apply IH. left; eauto.
      * inversion B; subst. -- apply PE_alloc; auto. -- now apply PE_alloc_ub.
      * inversion B; subst. apply PE_alloc; auto.
    + destruct H as [(r' & m1 & A & B)|[(A & B)|(A & B)]]; subst.
      * inversion A; subst. apply PE_free; auto. apply IH. left; eauto.
      * inversion B; subst. -- apply PE_free; auto. -- now apply PE_free_ub.
      * inversion B; subst. apply PE_free; auto.
    + destruct H as [(r' & m1 & A & B)|[(A & B)|(A & B)]]; subst.
      * inversion A. * constructor. * inversion B.
    + destruct H as [(r' & m1 & A & B)|[(A & B)|(A & B)]]; subst.
      * inversion A. * inversion B. * constructor.
Qed.

Lemma pok_bind {R S} (p : prog R) (f : R -> prog S) m Q :
  pok p m (fun r m' => pok (f r) m' Q) -> pok (pbind p f) m Q.
Proof.
  intros ((o & Ho) & H). split.
  - destruct (H o Ho) as (r & m' & -> & ((o' & Ho') & _)).
    exists o'. apply pexec_bind. left; eauto.
  - intros o1 Ho1. apply pexec_bind in Ho1.
    destruct Ho1 as [(r & m1 & A & B)|[(A & B)|(A & B)]].
    + destruct (H _ A) as (r' & m' & E & (_ & G)). injection E as <- <-. auto.
    + destruct (H _ B) as (r' & m' & E & _). discriminate.
    + destruct (H _ B) as (r' & m' & E & _). discriminate.
Qed.

Lemma pok_par {R} ts (k : prog R) m Q :
  par_spec ts m (fun m' => pok k m' Q) -> pok (PPar ts k) m Q.
Proof.
  intros ((ts' & m' & Hs & Hd) & Hn & Hp). split.
  - destruct (Hp _ _ Hs Hd) as ((o & Ho) & _). exists o. eapply PE_par_ok; eauto.
  - intros o Ho. inversion Ho; subst.
    + match goal with A : psteps _ _, B : pdone _ |- _ => destruct (Hp _ _ A B) as (_ & G) end. auto.
    + exfalso. eapply Hn; eauto.
Qed.

Lemma pok_alloc b n al init m (Q : unit -> mem -> Prop) :
  0 <= n -> live m b = None -> Q tt (do_alloc m b n al init) -> pok (palloc b n al init) m Q.
Proof.
  intros H1 H2 H3. split.
  - eexists. apply PE_alloc; auto. constructor.
  - intros o Ho. inversion Ho; subst.
    + match goal with A : pexec _ _ _ |- _ => inversion A; subst end. eauto.
    + match goal with A : _ \/ _ |- _ => destruct A; [lia|congruence] end.
Qed.

Lemma pok_free b m (Q : unit -> mem -> Prop) :
  live m b <> None -> Q tt (do_free m b) -> pok (pfree b) m Q.
Proof.
  intros H1 H2. split.
  - eexists. apply PE_free; auto. constructor.
  - intros o Ho. inversion Ho; subst.
    + match goal with A : pexec _ _ _ |- _ => inversion A; subst end. eauto.
    + congruence.
Qed.

Lemma pok_par_for lo hi step n (body : Z -> thr unit) (m : mem)
      (W Rd : Z -> region) (Q : Z -> mem -> Prop) (Post : unit -> mem -> Prop) :
  0 < step -> 0 <= n -> hi = lo + n * step ->
  (forall c, 0 <= c < n -> twp (W c) (Rd c) (body (lo + c * step)) (fun _ => Q c) m) ->
  (forall c d b x, 0 <= c < n -> 0 <= d < n -> c <> d -> W c b x -> ~ (W d b x \/ Rd d b x)) ->
  (forall m', live m' = live m ->
    (forall c, 0 <= c < n -> exists ms, Q c ms /\ live ms = live m /\
        (forall b x, ~ W c b x -> dat ms b x = dat m b x) /\
        forall b x, W c b x -> dat m' b x = dat ms b x) ->
    (forall b x, (forall c, 0 <= c < n -> ~ W c b x) -> dat m' b x = dat m b x) -> Post tt m') ->
  pok (ppar_for lo hi step body) m Post.
Proof.
  intros Hs Hn -> Hb Hd HP. unfold ppar_for. replace (0 <? step) with true by lia.
  rewrite loop_count_exact by lia. apply pok_par.
  eapply par_spec_mono.
  - apply (par_spec_for (Z.to_nat n) lo step body m W Rd Q).
    + intros c Hc. apply Hb. lia.
    + intros c d b x Hc Hdd. apply Hd; lia.
  - cbn. intros m' (H1 & H2 & H3). apply pok_ret. apply HP; auto.
    + intros c Hc. apply H2. lia.
    + intros b x H. apply H3. intros c Hc. apply H. lia.
Qed.

Lemma pok_piter {S} (I : Z -> S -> mem -> Prop) (f : Z -> S -> prog S) step :
  forall (n : nat) i c s m (Q : S -> mem -> Prop),
  (forall c' s' m', c <= c' < c + Z.of_nat n -> I c' s' m' ->
     pok (f (i + (c' - c) * step) s') m' (I (c' + 1))) ->
  I c s m ->
  (forall s' m', I (c + Z.of_nat n) s' m' -> Q s' m') ->
  pok (piter n i step f s) m Q.
Proof.
  induction n as [|n IH]; intros i c s m Q Hb HI HQ.
  - apply pok_ret. apply HQ. now rewrite Z.add_0_r.
  - cbn [piter]. apply pok_bind. eapply pok_mono.
    + pose proof (Hb c s m ltac:(lia) HI) as H.
      replace (i + (c - c) * step) with i in H by lia. exact H.
    + cbn. intros s' m' HI'. apply (IH (i + step) (c + 1) s' m' Q); auto.
      * intros c' s'' m'' Hc Hi.
        replace (i + step + (c' - (c + 1)) * step) with (i + (c' - c) * step) by ring.
        apply Hb; auto. lia.
      * intros s'' m'' H1. apply HQ.
        replace (c + Z.of_nat (Datatypes.S n)) with (c + 1 + Z.of_nat n) by lia. auto.
Qed.

Lemma pok_pfor {S} (I : Z -> S -> mem -> Prop) (f : Z -> S -> prog S)
      lo hi step n s m (Q : S -> mem -> Prop) :
  0 < step -> 0 <= n -> hi = lo + n * step ->
  I 0 s m ->
  (forall c s' m', 0 <= c < n -> I c s' m' -> pok (f (lo + c * step) s') m' (I (c + 1))) ->
  (forall s' m', I n s' m' -> Q s' m') ->
  pok (pfor lo hi step s f) m Q.
Proof.
  intros Hs Hn -> HI Hb HQ. unfold pfor. replace (0 <? step) with true by lia.
  rewrite loop_count_exact by lia.
  eapply (pok_piter I f step) with (c := 0); auto.
  - intros c' s' m' Hc Hi. replace (c' - 0) with c' by lia. apply Hb; auto. lia.
  - intros s' m' H1. apply HQ; auto. rewrite Z2Nat.id in H1 by lia. exact H1.
Qed.

Lemma pok_pfor1 {S} (I : Z -> S -> mem -> Prop) (f : Z -> S -> prog S)
      lo hi s m (Q : S -> mem -> Prop) :
  lo <= hi -> I lo s m ->
  (forall i s' m', lo <= i < hi -> I i s' m' -> pok (f i s') m' (I (i + 1))) ->
  (forall s' m', I hi s' m' -> Q s' m') ->
  pok (pfor lo hi 1 s f) m Q.
Proof.
  intros Hs HI Hb HQ.
  eapply (pok_pfor (fun c => I (lo + c)) f lo hi 1 (hi - lo)); try lia.
  - now rewrite Z.add_0_r.
  - intros c s' m' Hc Hi. rewrite Z.mul_1_r, Z.add_assoc. apply Hb; auto. lia.
  - intros s' m' H1. replace (lo + (hi - lo)) with hi in H1 by lia. auto.
Qed.

Lemma pok_pfor_ne {S} (I : Z -> S -> mem -> Prop) (f : Z -> S -> prog S)
      start stop inc n s m (Q : S -> mem -> Prop) :
  inc * inc = 1 -> 0 <= n -> stop = start + n * inc -> I 0 s m ->
  (forall c s' m', 0 <= c < n -> I c s' m' -> pok (f (start + c * inc) s') m' (I (c + 1))) ->
  (forall s' m', I n s' m' -> Q s' m') ->
  pok (pfor_ne start stop inc s f) m Q.
Proof.
  intros Hi Hn -> HI Hb HQ. unfold pfor_ne.
  replace ((start + n * inc - start) * inc) with n by (transitivity (n * (inc * inc)); [rewrite Hi|]; ring).
  rewrite Hi. replace (0 <=? n) with true by lia. cbn [andb Z.eqb].
  replace (1 =? 1) with true by reflexivity.
  eapply (pok_piter I f inc) with (c := 0); auto.
  - intros c' s' m' Hc HI'. replace (c' - 0) with c' by lia. apply Hb; auto. lia.
  - intros s' m' H1. apply HQ; auto. rewrite Z2Nat.id in H1 by lia. exact H1.
Qed.

End Facts.

#[global] Opaque twp tbind tload tload_al tstore tfor tfor_ne pbind pok.
