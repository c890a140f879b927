(** * Programs that cannot avoid reading a given element.

    [touches b i t]: on every path thread t loads element i of b (or fails).  [keeps b t]:
    t never stores to b.  If that element cannot be loaded, no execution of a program that
    touches it ends normally. *)

From Coq Require Import ZArith List Bool Lia.
From Verif Require Import Lang Lang_facts Exec Exec_facts.
Import ListNotations.
Open Scope Z_scope.

Local Transparent tfor tfor_ne pfor pfor_ne ppar_for.

Section Touch.

Context {V : Type}.
Variables (b : buf) (i : Z).

Fixpoint keeps {R} (t : thr V R) : Prop :=
  match t with
  | TLoad _ _ _ k => forall v, keeps (k v)
  | TStore b' _ _ k => b' <> b /\ keeps k
  | _ => True
  end.

Fixpoint touches {R} (t : thr V R) : Prop :=
  match t with
  | TRet _ => False
  | TLoad _ b' i' k => (b' = b /\ i' = i) \/ forall v, touches (k v)
  | TStore _ _ _ k => touches k
  | TFail => True
  end.

(** never stores to b, never allocates or frees it, never exits *)
Fixpoint pkeeps {R} (P : prog V R) : Prop :=
  match P with
  | PPar ts k => (forall t, In t ts -> keeps t) /\ pkeeps k
  | PAlloc b' _ _ _ k | PFree b' k => b' <> b /\ pkeeps k
  | PExit => False
  | _ => True
  end.

Fixpoint ptouches {R} (P : prog V R) : Prop :=
  match P with
  | PPar ts k => (forall t, In t ts -> keeps t) /\ ((exists t, In t ts /\ touches t) \/ ptouches k)
  | PAlloc b' _ _ _ k | PFree b' k => b' <> b /\ ptouches k
  | PUB => True
  | _ => False
  end.

(** the element cannot be loaded *)
Definition unreadable (m : mem V) : Prop := forall al, load m al b i = None.

Definition same_obj (m m' : mem V) : Prop :=
  live m' b = live m b /\ forall j, dat m' b j = dat m b j.

Lemma same_unreadable m m' : same_obj m m' -> unreadable m -> unreadable m'.
Proof.
  intros (H1 & H2) H al. specialize (H al). unfold load in *. rewrite H1. destruct (live m b) as [bi|]; auto.
  destruct (_ && _); auto. now rewrite H2.
Qed.

Lemma step_same t m t' m' : keeps t -> tstep t m t' m' -> same_obj m m' /\ keeps t'.
Proof.
  intros Hk H. destruct H; cbn in Hk.
  - split; [split; auto|auto].
  - destruct Hk as (Hb & Hk). split; auto. split; [reflexivity|]. intros j. cbn. now rewrite buf_eqb_neq.
Qed.

Lemma step_touch t m t' m' : unreadable m -> touches t -> tstep t m t' m' -> touches t'.
Proof.
  intros Hu Ht H. destruct H as [al b' i' k v m Hl|]; cbn in Ht; [|auto].
  destruct Ht as [(-> & ->)|Ht]; [|auto]. rewrite Hu in Hl. discriminate.
Qed.

Definition inv (m0 : mem V) (s : pstate V) : Prop :=
  (forall t, In t (fst s) -> keeps t) /\ same_obj m0 (snd s).

Lemma same_trans m1 m2 m3 : same_obj m1 m2 -> same_obj m2 m3 -> same_obj m1 m3.
Proof. intros (A1 & A2) (B1 & B2). split; [congruence|]. intros j. now rewrite B2. Qed.

Lemma same_refl m : same_obj m m. Proof. split; auto. Qed.

Lemma pstep_inv m0 s s' : inv m0 s -> pstep s s' -> inv m0 s'.
Proof.
  intros (H1 & H2) H. destruct H as [ts1 t ts2 m t' m' H]. cbn [fst snd] in *.
  destruct (step_same t m t' m') as (Q1 & Q2); auto. { apply H1. rewrite in_app_iff; cbn; auto. }
  split; cbn [fst snd]; [|eapply same_trans; eauto].
  intros u Hu. rewrite in_app_iff in Hu. cbn in Hu. destruct Hu as [Hu|[<-|Hu]]; auto; apply H1; rewrite in_app_iff; cbn; auto.
Qed.

Lemma psteps_inv m0 s s' : inv m0 s -> psteps s s' -> inv m0 s'.
Proof. intros H Hs. induction Hs; auto. apply IHHs. eapply pstep_inv; eauto. Qed.

Lemma pstep_touch m0 s s' : unreadable m0 -> inv m0 s -> pstep s s' ->
  (exists t, In t (fst s) /\ touches t) -> exists t, In t (fst s') /\ touches t.
Proof.
  intros Hu (H1 & H2) H (u & Hin & Ht). destruct H as [ts1 t ts2 m t' m' H]. cbn [fst snd] in *.
  rewrite in_app_iff in Hin. cbn in Hin. destruct Hin as [Hin|[<-|Hin]].
  - exists u. rewrite in_app_iff. auto.
  - exists t'. split; [rewrite in_app_iff; cbn; auto|]. eapply step_touch; [|exact Ht|exact H].
    eapply same_unreadable; eauto.
  - exists u. split; [rewrite in_app_iff; cbn; auto|auto].
Qed.

Lemma psteps_touch m0 s s' : unreadable m0 -> inv m0 s -> psteps s s' ->
  (exists t, In t (fst s) /\ touches t) -> exists t, In t (fst s') /\ touches t.
Proof.
  intros Hu H Hs. induction Hs; auto. intros Ht. apply IHHs; [eapply pstep_inv; eauto|].
  eapply pstep_touch; eauto.
Qed.

Lemma ptouches_undef {R} (P : prog V R) m o : ptouches P -> unreadable m -> pexec P m o -> o = Undef.
Proof.
  intros Ht Hu H. revert Ht Hu. induction H; cbn [ptouches]; try tauto; auto.
  - intros (Hk & Ht) Hu. assert (I : inv m (ts, m)) by (split; [auto|apply same_refl]).
    destruct Ht as [Ht|Ht].
    + destruct (psteps_touch _ _ _ Hu I H Ht) as (t & Hin & Hto). exfalso.
      rewrite (H0 t Hin) in Hto. exact Hto.
    + apply IHpexec; auto. destruct (psteps_inv _ _ _ I H) as (_ & Hs). eapply same_unreadable; eauto.
  - intros (Hb & Ht) Hu. apply IHpexec; auto. eapply same_unreadable; [|exact Hu].
    split; intros; cbn; now rewrite buf_eqb_neq.
  - intros (Hb & Ht) Hu. apply IHpexec; auto. eapply same_unreadable; [|exact Hu].
    split; intros; cbn; now rewrite buf_eqb_neq.
Qed.

(** every execution is undefined, and there is one *)
Lemma ptouches_exec {R} (P : prog V R) m : ptouches P -> unreadable m ->
  pexec P m Undef /\ forall o, pexec P m o -> o = Undef.
Proof.
  intros Ht Hu. assert (H : forall o, pexec P m o -> o = Undef) by (intros o; now apply ptouches_undef).
  split; auto. pose proof (pseqexec_sound P m) as Hs. now rewrite <- (H _ Hs).
Qed.

(** ** Composition *)

Lemma keeps_bind {R R'} (t : thr V R) (f : R -> thr V R') : keeps t -> (forall r, keeps (f r)) -> keeps (tbind t f).
Proof.
  intros Ht Hf. revert Ht. induction t as [r|al b' i' k IH|b' i' v k IH|]; cbn [tbind keeps].
  - intros _. apply Hf.
  - intros H w. now apply IH.
  - intros (H1 & H2). split; auto.
  - auto.
Qed.

Lemma touches_bind_l {R R'} (t : thr V R) (f : R -> thr V R') : touches t -> touches (tbind t f).
Proof.
  induction t as [r|al b' i' k IH|b' i' v k IH|]; cbn [tbind touches]; [tauto| |auto|auto].
  intros [H|H]; [auto|right]. intros w. now apply IH.
Qed.

Lemma touches_bind_r {R R'} (t : thr V R) (f : R -> thr V R') : (forall r, touches (f r)) -> touches (tbind t f).
Proof.
  intros H. induction t as [r|al b' i' k IH|b' i' v k IH|]; cbn [tbind touches];
    [apply H|right; exact IH|exact IH|exact I].
Qed.

Lemma keeps_titer {S} n : forall z step (f : Z -> S -> thr V S) s,
  (forall z s, keeps (f z s)) -> keeps (titer n z step f s).
Proof. induction n; intros z step f s H; cbn [titer]; [exact I|]. apply keeps_bind; auto. Qed.

Lemma keeps_tfor {S} lo hi step (s : S) (f : Z -> S -> thr V S) :
  (forall z s, keeps (f z s)) -> keeps (tfor lo hi step s f).
Proof. intros H. unfold tfor. destruct (0 <? step); [now apply keeps_titer|]. destruct (lo <? hi); exact I. Qed.

Lemma touches_titer {S} n : forall z step (f : Z -> S -> thr V S) s j, (j < n)%nat ->
  (forall s, touches (f (z + Z.of_nat j * step) s)) -> touches (titer n z step f s).
Proof.
  induction n; intros z step f s j Hj H; [lia|]. cbn [titer]. destruct j.
  - apply touches_bind_l. specialize (H s). replace (z + Z.of_nat 0 * step) with z in H by lia. auto.
  - apply touches_bind_r. intros s'. apply (IHn _ _ _ _ j); [lia|]. intros s''.
    replace (z + step + Z.of_nat j * step) with (z + Z.of_nat (Datatypes.S j) * step) by lia. auto.
Qed.

Lemma count_lt lo hi step q : 0 < step -> 0 <= q -> lo + q * step < hi -> (Z.to_nat q < loop_count lo hi step)%nat.
Proof.
  intros Hs Hq H. unfold loop_count. apply Z2Nat.inj_lt; auto.
  - apply Z.div_pos; nia.
  - apply Z.lt_le_trans with (m := q + 1); [lia|]. apply Z.div_le_lower_bound; nia.
Qed.

Lemma touches_tfor {S} lo hi step (s : S) (f : Z -> S -> thr V S) q : 0 < step -> 0 <= q -> lo + q * step < hi ->
  (forall s, touches (f (lo + q * step) s)) -> touches (tfor lo hi step s f).
Proof.
  intros Hs Hq Hh H. unfold tfor. destruct (Z.ltb_spec 0 step).
  - apply (touches_titer _ _ _ _ _ (Z.to_nat q)); [now apply count_lt|]. now rewrite Z2Nat.id.
  - lia.
Qed.

Lemma touches_tfor1 {S} lo hi (s : S) (f : Z -> S -> thr V S) z : lo <= z < hi ->
  (forall s, touches (f z s)) -> touches (tfor lo hi 1 s f).
Proof.
  intros Hz H. apply (touches_tfor lo hi 1 s f (z - lo)); [lia|lia|lia|].
  replace (lo + (z - lo) * 1) with z by lia. auto.
Qed.

Lemma pkeeps_bind {R R'} (P : prog V R) (f : R -> prog V R') : pkeeps P -> (forall r, pkeeps (f r)) -> pkeeps (pbind P f).
Proof.
  intros HP Hf. revert HP. induction P; cbn [pbind pkeeps]; auto; intros (H1 & H2); split; auto.
Qed.

Lemma ptouches_bind_l {R R'} (P : prog V R) (f : R -> prog V R') : ptouches P -> ptouches (pbind P f).
Proof.
  induction P; cbn [pbind ptouches]; try tauto; auto; intros (H1 & H2); split; auto.
Qed.

Lemma ptouches_bind_r {R R'} (P : prog V R) (f : R -> prog V R') : pkeeps P -> (forall r, ptouches (f r)) -> ptouches (pbind P f).
Proof.
  intros HP Hf. revert HP. induction P; cbn [pbind pkeeps ptouches]; auto; intros (H1 & H2); split; auto.
Qed.

Lemma pkeeps_piter {S} n : forall z step (f : Z -> S -> prog V S) s,
  (forall z s, pkeeps (f z s)) -> pkeeps (piter n z step f s).
Proof. induction n; intros z step f s H; cbn [piter]; [exact I|]. apply pkeeps_bind; auto. Qed.

Lemma pkeeps_pfor {S} lo hi step (s : S) (f : Z -> S -> prog V S) :
  (forall z s, pkeeps (f z s)) -> pkeeps (pfor lo hi step s f).
Proof. intros H. unfold pfor. destruct (0 <? step); [now apply pkeeps_piter|]. destruct (lo <? hi); exact I. Qed.

Lemma pkeeps_pfor_ne {S} lo hi inc (s : S) (f : Z -> S -> prog V S) :
  (forall z s, pkeeps (f z s)) -> pkeeps (pfor_ne lo hi inc s f).
Proof. intros H. unfold pfor_ne. destruct (_ && _); [now apply pkeeps_piter|exact I]. Qed.

Lemma ptouches_piter {S} n : forall z step (f : Z -> S -> prog V S) s j, (j < n)%nat ->
  (forall z s, pkeeps (f z s)) ->
  (forall s, ptouches (f (z + Z.of_nat j * step) s)) -> ptouches (piter n z step f s).
Proof.
  induction n; intros z step f s j Hj Hk H; [lia|]. cbn [piter]. destruct j.
  - apply ptouches_bind_l. specialize (H s). replace (z + Z.of_nat 0 * step) with z in H by lia. auto.
  - apply ptouches_bind_r; auto. intros s'. apply (IHn _ _ _ _ j); [lia|auto|]. intros s''.
    replace (z + step + Z.of_nat j * step) with (z + Z.of_nat (Datatypes.S j) * step) by lia. auto.
Qed.

Lemma ptouches_pfor {S} lo hi step (s : S) (f : Z -> S -> prog V S) q : 0 < step -> 0 <= q -> lo + q * step < hi ->
  (forall z s, pkeeps (f z s)) ->
  (forall s, ptouches (f (lo + q * step) s)) -> ptouches (pfor lo hi step s f).
Proof.
  intros Hs Hq Hh Hk H. unfold pfor. destruct (Z.ltb_spec 0 step).
  - apply (ptouches_piter _ _ _ _ _ (Z.to_nat q)); [now apply count_lt|auto|]. now rewrite Z2Nat.id.
  - lia.
Qed.

Lemma ptouches_pfor1 {S} lo hi (s : S) (f : Z -> S -> prog V S) z : lo <= z < hi ->
  (forall z s, pkeeps (f z s)) ->
  (forall s, ptouches (f z s)) -> ptouches (pfor lo hi 1 s f).
Proof.
  intros Hz Hk H. apply (ptouches_pfor lo hi 1 s f (z - lo)); [lia|lia|lia|auto|].
  replace (lo + (z - lo) * 1) with z by lia. auto.
Qed.

Lemma in_zseq n : forall z0 step j, (j < n)%nat -> In (z0 + Z.of_nat j * step) (zseq n z0 step).
Proof.
  induction n; intros z0 step j Hj; [lia|]. cbn. destruct j; [left; lia|right].
  replace (z0 + Z.of_nat (Datatypes.S j) * step) with (z0 + step + Z.of_nat j * step) by lia. apply IHn. lia.
Qed.

Lemma pkeeps_ppar lo hi step (body : Z -> thr V unit) : (forall z, keeps (body z)) -> pkeeps (ppar_for lo hi step body).
Proof.
  intros H. unfold ppar_for. destruct (0 <? step); [|destruct (lo <? hi); exact I].
  cbn. split; auto. intros t Ht. apply in_map_iff in Ht. destruct Ht as (z & <- & _). auto.
Qed.

Lemma ptouches_ppar lo hi step (body : Z -> thr V unit) q : 0 < step -> 0 <= q -> lo + q * step < hi ->
  (forall z, keeps (body z)) -> touches (body (lo + q * step)) -> ptouches (ppar_for lo hi step body).
Proof.
  intros Hs Hq Hh Hk H. unfold ppar_for. destruct (Z.ltb_spec 0 step); [|lia].
  cbn. split.
  - intros t Ht. apply in_map_iff in Ht. destruct Ht as (z & <- & _). auto.
  - left. exists (body (lo + q * step)). split; auto. apply in_map.
    pose proof (in_zseq (loop_count lo hi step) lo step (Z.to_nat q)) as I. rewrite Z2Nat.id in I by auto.
    apply I. now apply count_lt.
Qed.

Lemma ptouches_ppar1 lo hi (body : Z -> thr V unit) z : lo <= z < hi ->
  (forall z, keeps (body z)) -> touches (body z) -> ptouches (ppar_for lo hi 1 body).
Proof.
  intros Hz Hk H. apply (ptouches_ppar lo hi 1 body (z - lo)); auto; try lia.
  now replace (lo + (z - lo) * 1) with z by lia.
Qed.

Lemma keeps_tfor_ne {S} lo hi inc (s : S) (f : Z -> S -> thr V S) :
  (forall z s, keeps (f z s)) -> keeps (tfor_ne lo hi inc s f).
Proof. intros H. unfold tfor_ne. destruct (_ && _); [now apply keeps_titer|exact I]. Qed.

(** loops that run in either direction *)
Lemma ptouches_pfor_ne {S} lo nb inc (s : S) (f : Z -> S -> prog V S) q : inc * inc = 1 -> 0 <= q < nb ->
  (forall z s, pkeeps (f z s)) ->
  (forall s, ptouches (f (lo + q * inc) s)) -> ptouches (pfor_ne lo (lo + nb * inc) inc s f).
Proof.
  intros Hi Hq Hk H. unfold pfor_ne. replace ((lo + nb * inc - lo) * inc) with nb by nia.
  replace ((0 <=? nb) && (inc * inc =? 1)) with true by (rewrite Hi; symmetry; cbn; lia).
  apply (ptouches_piter _ _ _ _ _ (Z.to_nat q)); [lia|auto|]. now rewrite Z2Nat.id by lia.
Qed.

End Touch.
