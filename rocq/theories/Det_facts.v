(** * A program without undefined behaviour has one result. *)

From Coq Require Import ZArith List Bool Lia.
From Verif Require Import Lang Lang_facts.
Import ListNotations.
Open Scope Z_scope.

Section Det.

Context {V : Type}.
Notation mem := (mem V).

Lemma buf_eqb_sym x y : buf_eqb x y = buf_eqb y x.
Proof. destruct (buf_eqb_spec x y) as [H|H], (buf_eqb_spec y x); congruence. Qed.

Definition meq (m m' : mem) : Prop :=
  (forall b, live m b = live m' b) /\ (forall b i, dat m b i = dat m' b i).

Lemma meq_refl m : meq m m. Proof. split; auto. Qed.
Lemma meq_sym m m' : meq m m' -> meq m' m. Proof. intros (H1 & H2). split; auto. Qed.
Lemma meq_trans m1 m2 m3 : meq m1 m2 -> meq m2 m3 -> meq m1 m3.
Proof. intros (H1 & H2) (H3 & H4). split; intros; [rewrite H1|rewrite H2]; auto. Qed.

Lemma load_meq m m' al b i : meq m m' -> load m al b i = load m' al b i.
Proof. intros (H1 & H2). unfold load. rewrite H1, H2. auto. Qed.
Lemma can_store_meq m m' b i : meq m m' -> can_store m b i = can_store m' b i.
Proof. intros (H1 & H2). unfold can_store. now rewrite H1. Qed.
Lemma upd_meq m m' b i v : meq m m' -> meq (upd m b i v) (upd m' b i v).
Proof. intros (H1 & H2). split; cbn; intros; [auto|]. now rewrite H2. Qed.

Lemma tstep_meq (t : thr V unit) m t' m' m1 : tstep t m t' m' -> meq m m1 ->
  exists m1', tstep t m1 t' m1' /\ meq m' m1'.
Proof.
  intros H E. destruct H as [al b i k v m L|b i v k m L].
  - exists m1. split; auto. constructor. now rewrite <- (load_meq m m1).
  - exists (upd m1 b i v). split; [|now apply upd_meq]. constructor. now rewrite <- (can_store_meq m m1).
Qed.

Lemma tstep_det (t : thr V unit) m t1 m1 t2 m2 : tstep t m t1 m1 -> tstep t m t2 m2 -> t1 = t2 /\ m1 = m2.
Proof. intros H1 H2. destruct H1; inversion H2; subst; auto. split; congruence. Qed.

(** two threads that do not conflict can step in either order *)
Lemma tstep_comm (t u : thr V unit) m t1 m1 u2 m2 :
  tstep t m t1 m1 -> tstep u m u2 m2 -> ~ conflict t u ->
  exists m3 m4, tstep u m1 u2 m3 /\ tstep t m2 t1 m4 /\ meq m3 m4.
Proof.
  intros H1 H2 Hn.
  assert (NE : forall w1 w2 b i b' i', tnext t = Some (w1, b, i) -> tnext u = Some (w2, b', i') ->
             w1 || w2 = true -> buf_eqb b b' && (i =? i') = false).
  { intros w1 w2 b i b' i' E1 E2 W. destruct (buf_eqb_spec b b') as [<-|_]; [|auto].
    destruct (Z.eqb_spec i i') as [<-|_]; [|auto]. exfalso. apply Hn. unfold conflict. eauto 10. }
  destruct H1 as [al b i k v m L|b i v k m L]; inversion H2; subst.
  - exists m2, m2. repeat split; constructor; auto.
  - exists (upd m b0 i0 v0), (upd m b0 i0 v0). split; [constructor; auto|split; [|apply meq_refl]].
    specialize (NE _ _ _ _ _ _ eq_refl eq_refl eq_refl).
    constructor. rewrite <- L. unfold load. cbn. destruct (live m b); [|auto].
    rewrite buf_eqb_sym, Z.eqb_sym, NE. auto.
  - exists (upd m2 b i v), (upd m2 b i v). split; [|split; [constructor; auto|apply meq_refl]].
    specialize (NE _ _ _ _ _ _ eq_refl eq_refl eq_refl).
    constructor. rewrite <- H. unfold load. cbn. destruct (live m2 b0); [|auto]. now rewrite NE.
  - exists (upd (upd m b i v) b0 i0 v0), (upd (upd m b0 i0 v0) b i v).
    split; [constructor; exact H|split; [constructor; exact L|]].
    specialize (NE _ _ _ _ _ _ eq_refl eq_refl eq_refl).
    split; cbn; [auto|]. intros b' i'.
    destruct (buf_eqb_spec b b') as [E0|]; destruct (buf_eqb_spec b0 b') as [E|]; cbn; auto.
    subst. rewrite buf_eqb_refl in NE. cbn in NE.
    destruct (Z.eqb_spec i i'), (Z.eqb_spec i0 i'); auto; lia.
Qed.

(** steps counted *)
Inductive nsteps : nat -> pstate V -> pstate V -> Prop :=
| ns_0 s : nsteps 0 s s
| ns_S n s1 s2 s3 : pstep s1 s2 -> nsteps n s2 s3 -> nsteps (S n) s1 s3.

Lemma psteps_n (s s' : pstate V) : psteps s s' -> exists n, nsteps n s s'.
Proof. induction 1 as [s|s1 s2 s3 H _ (n & IH)]; [exists 0%nat; constructor|exists (S n); econstructor; eauto]. Qed.
Lemma nsteps_p n s s' : nsteps n s s' -> psteps s s'.
Proof. induction 1; [constructor|econstructor; eauto]. Qed.

Definition seq_ (s s' : pstate V) : Prop := fst s = fst s' /\ meq (snd s) (snd s').

Lemma pstep_meq (s1 s2 s1' : pstate V) : pstep s1 s2 -> seq_ s1 s1' -> exists s2', pstep s1' s2' /\ seq_ s2 s2'.
Proof.
  intros H (E1 & E2). destruct H as [a t b m t' m' H]. destruct s1' as [ts m1]. cbn in *. subst ts.
  destruct (tstep_meq _ _ _ _ _ H E2) as (m1' & H1 & H2).
  exists (a ++ t' :: b, m1'). split; [constructor; auto|split; auto].
Qed.

Lemma nsteps_meq n s1 s2 : nsteps n s1 s2 -> forall s1', seq_ s1 s1' -> exists s2', nsteps n s1' s2' /\ seq_ s2 s2'.
Proof.
  induction 1 as [s|n s1 s2 s3 H _ IH]; intros s1' E.
  - exists s1'. split; [constructor|auto].
  - destruct (pstep_meq _ _ _ H E) as (s2' & H1 & H2). destruct (IH _ H2) as (s3' & H3 & H4).
    exists s3'. split; auto. econstructor; eauto.
Qed.

Lemma seq_trans s1 s2 s3 : seq_ s1 s2 -> seq_ s2 s3 -> seq_ s1 s3.
Proof. intros (A & B) (C & D). split; [congruence|eapply meq_trans; eauto]. Qed.
Lemma seq_sym s1 s2 : seq_ s1 s2 -> seq_ s2 s1.
Proof. intros (A & B). split; [congruence|apply meq_sym; auto]. Qed.
Lemma seq_refl s : seq_ s s.
Proof. split; [auto|apply meq_refl]. Qed.

(** the two places of one list are the same, or one is before the other *)
Lemma split_cases {A} (a : list A) x b c y d : a ++ x :: b = c ++ y :: d ->
  (a = c /\ x = y /\ b = d) \/
  (exists e, c = a ++ x :: e /\ b = e ++ y :: d) \/
  (exists e, a = c ++ y :: e /\ d = e ++ x :: b).
Proof.
  revert c. induction a as [|z a IH]; intros [|w c] E; cbn in *.
  - injection E as <- <-. auto.
  - injection E as <- E. right; left. exists c. auto.
  - injection E as <- E. right; right. exists a. auto.
  - injection E as <- E. destruct (IH c E) as [(-> & -> & ->)|[(e & -> & ->)|(e & -> & ->)]]; eauto 10.
Qed.

Lemma diamond (s s1 s2 : pstate V) : pstep s s1 -> pstep s s2 -> ~ pfault s ->
  s1 = s2 \/ exists s3 s4, pstep s1 s3 /\ pstep s2 s4 /\ seq_ s3 s4.
Proof.
  intros H1 H2 Hf. destruct H1 as [a t b m t1 m1 H1].
  remember (a ++ t :: b, m) as s eqn:Es. destruct H2 as [c u d m' u2 m2 H2].
  injection Es as E <-. symmetry in E.
  destruct (split_cases _ _ _ _ _ _ E) as [(-> & -> & ->)|[(e & -> & ->)|(e & -> & ->)]].
  - left. destruct (tstep_det _ _ _ _ _ _ H1 H2) as (-> & ->). auto.
  - right. destruct (tstep_comm _ _ _ _ _ _ _ H1 H2) as (m3 & m4 & H3 & H4 & H5).
    { intros Hc. apply Hf. right. exists a, t, e, u, d. cbn. rewrite <- app_assoc. auto. }
    exists (a ++ t1 :: e ++ u2 :: d, m3), (a ++ t1 :: e ++ u2 :: d, m4). split; [|split; [|split; auto]].
    + rewrite (app_comm_cons _ (u :: d)), app_assoc. rewrite (app_comm_cons _ (u2 :: d)), app_assoc. constructor. auto.
    + rewrite <- app_assoc. cbn. constructor. auto.
  - right. destruct (tstep_comm _ _ _ _ _ _ _ H2 H1) as (m3 & m4 & H3 & H4 & H5).
    { intros Hc. apply Hf. right. exists c, u, e, t, b. cbn. auto. }
    exists (c ++ u2 :: e ++ t1 :: b, m4), (c ++ u2 :: e ++ t1 :: b, m3). split; [|split; [|split; [auto|apply meq_sym; auto]]].
    + rewrite <- app_assoc. cbn. constructor. auto.
    + rewrite (app_comm_cons _ (t :: b)), app_assoc. rewrite (app_comm_cons _ (t1 :: b)), app_assoc. constructor. auto.
Qed.

Definition safe (s : pstate V) : Prop := forall s', psteps s s' -> ~ pfault s'.

Lemma safe_step s s1 : safe s -> pstep s s1 -> safe s1.
Proof. intros H H1 s' H2. apply H. econstructor; eauto. Qed.

Lemma done_nostep (s s1 : pstate V) : pdone s -> pstep s s1 -> False.
Proof.
  intros Hd H. destruct H as [a t b m t' m' H].
  assert (t = TRet tt) by (apply Hd; cbn; apply in_elt). subst. inversion H.
Qed.

Lemma strip n : forall s s1 z, safe s -> nsteps n s z -> pdone z -> pstep s s1 ->
  exists z', nsteps (pred n) s1 z' /\ seq_ z z'.
Proof.
  induction n as [|n IH]; intros s s1 z Hs Hn Hd H1.
  - inversion Hn; subst. exfalso. eapply done_nostep; eauto.
  - inversion Hn as [|n' s0 s2 s3 H2 H3]; subst. cbn.
    destruct (diamond s s1 s2 H1 H2) as [<-|(s3 & s4 & H4 & H5 & E)].
    { apply Hs. constructor. }
    + exists z. split; auto. apply seq_refl.
    + destruct (IH s2 s4 z) as (z' & Hz & Ez); auto. { eapply safe_step; eauto. }
      destruct n as [|n].
      { inversion H3; subst. exfalso. eapply done_nostep; eauto. }
      cbn in Hz. destruct (nsteps_meq _ _ _ Hz s3 (seq_sym _ _ E)) as (z'' & Hz' & Ez').
      exists z''. split; [econstructor; eauto|eapply seq_trans; eauto].
Qed.

Lemma seq_done s s' : seq_ s s' -> pdone s -> pdone s'.
Proof. intros (E & _) H. unfold pdone in *. now rewrite <- E. Qed.

Lemma region_det n : forall s z k z', safe s -> nsteps n s z -> pdone z -> nsteps k s z' -> pdone z' -> seq_ z z'.
Proof.
  induction n as [|n IH]; intros s z k z' Hs Hn Hd Hk Hd'.
  - inversion Hn; subst. inversion Hk as [|k1 s1 s2 s3 H2 H3]; subst; [apply seq_refl|]. destruct (done_nostep _ _ Hd H2).
  - inversion Hn as [|n' s0 s2 s3 H2 H3]; subst.
    destruct (strip k s s2 z' Hs Hk Hd' H2) as (z'' & Hz & Ez).
    apply seq_trans with z''; [|apply seq_sym; auto].
    eapply IH; [eapply safe_step; eauto|exact H3|exact Hd|exact Hz|eapply seq_done; eauto].
Qed.

Definition oeq {R} (o o' : outcome V R) : Prop :=
  match o, o' with
  | Done r m, Done r' m' => r = r' /\ meq m m'
  | Undef, Undef | Exited, Exited => True
  | _, _ => False
  end.

Lemma pexec_meq {R} (P : prog V R) m o : pexec P m o -> forall m1, meq m m1 -> exists o', pexec P m1 o' /\ oeq o o'.
Proof.
  induction 1 as [r m|ts k m ts' m' o Hp Hd _ IH|ts k m s Hp Hf|b n al init k m o Hn Hl _ IH|b n al init k m Hor
                 |b k m o Hl _ IH|b k m Hl|m|m]; intros m1 E; pose proof E as (E1 & E2).
  - exists (Done r m1). split; [constructor|split; auto].
  - destruct (psteps_n _ _ Hp) as (j & Hj).
    destruct (nsteps_meq _ _ _ Hj (ts, m1)) as ([ts2 m2] & H1 & H2). { split; auto. }
    destruct (IH m2 (proj2 H2)) as (o' & H3 & H4). exists o'. split; auto.
    eapply PE_par_ok; [eapply nsteps_p; eauto| |exact H3]. eapply seq_done; eauto.
  - destruct (psteps_n _ _ Hp) as (j & Hj).
    destruct (nsteps_meq _ _ _ Hj (ts, m1)) as (s2 & H1 & H2). { split; auto. }
    exists Undef. split; [|exact I]. eapply PE_par_ub; [eapply nsteps_p; eauto|].
    destruct H2 as (G1 & G2). destruct Hf as [(t & Ht & Hf)|(a & t1 & b & t2 & c & Hf & Hc)].
    + left. exists t. rewrite <- G1. split; auto.
      destruct t; cbn in *; auto; [now rewrite <- (load_meq _ _ _ _ _ G2)|now rewrite <- (can_store_meq _ _ _ _ G2)].
    + right. exists a, t1, b, t2, c. rewrite <- G1. auto.
  - destruct (IH (do_alloc m1 b n al init)) as (o' & H1 & H2).
    { split; cbn; intros; [now rewrite E1|now rewrite E2]. }
    exists o'. split; auto. apply PE_alloc; auto. now rewrite <- E1.
  - exists Undef. split; [|exact I]. apply PE_alloc_ub. now rewrite <- E1.
  - destruct (IH (do_free m1 b)) as (o' & H1 & H2).
    { split; cbn; intros; [now rewrite E1|now rewrite E2]. }
    exists o'. split; auto. apply PE_free; auto. now rewrite <- E1.
  - exists Undef. split; [|exact I]. apply PE_free_ub. now rewrite <- E1.
  - exists Undef. split; [constructor|exact I].
  - exists Exited. split; [constructor|exact I].
Qed.

Lemma oeq_sym {R} (o o' : outcome V R) : oeq o o' -> oeq o' o.
Proof. destruct o, o'; cbn; auto. intros (-> & H). split; auto. now apply meq_sym. Qed.
Lemma oeq_trans {R} (o1 o2 o3 : outcome V R) : oeq o1 o2 -> oeq o2 o3 -> oeq o1 o3.
Proof. destruct o1, o2, o3; cbn; try tauto. intros (-> & H) (-> & H'). split; auto. eapply meq_trans; eauto. Qed.

Theorem no_ub_deterministic {R} (P : prog V R) : forall m o1 o2, ~ pexec P m Undef ->
  pexec P m o1 -> pexec P m o2 -> oeq o1 o2.
Proof.
  induction P as [r|ts k IH|b n al init k IH|b k IH| |]; intros m o1 o2 Hn H1 H2.
  - inversion H1; subst. inversion H2; subst. split; auto. apply meq_refl.
  - assert (Hs : safe (ts, m)) by (intros s' Hp Hf; apply Hn; eapply PE_par_ub; eauto).
    inversion H1 as [|? ? ? ts1 m1 ? P1 D1 X1|? ? ? ? P1 F1| | | | | |]; subst; [|exfalso; eapply Hs; eauto].
    inversion H2 as [|? ? ? ts2 m2 ? P2 D2 X2|? ? ? ? P2 F2| | | | | |]; subst; [|exfalso; eapply Hs; eauto].
    destruct (psteps_n _ _ P1) as (n1 & N1). destruct (psteps_n _ _ P2) as (n2 & N2).
    destruct (region_det _ _ _ _ _ Hs N1 D1 N2 D2) as (_ & E). cbn in E.
    destruct (pexec_meq _ _ _ X2 m1 (meq_sym _ _ E)) as (o2' & X2' & E2).
    apply oeq_trans with o2'; [|apply oeq_sym; auto].
    apply (IH m1); auto. intros Hu. apply Hn. exact (PE_par_ok ts k m ts1 m1 Undef P1 D1 Hu).
  - inversion H1; subst; [|exfalso; apply Hn; auto].
    inversion H2; subst; [|exfalso; apply Hn; auto].
    eapply IH; [|eassumption|eassumption]. intros Hu. apply Hn. apply PE_alloc; auto.
  - inversion H1; subst; [|exfalso; apply Hn; auto].
    inversion H2; subst; [|exfalso; apply Hn; auto].
    eapply IH; [|eassumption|eassumption]. intros Hu. apply Hn. apply PE_free; auto.
  - exfalso. apply Hn. constructor.
  - inversion H1; inversion H2; subst. exact I.
Qed.

End Det.
