(** * A program whose objects are given other names. *)

From Coq Require Import ZArith List Bool Lia.
From Verif Require Import Lang Lang_facts ModelConvMain Spec SpecTop Alloc_facts Mult_facts.
Import ListNotations.
Open Scope Z_scope.

Section Rename.
Variable V : Type.
Variable s : buf -> buf.
Hypothesis inj : forall a b, s a = s b -> a = b.

Definition renm (m1 m : mem V) : Prop :=
  forall b, live m (s b) = live m1 b /\ forall i, dat m (s b) i = dat m1 b i.

Lemma sb b b' : buf_eqb (s b) (s b') = buf_eqb b b'.
Proof. destruct (buf_eqb_spec b b') as [E|H], (buf_eqb_spec (s b) (s b')) as [E'|H']; auto; [now subst|now apply inj in E']. Qed.

Lemma ld m1 m al b i : renm m1 m -> load m al (s b) i = load m1 al b i.
Proof. intros R. destruct (R b) as (E1 & E2). unfold load. now rewrite E1, E2. Qed.
Lemma cs m1 m b i : renm m1 m -> can_store m (s b) i = can_store m1 b i.
Proof. intros R. destruct (R b) as (E1 & E2). unfold can_store. now rewrite E1. Qed.
Lemma up m1 m b i v : renm m1 m -> renm (upd m1 b i v) (upd m (s b) i v).
Proof. intros R b'. destruct (R b') as (E1 & E2). split; [exact E1|]. intros j. cbn [upd dat]. now rewrite sb, E2. Qed.
Lemma al m1 m b n a init : renm m1 m -> renm (do_alloc m1 b n a init) (do_alloc m (s b) n a init).
Proof. intros R b'. destruct (R b') as (E1 & E2). cbn [do_alloc live dat]. split; [now rewrite sb, E1|]. intros j. now rewrite sb, E2. Qed.
Lemma fr m1 m b : renm m1 m -> renm (do_free m1 b) (do_free m (s b)).
Proof. intros R b'. destruct (R b') as (E1 & E2). cbn [do_free live dat]. split; [now rewrite sb, E1|]. intros j. now rewrite sb, E2. Qed.

Lemma ren_step ts m1 m s' : renm m1 m -> pstep (map (ren_thr s) ts, m) s' ->
  exists ts1 m1', pstep (ts, m1) (ts1, m1') /\ s' = (map (ren_thr s) ts1, snd s') /\ renm m1' (snd s').
Proof.
  intros HR H. inversion H as [ts1 t ts2 mm t' m' Hs E1 E2]; subst. clear H.
  symmetry in E1. apply map_eq_app in E1 as (us1 & us2 & -> & E1 & E2). apply map_eq_cons in E2 as (u & us3 & -> & E2 & E3). subst.
  destruct u as [r|a b i k|b i v k|]; cbn [ren_thr] in Hs; try (inversion Hs; fail).
  - inversion Hs; subst. exists (us1 ++ k v :: us3), m1. cbn [snd]. split; [constructor; constructor; rewrite <- (ld m1 m'); auto|].
    split; [now rewrite map_app|auto].
  - inversion Hs; subst. exists (us1 ++ k :: us3), (upd m1 b i v). cbn [snd]. split; [constructor; constructor; rewrite <- (cs m1 m); auto|].
    split; [now rewrite map_app|now apply up].
Qed.

Lemma ren_steps t t' : psteps t t' -> forall ts m1, t = (map (ren_thr s) ts, snd t) -> renm m1 (snd t) ->
  exists ts1 m1', psteps (ts, m1) (ts1, m1') /\ t' = (map (ren_thr s) ts1, snd t') /\ renm m1' (snd t').
Proof.
  induction 1 as [t|s1 s2 s3 H1 H2 IH]; intros ts m1 E HR.
  - exists ts, m1. split; [constructor|auto].
  - rewrite E in H1. destruct (ren_step ts m1 (snd s1) s2 HR H1) as (ts1 & m1' & Hs & E2 & HR2).
    destruct (IH ts1 m1' E2 HR2) as (ts3 & m3 & P1 & P2 & P3). exists ts3, m3. split; [econstructor; eauto|auto].
Qed.

Lemma ren_fault ts m1 m : renm m1 m -> pfault (map (ren_thr s) ts, m) -> pfault (ts, m1).
Proof.
  intros HR [(t & Ht & Hf)|(us1 & u1 & us2 & u2 & us3 & E & Hc)]; cbn [fst snd] in *.
  - apply in_map_iff in Ht as (u & <- & Ht). left. exists u. split; [auto|].
    destruct u as [r|a b i k|b i v k|]; cbn [ren_thr tfaulty snd] in *; auto.
    + now rewrite (ld m1 m) in Hf.
    + now rewrite (cs m1 m) in Hf.
  - apply map_eq_app in E as (x1 & x2 & -> & E1 & E2). apply map_eq_cons in E2 as (v1 & x3 & -> & E2 & E3).
    apply map_eq_app in E3 as (x4 & x5 & -> & E3 & E4). apply map_eq_cons in E4 as (v2 & x6 & -> & E4 & E5). subst.
    right. exists x1, v1, x4, v2, x6. split; [reflexivity|].
    destruct Hc as (w1 & w2 & b & i & N1 & N2 & W).
    assert (G : forall w (v : thr V unit), tnext (ren_thr s v) = Some (w, b, i) -> exists b', tnext v = Some (w, b', i) /\ s b' = b).
    { intros w v Nx. destruct v as [r|a b' i' k|b' i' v k|]; cbn in Nx; try discriminate; injection Nx as <- <- <-; exists b'; auto. }
    destruct (G w1 v1 N1) as (b1 & M1 & F1). destruct (G w2 v2 N2) as (b2 & M2 & F2).
    assert (b1 = b2) by (apply inj; congruence). subst b2. exists w1, w2, b1, i. auto.
Qed.

Lemma ren_exec {R} (P : prog V R) : forall m1 m o, renm m1 m -> pexec (ren_prog s P) m o ->
  exists o1, pexec P m1 o1 /\ match o1 with
    | Undef => o = Undef | Exited => o = Exited
    | Done r m1' => exists m', o = Done r m' /\ renm m1' m' end.
Proof.
  induction P as [r|ts k IH|b n a init k IH|b k IH| |]; intros m1 m o HR H; cbn [ren_prog] in *.
  - inversion H; subst. exists (Done r m1). split; [constructor|]. exists m. auto.
  - inversion H as [|ts0 k0 m0 ts' m' o' Hs Hd Hx|ts0 k0 m0 t Hs Hf| | | | | |]; subst.
    + destruct (ren_steps _ _ Hs ts m1 eq_refl HR) as (ts1 & m1' & P1 & P2 & P3). cbn [snd] in *. injection P2 as ->.
      destruct (IH m1' m' o P3 Hx) as (o1 & X1 & X2). exists o1. split; [|auto].
      eapply PE_par_ok; [exact P1| |exact X1]. intros t Ht. cbn [fst] in Ht.
      assert (E : ren_thr s t = TRet tt) by (apply Hd; cbn [fst]; now apply in_map).
      destruct t; cbn in E; try discriminate. now injection E as ->.
    + destruct (ren_steps _ _ Hs ts m1 eq_refl HR) as (ts1 & m1' & P1 & P2 & P3). exists Undef. split; [|reflexivity].
      eapply PE_par_ub; [exact P1|]. apply (ren_fault ts1 m1' (snd t)); auto. now rewrite <- P2.
  - inversion H as [| | |b0 n0 al0 i0 k0 m0 o0 H1 H2 Hx|b0 n0 al0 i0 k0 m0 H1| | | |]; subst; destruct (HR b) as (E1 & _).
    + destruct (IH _ _ _ (al m1 m b n a init HR) Hx) as (o1 & X1 & X2). exists o1. split; [apply PE_alloc; auto; congruence|auto].
    + exists Undef. split; [apply PE_alloc_ub; now rewrite <- E1|reflexivity].
  - inversion H as [| | | | |b0 k0 m0 o0 H1 Hx|b0 k0 m0 H1| |]; subst; destruct (HR b) as (E1 & _).
    + destruct (IH _ _ _ (fr m1 m b HR) Hx) as (o1 & X1 & X2). exists o1. split; [apply PE_free; auto; congruence|auto].
    + exists Undef. split; [apply PE_free_ub; congruence|reflexivity].
  - inversion H; subst. exists Undef. split; [constructor|reflexivity].
  - inversion H; subst. exists Exited. split; [constructor|reflexivity].
Qed.

Lemma pok_ren {R} (P : prog V R) m1 m (Q : R -> mem V -> Prop) : renm m1 m -> pok P m1 Q ->
  pok (ren_prog s P) m (fun r m' => exists m1', Q r m1' /\ renm m1' m').
Proof.
  intros HR (_ & H). split; [apply some_exec|]. intros o Ho.
  destruct (ren_exec P m1 m o HR Ho) as (o1 & X1 & X2). destruct (H o1 X1) as (r & m1' & -> & HQ).
  destruct X2 as (m' & -> & X3). exists r, m'. split; [auto|]. exists m1'. auto.
Qed.
End Rename.

Lemma swap_inj a b x y : swap a b x = swap a b y -> x = y.
Proof.
  unfold swap. repeat match goal with |- context [buf_eqb ?u ?v] => destruct (buf_eqb_spec u v) end; congruence.
Qed.
Lemma swap_swap a b x : swap a b (swap a b x) = x.
Proof.
  unfold swap. destruct (buf_eqb_spec a x) as [E|E].
  - destruct (buf_eqb_spec a b); [congruence|]. destruct (buf_eqb_spec b b); congruence.
  - destruct (buf_eqb_spec b x) as [E'|E'].
    + destruct (buf_eqb_spec a a); congruence.
    + destruct (buf_eqb_spec a x), (buf_eqb_spec b x); congruence.
Qed.
