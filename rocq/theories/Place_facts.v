(** * Matrices anywhere in the caller's memory: simulation. *)

From Coq Require Import ZArith List Bool Lia.
From Verif Require Import Lang Lang_facts Exec Exec_facts Spec SpecTop ModelKernel ModelPlace SpecPlace Alloc_facts.
Import ListNotations.
Open Scope Z_scope.

Local Transparent tfor tfor_ne pfor pfor_ne ppar_for tbind pbind pok.

Section Use.

Context {V : Type}.
Variables (rd wr : buf -> bool).

(** The caller's objects a program reads and writes are in rd and wr, and it neither creates nor
    destroys them. *)
Fixpoint tuses {R} (t : thr V R) : Prop :=
  match t with
  | TRet _ => True
  | TLoad al b i k => (callers b = true -> rd b = true /\ al = 1) /\ forall v, tuses (k v)
  | TStore b i v k => (callers b = true -> wr b = true) /\ tuses k
  | TFail => True
  end.

Fixpoint puses {R} (P : prog V R) : Prop :=
  match P with
  | PRet _ => True
  | PPar ts k => (forall t, In t ts -> tuses t) /\ puses k
  | PAlloc b _ _ _ k => callers b = false /\ puses k
  | PFree b k => callers b = false /\ puses k
  | PUB => True
  | PExit => True
  end.

Lemma tuses_bind {R R'} (t : thr V R) (f : R -> thr V R') : tuses t -> (forall r, tuses (f r)) -> tuses (tbind t f).
Proof. intros Ht Hf. induction t; cbn in *; intuition auto. Qed.

Lemma tuses_titer {S} n : forall z step (f : Z -> S -> thr V S) s, (forall z s, tuses (f z s)) -> tuses (titer n z step f s).
Proof. induction n; cbn; intros; auto. apply tuses_bind; auto. Qed.

Lemma tuses_tfor {S} lo hi step (s : S) (f : Z -> S -> thr V S) : (forall z s, tuses (f z s)) -> tuses (tfor lo hi step s f).
Proof. intros H. unfold tfor. destruct (0 <? step); [now apply tuses_titer|]. destruct (lo <? hi); exact I. Qed.

Lemma tuses_tfor_ne {S} lo hi inc (s : S) (f : Z -> S -> thr V S) : (forall z s, tuses (f z s)) -> tuses (tfor_ne lo hi inc s f).
Proof. intros H. unfold tfor_ne. destruct (_ && _); [now apply tuses_titer|exact I]. Qed.

Lemma puses_bind {R R'} (P : prog V R) (f : R -> prog V R') : puses P -> (forall r, puses (f r)) -> puses (pbind P f).
Proof. intros Ht Hf. induction P; cbn in *; intuition auto. Qed.

Lemma puses_piter {S} n : forall z step (f : Z -> S -> prog V S) s, (forall z s, puses (f z s)) -> puses (piter n z step f s).
Proof. induction n; cbn; intros; auto. apply puses_bind; auto. Qed.

Lemma puses_pfor {S} lo hi step (s : S) (f : Z -> S -> prog V S) : (forall z s, puses (f z s)) -> puses (pfor lo hi step s f).
Proof. intros H. unfold pfor. destruct (0 <? step); [now apply puses_piter|]. destruct (lo <? hi); exact I. Qed.

Lemma puses_pfor_ne {S} lo hi inc (s : S) (f : Z -> S -> prog V S) : (forall z s, puses (f z s)) -> puses (pfor_ne lo hi inc s f).
Proof. intros H. unfold pfor_ne. destruct (_ && _); [now apply puses_piter|exact I]. Qed.

Lemma puses_ppar lo hi step (body : Z -> thr V unit) : (forall z, tuses (body z)) -> puses (ppar_for lo hi step body).
Proof.
  intros H. unfold ppar_for. destruct (0 <? step); [|destruct (lo <? hi); exact I]. cbn. split; [|exact I].
  intros t Ht. apply in_map_iff in Ht as (z & <- & _). apply H.
Qed.

(** ** Simulation *)

Variables (pA pB pC : ptr).
Hypothesis HA : argument pA.
Hypothesis HB : argument pB.
Hypothesis HC : argument pC.
Notation pl := (arg pA pB pC).
Notation see := (seen pA pB pC).

Definition okr (b : buf) : Prop := callers b = true -> rd b = true.
Definition okw (b : buf) : Prop := callers b = true -> wr b = true.
Hypothesis wr_rd : forall b, okw b -> okr b.
Hypothesis apart : forall b b', callers b = true -> wr b = true -> callers b' = true -> rd b' = true ->
  fst (pl b) = fst (pl b') -> b = b'.

Definition Rel (m1 m : mem V) : Prop :=
  forall b, okr b -> live m1 b = live (see m) b /\ forall i, dat m1 b i = dat (see m) b i.

Definition frame (m m' : mem V) : Prop :=
  forall b, callers b = true -> live m' b = live m b /\
    forall i, (forall b', callers b' = true -> wr b' = true -> fst (pl b') <> b) -> dat m' b i = dat m b i.

Lemma frame_refl m : frame m m.
Proof. intros b _. split; auto. Qed.
Lemma frame_trans m m' m'' : frame m m' -> frame m' m'' -> frame m m''.
Proof. intros H1 H2 b Hb. destruct (H1 b Hb) as (A1 & A2), (H2 b Hb) as (B1 & B2). split; [congruence|]. intros i Hi. rewrite B2, A2; auto. Qed.

Lemma arg_caller b : callers b = true -> callers (fst (pl b)) = true /\ 0 <= snd (pl b).
Proof. destruct b; cbn; intros H; try discriminate; auto. Qed.
Lemma arg_own b : callers b = false -> pl b = (b, 0).
Proof. destruct b; cbn; intros H; try discriminate; auto. Qed.

Lemma sep b b' : okw b -> okr b' -> fst (pl b) = fst (pl b') -> b = b'.
Proof.
  intros Hw Hr E. destruct (callers b) eqn:Cb.
  - destruct (callers b') eqn:Cb'; [apply apart; auto; now apply Hw|].
    rewrite (arg_own b' Cb') in E. destruct (arg_caller b Cb) as (X & _). rewrite E in X. cbn in X. congruence.
  - rewrite (arg_own b Cb) in E. destruct (callers b') eqn:Cb'.
    + destruct (arg_caller b' Cb') as (X & _). rewrite <- E in X. cbn in X. congruence.
    + now rewrite (arg_own b' Cb') in E.
Qed.

Lemma load_sim m1 m al b i v : Rel m1 m -> okr b -> (callers b = true -> al = 1) ->
  load m1 al b i = Some v -> load m al (fst (pl b)) (snd (pl b) + i) = Some v.
Proof.
  intros HR Hb Hal. destruct (HR b Hb) as (E1 & E2). unfold load. rewrite E1, E2. cbn [seen live dat].
  destruct (callers b) eqn:Cb.
  - destruct (arg_caller b Cb) as (_ & Ho). rewrite (Hal eq_refl). destruct (live m (fst (pl b))) as [bi|]; [|discriminate].
    cbn [blen b64 aligned]. unfold aligned. cbn [Z.eqb orb]. rewrite !andb_true_r.
    destruct (Z.leb_spec 0 i); [|discriminate]. destruct (Z.ltb_spec i (blen bi - snd (pl b))); [|discriminate].
    destruct (Z.leb_spec 0 (snd (pl b) + i)); [|lia]. destruct (Z.ltb_spec (snd (pl b) + i) (blen bi)); [auto|lia].
  - rewrite (arg_own b Cb). cbn [fst snd]. rewrite Z.add_0_l. destruct (live m b) as [[n a]|]; [|discriminate].
    cbn [blen b64]. rewrite Z.sub_0_r. change (0 mod 16 =? 0) with true. rewrite andb_true_r. auto.
Qed.

Lemma store_sim m1 m b i : Rel m1 m -> okw b -> can_store m1 b i = true -> can_store m (fst (pl b)) (snd (pl b) + i) = true.
Proof.
  intros HR Hb. destruct (HR b (wr_rd b Hb)) as (E1 & E2). unfold can_store. rewrite E1. cbn [seen live].
  assert (Ho : 0 <= snd (pl b)).
  { destruct (callers b) eqn:Cb; [apply (arg_caller b Cb)|]. rewrite (arg_own b Cb). cbn. lia. }
  destruct (live m (fst (pl b))) as [bi|]; [|discriminate]. cbn [blen].
  destruct (Z.leb_spec 0 i); [|discriminate]. destruct (Z.ltb_spec i (blen bi - snd (pl b))); [|discriminate].
  intros _. apply andb_true_intro. split; [apply Z.leb_le|apply Z.ltb_lt]; lia.
Qed.

Lemma upd_sim m1 m b i v : Rel m1 m -> okw b -> Rel (upd m1 b i v) (upd m (fst (pl b)) (snd (pl b) + i) v).
Proof.
  intros HR Hb b' Hb'. destruct (HR b' Hb') as (E1 & E2). split; [exact E1|]. intros j. specialize (E2 j). cbn [upd seen dat] in *.
  destruct (buf_eqb_spec b b') as [->|Nb].
  - destruct (buf_eqb_spec (fst (pl b')) (fst (pl b'))); [|congruence]. cbn [andb].
    destruct (Z.eqb_spec i j) as [->|].
    + now rewrite Z.eqb_refl.
    + destruct (Z.eqb_spec (snd (pl b') + i) (snd (pl b') + j)); [lia|exact E2].
  - destruct (buf_eqb_spec (fst (pl b)) (fst (pl b'))) as [E|]; [|exact E2]. exfalso. apply Nb. now apply sep.
Qed.

Lemma upd_frame (m : mem V) b i v : okw b -> frame m (upd m (fst (pl b)) i v).
Proof.
  intros Hb b' Cb'. split; [reflexivity|]. intros j Hj. cbn [upd dat].
  destruct (buf_eqb_spec (fst (pl b)) b') as [E|]; [|reflexivity]. exfalso.
  destruct (callers b) eqn:Cb.
  - apply (Hj b Cb); auto.
  - rewrite (arg_own b Cb) in E. cbn in E. congruence.
Qed.

Lemma step_sim ts m1 m s' : Rel m1 m -> (forall t, In t ts -> tuses t) -> pstep (map (thr_at pl) ts, m) s' ->
  pfault (ts, m1) \/ exists ts1 m1', pstep (ts, m1) (ts1, m1') /\ s' = (map (thr_at pl) ts1, snd s') /\
    Rel m1' (snd s') /\ (forall t, In t ts1 -> tuses t) /\ frame m (snd s').
Proof.
  intros HR Hu H. inversion H as [ts1 t ts2 mm t' m' Hs E1 E2]; subst. clear H.
  symmetry in E1. apply map_eq_app in E1 as (us1 & us2 & -> & E1 & E2). apply map_eq_cons in E2 as (u & us3 & -> & E2 & E3). subst.
  assert (Hut : tuses u) by (apply Hu, in_or_app; right; now left).
  destruct u as [r|al b i k|b i v k|]; cbn [thr_at] in Hs; try (inversion Hs; fail).
  - cbn in Hut. destruct Hut as (Hb & Hk).
    destruct (load m1 al b i) as [v|] eqn:El.
    + right. assert (El' : load m al (fst (pl b)) (snd (pl b) + i) = Some v).
      { apply (load_sim m1); auto; [intros C; apply (Hb C)|intros C; apply (Hb C)]. }
      inversion Hs; subst. assert (v0 = v) by congruence. subst v0.
      exists (us1 ++ k v :: us3), m1. cbn [snd]. split; [|split; [|split; [auto|split; [|apply frame_refl]]]].
      * constructor. now constructor.
      * now rewrite map_app.
      * intros t Ht. apply in_app_or in Ht as [Ht|[<-|Ht]]; [apply Hu, in_or_app; auto|auto|apply Hu, in_or_app; right; now right].
    + left. left. exists (TLoad al b i k). split; [apply in_or_app; right; now left|exact El].
  - cbn in Hut. destruct Hut as (Hb & Hk).
    destruct (can_store m1 b i) eqn:El.
    + right. inversion Hs; subst.
      exists (us1 ++ k :: us3), (upd m1 b i v). cbn [snd]. split; [|split; [|split; [now apply upd_sim|split; [|now apply upd_frame]]]].
      * constructor. now constructor.
      * now rewrite map_app.
      * intros t Ht. apply in_app_or in Ht as [Ht|[<-|Ht]]; [apply Hu, in_or_app; auto|auto|apply Hu, in_or_app; right; now right].
    + left. left. exists (TStore b i v k). split; [apply in_or_app; right; now left|exact El].
Qed.

Lemma steps_sim s s' : psteps s s' -> forall ts m1, s = (map (thr_at pl) ts, snd s) -> Rel m1 (snd s) -> (forall t, In t ts -> tuses t) ->
  (exists s1, psteps (ts, m1) s1 /\ pfault s1) \/
  exists ts1 m1', psteps (ts, m1) (ts1, m1') /\ s' = (map (thr_at pl) ts1, snd s') /\
    Rel m1' (snd s') /\ (forall t, In t ts1 -> tuses t) /\ frame (snd s) (snd s').
Proof.
  induction 1 as [s|s1 s2 s3 H1 H2 IH]; intros ts m1 E HR Hu.
  - right. exists ts, m1. split; [constructor|]. split; [auto|]. split; [auto|]. split; [auto|apply frame_refl].
  - rewrite E in H1. destruct (step_sim ts m1 (snd s1) s2 HR Hu H1) as [Hf|(ts1 & m1' & Hs & E2 & HR2 & Hu2 & Hf2)].
    + left. exists (ts, m1). split; [constructor|auto].
    + destruct (IH ts1 m1' E2 HR2 Hu2) as [(sx & P1 & P2)|(ts3 & m3 & P1 & P2 & P3 & P4 & P5)].
      * left. exists sx. split; [|auto]. econstructor; eauto.
      * right. exists ts3, m3. split; [econstructor; eauto|]. split; [auto|]. split; [auto|]. split; [auto|]. eapply frame_trans; eauto.
Qed.

Lemma fault_sim ts m1 m : Rel m1 m -> (forall t, In t ts -> tuses t) -> pfault (map (thr_at pl) ts, m) -> pfault (ts, m1).
Proof.
  intros HR Hu [(t & Ht & Hf)|(us1 & u1 & us2 & u2 & us3 & E & Hc)]; cbn [fst snd] in *.
  - apply in_map_iff in Ht as (u & <- & Ht). left. exists u. split; [auto|]. specialize (Hu u Ht).
    destruct u as [r|al b i k|b i v k|]; cbn [thr_at tfaulty snd] in *; auto.
    + destruct (load m1 al b i) as [v|] eqn:El; auto. destruct Hu as (Hb & _).
      rewrite (load_sim m1 m al b i v) in Hf; auto; try discriminate; intros C; apply (Hb C).
    + destruct (can_store m1 b i) eqn:El; auto. destruct Hu as (Hb & _). rewrite (store_sim m1 m b i) in Hf; auto.
  - apply map_eq_app in E as (x1 & x2 & -> & E1 & E2). apply map_eq_cons in E2 as (v1 & x3 & -> & E2 & E3).
    apply map_eq_app in E3 as (x4 & x5 & -> & E3 & E4). apply map_eq_cons in E4 as (v2 & x6 & -> & E4 & E5). subst.
    right. exists x1, v1, x4, v2, x6. split; [reflexivity|].
    assert (U1 : tuses v1) by (apply Hu, in_or_app; right; now left).
    assert (U2 : tuses v2) by (apply Hu, in_or_app; right; right; apply in_or_app; right; now left).
    destruct Hc as (w1 & w2 & b & i & N1 & N2 & W).
    assert (G : forall w v, tuses v -> tnext (thr_at pl v) = Some (w, b, i) ->
       exists b' i', tnext v = Some (w, b', i') /\ fst (pl b') = b /\ snd (pl b') + i' = i /\ okr b' /\ (w = true -> okw b')).
    { intros w v U Nx. destruct v as [r|al b' i' k|b' i' v k|]; cbn in Nx; try discriminate; injection Nx as <- <- <-.
      - exists b', i'. cbn in U. destruct U as (U & _). repeat split; auto; [intros C; apply (U C)|discriminate].
      - exists b', i'. cbn in U. destruct U as (U & _). repeat split; auto. }
    destruct (G w1 v1 U1 N1) as (b1 & i1 & M1 & F1 & S1 & O1 & W1).
    destruct (G w2 v2 U2 N2) as (b2 & i2 & M2 & F2 & S2 & O2 & W2).
    assert (Eb : b1 = b2).
    { destruct w1; [apply sep; auto; congruence|]. destruct w2; [|discriminate]. symmetry. apply sep; auto; congruence. }
    subst b2. assert (i1 = i2) by lia. subst i2. exists w1, w2, b1, i1. auto.
Qed.

Lemma alloc_sim m1 m b n al (init : option V) : callers b = false -> Rel m1 m -> Rel (do_alloc m1 b n al init) (do_alloc m b n al init).
Proof.
  intros Cb HR b' Hb'. destruct (HR b' Hb') as (E1 & E2). cbn [do_alloc seen live dat] in *.
  destruct (buf_eqb_spec b b') as [->|Nb].
  - rewrite (arg_own b' Cb). cbn [fst snd]. destruct (buf_eqb_spec b' b'); [|congruence].
    cbn [blen b64]. rewrite Z.sub_0_r. change (0 mod 16 =? 0) with true. rewrite andb_true_r. auto.
  - assert (fst (pl b') <> b).
    { destruct (callers b') eqn:Cb'; [destruct (arg_caller b' Cb'); congruence|]. rewrite (arg_own b' Cb'). cbn. congruence. }
    destruct (buf_eqb_spec b (fst (pl b'))); [congruence|]. auto.
Qed.

Lemma free_sim m1 m b : callers b = false -> Rel m1 m -> Rel (do_free m1 b) (do_free m b).
Proof.
  intros Cb HR b' Hb'. destruct (HR b' Hb') as (E1 & E2). cbn [do_free seen live dat] in *.
  destruct (buf_eqb_spec b b') as [->|Nb].
  - rewrite (arg_own b' Cb). cbn [fst snd]. destruct (buf_eqb_spec b' b'); [|congruence]. auto.
  - assert (fst (pl b') <> b).
    { destruct (callers b') eqn:Cb'; [destruct (arg_caller b' Cb'); congruence|]. rewrite (arg_own b' Cb'). cbn. congruence. }
    destruct (buf_eqb_spec b (fst (pl b'))); [congruence|]. auto.
Qed.

Lemma own_live m1 m b : callers b = false -> Rel m1 m -> live m1 b = live m b.
Proof.
  intros Cb HR. destruct (HR b) as (E & _); [intros C; congruence|]. rewrite E. cbn [seen live]. rewrite (arg_own b Cb). cbn [fst snd].
  destruct (live m b) as [[n a]|]; [|auto]. cbn [blen b64]. rewrite Z.sub_0_r. change (0 mod 16 =? 0) with true. now rewrite andb_true_r.
Qed.

Lemma exec_sim {R} (P : prog V R) : forall m1 m o, Rel m1 m -> puses P -> pexec (call_at pl P) m o ->
  exists o1, pexec P m1 o1 /\ match o1 with
    | Undef => True
    | Exited => o = Exited
    | Done r m1' => exists m', o = Done r m' /\ Rel m1' m' /\ frame m m'
    end.
Proof.
  induction P as [r|ts k IH|b n al init k IH|b k IH| |]; intros m1 m o HR Hu H; cbn [call_at puses] in *.
  - inversion H; subst. exists (Done r m1). split; [constructor|]. exists m. split; [auto|split; [auto|apply frame_refl]].
  - destruct Hu as (Hu & Hk). inversion H as [|ts0 k0 m0 ts' m' o' Hs Hd Hx|ts0 k0 m0 s Hs Hf| | | | | |]; subst.
    + destruct (steps_sim _ _ Hs ts m1 eq_refl HR Hu) as [(s1 & P1 & P2)|(ts1 & m1' & P1 & P2 & P3 & P4 & P5)].
      * exists Undef. split; [eapply PE_par_ub; eauto|exact I].
      * cbn [snd] in *. injection P2 as ->.
        destruct (IH m1' m' o P3 Hk Hx) as (o1 & X1 & X2). exists o1. split.
        { eapply PE_par_ok; [exact P1| |exact X1]. intros t Ht. cbn [fst] in Ht.
          assert (E : thr_at pl t = TRet tt) by (apply Hd; cbn [fst]; now apply in_map).
          destruct t; cbn in E; try discriminate. now injection E as ->. }
        destruct o1; auto. destruct X2 as (m2 & -> & X3 & X4). exists m2. split; [auto|split; [auto|]]. eapply frame_trans; eauto.
    + exists Undef. split; [|exact I].
      destruct (steps_sim _ _ Hs ts m1 eq_refl HR Hu) as [(s1 & P1 & P2)|(ts1 & m1' & P1 & P2 & P3 & P4 & P5)].
      * eapply PE_par_ub; eauto.
      * eapply PE_par_ub; [exact P1|]. eapply (fault_sim ts1 m1' (snd s)); auto. now rewrite <- P2.
  - destruct Hu as (Cb & Hk). inversion H as [| | |b0 n0 al0 i0 k0 m0 o0 H1 H2 Hx|b0 n0 al0 i0 k0 m0 H1| | | |]; subst.
    + destruct (IH _ _ _ (alloc_sim m1 m b n al init Cb HR) Hk Hx) as (o1 & X1 & X2). exists o1. split.
      * apply PE_alloc; auto. now rewrite (own_live m1 m b).
      * destruct o1; auto. destruct X2 as (m2 & -> & X3 & X4). exists m2. split; [auto|split; [auto|]].
        eapply frame_trans; [|exact X4]. intros b' Cb'. cbn [do_alloc live dat].
        destruct (buf_eqb_spec b b'); [congruence|auto].
    + exists Undef. split; [|exact I]. apply PE_alloc_ub. now rewrite (own_live m1 m b).
  - destruct Hu as (Cb & Hk). inversion H as [| | | | |b0 k0 m0 o0 H1 Hx|b0 k0 m0 H1| |]; subst.
    + destruct (IH _ _ _ (free_sim m1 m b Cb HR) Hk Hx) as (o1 & X1 & X2). exists o1. split.
      * apply PE_free; auto. now rewrite (own_live m1 m b).
      * destruct o1; auto. destruct X2 as (m2 & -> & X3 & X4). exists m2. split; [auto|split; [auto|]].
        eapply frame_trans; [|exact X4]. intros b' Cb'. cbn [do_free live dat].
        destruct (buf_eqb_spec b b'); [congruence|auto].
    + exists Undef. split; [|exact I]. apply PE_free_ub. now rewrite (own_live m1 m b).
  - inversion H; subst. exists Undef. split; [constructor|exact I].
  - inversion H; subst. exists Exited. split; [constructor|auto].
Qed.

Lemma pok_sim {R} (P : prog V R) m1 m (Q : R -> mem V -> Prop) : Rel m1 m -> puses P -> pok P m1 Q ->
  pok (call_at pl P) m (fun r m' => exists m1', Q r m1' /\ pexec P m1 (Done r m1') /\ Rel m1' m' /\ frame m m').
Proof.
  intros HR Hu (_ & H). split; [apply some_exec|]. intros o Ho.
  destruct (exec_sim P m1 m o HR Hu Ho) as (o1 & X1 & X2). destruct (H o1 X1) as (r & m1' & -> & HQ).
  destruct X2 as (m' & -> & X3 & X4). exists r, m'. split; [auto|]. exists m1'. auto.
Qed.

End Use.

Lemma call_at_bind {V R R'} pl (P : prog V R) (f : R -> prog V R') :
  call_at pl (pbind P f) = pbind (call_at pl P) (fun r => call_at pl (f r)).
Proof. induction P; cbn; auto; now rewrite IHP. Qed.

Lemma pok_bind_inv {V R R'} (P : prog V R) (f : R -> prog V R') (m : mem V) Q : pok (pbind P f) m Q ->
  pok P m (fun _ _ => True) /\ forall r m', pexec P m (Done r m') -> pok (f r) m' Q.
Proof.
  intros ((o0 & H0) & H). split.
  - split.
    + apply pexec_bind in H0 as [(r & m1 & H1 & _)|[(_ & H1)|(_ & H1)]]; eauto.
    + intros o Ho. destruct o as [r m'| |].
      * eauto.
      * destruct (H Undef) as (? & ? & ? & _); [|discriminate]. apply pexec_bind. auto.
      * destruct (H Exited) as (? & ? & ? & _); [|discriminate]. apply pexec_bind. auto.
  - intros r m' Hr. split; [apply some_exec|]. intros o Ho. apply H. apply pexec_bind. left. eauto.
Qed.
