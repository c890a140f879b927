(** * Matrices anywhere in the caller's memory: simulation, with the extent of each matrix.

    As Place_facts, with an array of [len b] elements at each pointer.  Only accesses inside these
    arrays are related, so the arrays may be in one object as long as they do not overlap. *)

From Coq Require Import ZArith List Bool Lia.
From Verif Require Import Lang Lang_facts Exec Exec_facts Spec SpecTop ModelKernel ModelPlace SpecPlace Alloc_facts Place_facts.
Import ListNotations.
Open Scope Z_scope.

Local Transparent tfor tfor_ne pfor pfor_ne ppar_for tbind pbind pok.

(** the memory with three arrays of the given lengths *)
Definition cut {V} (len : buf -> Z) (pA pB pC : ptr) (m : mem V) : mem V :=
  Mem (fun b => if callers b then Some (BInfo (len b) false) else live m b)
      (fun b i => dat m (fst (arg pA pB pC b)) (snd (arg pA pB pC b) + i)).

Section Cut.

Context {V : Type}.
Variables (rd wr : buf -> bool) (len : buf -> Z).
Notation tuses := (@tuses V rd wr _).
Notation puses := (@puses V rd wr _).

(** ** Simulation *)

Variables (pA pB pC : ptr).
Hypothesis HA : argument pA.
Hypothesis HB : argument pB.
Hypothesis HC : argument pC.
Notation pl := (arg pA pB pC).

Notation okr := (okr rd).
Notation okw := (okw wr).
Hypothesis wr_rd : forall b, okw b -> okr b.
Hypothesis apart : forall b b', callers b = true -> wr b = true -> callers b' = true -> rd b' = true ->
  fst (pl b) = fst (pl b') -> b = b' \/ snd (pl b) + len b <= snd (pl b') \/ snd (pl b') + len b' <= snd (pl b).

Definition crel (m1 m : mem V) : Prop :=
  (forall b, callers b = false -> live m1 b = live m b /\ forall i, dat m1 b i = dat m b i) /\
  (forall b, callers b = true -> rd b = true ->
     (exists b1 bi, live m1 b = Some b1 /\ blen b1 = len b /\ live m (fst (pl b)) = Some bi /\ snd (pl b) + len b <= blen bi) /\
     forall i, 0 <= i < len b -> dat m1 b i = dat m (fst (pl b)) (snd (pl b) + i)).
Notation Rel := crel.

Definition cframe (m m' : mem V) : Prop :=
  forall b, callers b = true -> live m' b = live m b /\
    forall i, (forall b', callers b' = true -> wr b' = true -> ~ (fst (pl b') = b /\ snd (pl b') <= i < snd (pl b') + len b')) ->
      dat m' b i = dat m b i.
Notation frame := cframe.

Lemma frame_refl m : frame m m.
Proof. intros b _. split; auto. Qed.
Lemma frame_trans m m' m'' : frame m m' -> frame m' m'' -> frame m m''.
Proof. intros H1 H2 b Hb. destruct (H1 b Hb) as (A1 & A2), (H2 b Hb) as (B1 & B2). split; [congruence|]. intros i Hi. rewrite B2, A2; auto. Qed.

Lemma arg_caller b : callers b = true -> callers (fst (pl b)) = true /\ 0 <= snd (pl b).
Proof. destruct b; cbn; intros H; try discriminate; auto. Qed.
Lemma arg_own b : callers b = false -> pl b = (b, 0).
Proof. destruct b; cbn; intros H; try discriminate; auto. Qed.

Definition inb (b : buf) (i : Z) : Prop := callers b = true -> 0 <= i < len b.

Lemma load_inb m1 m al b i v : Rel m1 m -> okr b -> load m1 al b i = Some v -> inb b i.
Proof.
  intros (_ & H) Hb Hl Cb. destruct (H b Cb (Hb Cb)) as ((b1 & bi & E1 & E2 & _) & _). unfold load in Hl. rewrite E1 in Hl.
  destruct (Z.leb_spec 0 i); [|discriminate]. destruct (Z.ltb_spec i (blen b1)); [|discriminate]. lia.
Qed.
Lemma store_inb m1 m b i : Rel m1 m -> okr b -> can_store m1 b i = true -> inb b i.
Proof.
  intros (_ & H) Hb Hl Cb. destruct (H b Cb (Hb Cb)) as ((b1 & bi & E1 & E2 & _) & _). unfold can_store in Hl. rewrite E1 in Hl.
  destruct (Z.leb_spec 0 i); [|discriminate]. destruct (Z.ltb_spec i (blen b1)); [|discriminate]. lia.
Qed.

Lemma sep b b' i i' : okw b -> okr b' -> inb b i -> inb b' i' ->
  fst (pl b) = fst (pl b') -> snd (pl b) + i = snd (pl b') + i' -> b = b' /\ i = i'.
Proof.
  intros Hw Hr I1 I2 E Ei. assert (b = b'); [|subst; split; [auto|lia]].
  destruct (callers b) eqn:Cb.
  - destruct (callers b') eqn:Cb'.
    + destruct (apart b b' Cb (Hw Cb) Cb' (Hr Cb') E) as [X|X]; [exact X|]. exfalso. specialize (I1 Cb). specialize (I2 Cb'). lia.
    + rewrite (arg_own b' Cb') in E. destruct (arg_caller b Cb) as (X & _). rewrite E in X. cbn in X. congruence.
  - rewrite (arg_own b Cb) in E. destruct (callers b') eqn:Cb'.
    + destruct (arg_caller b' Cb') as (X & _). rewrite <- E in X. cbn in X. congruence.
    + now rewrite (arg_own b' Cb') in E.
Qed.

Lemma load_sim m1 m al b i v : Rel m1 m -> okr b -> (callers b = true -> al = 1) ->
  load m1 al b i = Some v -> load m al (fst (pl b)) (snd (pl b) + i) = Some v.
Proof.
  intros HR Hb Hal Hl. pose proof (load_inb m1 m al b i v HR Hb Hl) as HI. destruct HR as (R1 & R2). destruct (callers b) eqn:Cb.
  - destruct (R2 b Cb (Hb Cb)) as ((b1 & bi & E1 & E2 & E3 & E4) & E5). destruct (arg_caller b Cb) as (_ & Ho). specialize (HI Cb).
    unfold load in *. rewrite E1 in Hl. rewrite E3, <- E5 by lia. rewrite (Hal eq_refl) in *.
    unfold aligned in *. cbn [Z.eqb orb] in *. rewrite !andb_true_r in *.
    destruct (Z.leb_spec 0 i); [|discriminate]. destruct (Z.ltb_spec i (blen b1)); [|discriminate]. cbn [andb] in Hl.
    destruct (Z.leb_spec 0 (snd (pl b) + i)); [|lia]. destruct (Z.ltb_spec (snd (pl b) + i) (blen bi)); [auto|lia].
  - rewrite (arg_own b Cb). cbn [fst snd]. rewrite Z.add_0_l. destruct (R1 b Cb) as (E1 & E2). unfold load in *. now rewrite <- E1, <- E2.
Qed.

Lemma store_sim m1 m b i : Rel m1 m -> okw b -> can_store m1 b i = true -> can_store m (fst (pl b)) (snd (pl b) + i) = true.
Proof.
  intros HR Hb Hl. pose proof (wr_rd b Hb) as Hr. pose proof (store_inb m1 m b i HR Hr Hl) as HI. destruct HR as (R1 & R2). destruct (callers b) eqn:Cb.
  - destruct (R2 b Cb (Hr Cb)) as ((b1 & bi & E1 & E2 & E3 & E4) & E5). destruct (arg_caller b Cb) as (_ & Ho). specialize (HI Cb).
    unfold can_store. rewrite E3. apply andb_true_intro. split; [apply Z.leb_le|apply Z.ltb_lt]; lia.
  - rewrite (arg_own b Cb). cbn [fst snd]. rewrite Z.add_0_l. destruct (R1 b Cb) as (E1 & E2). unfold can_store in *. now rewrite <- E1.
Qed.

Lemma upd_sim m1 m b i v : Rel m1 m -> okw b -> inb b i -> Rel (upd m1 b i v) (upd m (fst (pl b)) (snd (pl b) + i) v).
Proof.
  intros (R1 & R2) Hb HI. split.
  - intros b' Cb'. destruct (R1 b' Cb') as (E1 & E2). split; [exact E1|]. intros j. cbn [upd dat]. rewrite E2.
    destruct (callers b) eqn:Cb.
    + destruct (arg_caller b Cb) as (X & _). destruct (buf_eqb_spec b b') as [->|]; [congruence|].
      destruct (buf_eqb_spec (fst (pl b)) b') as [E|]; [rewrite E in X; congruence|reflexivity].
    + rewrite (arg_own b Cb). cbn [fst snd]. now rewrite Z.add_0_l.
  - intros b' Cb' Hr. destruct (R2 b' Cb' Hr) as (E1 & E2). split; [exact E1|]. intros j Hj. cbn [upd dat]. rewrite (E2 j Hj).
    destruct (buf_eqb_spec b b') as [->|Nb].
    + destruct (buf_eqb_spec (fst (pl b')) (fst (pl b'))); [|congruence]. cbn [andb].
      destruct (Z.eqb_spec i j) as [->|]; [now rewrite Z.eqb_refl|].
      destruct (Z.eqb_spec (snd (pl b') + i) (snd (pl b') + j)); [lia|reflexivity].
    + cbn [andb]. destruct (buf_eqb_spec (fst (pl b)) (fst (pl b'))) as [E|]; [|reflexivity]. cbn [andb].
      destruct (Z.eqb_spec (snd (pl b) + i) (snd (pl b') + j)) as [E'|]; [|reflexivity]. exfalso. apply Nb.
      apply (sep b b' i j); auto; [intros _; exact Hr|intros _; exact Hj].
Qed.

Lemma upd_frame (m : mem V) b i v : okw b -> inb b i -> frame m (upd m (fst (pl b)) (snd (pl b) + i) v).
Proof.
  intros Hb HI b' Cb'. split; [reflexivity|]. intros j Hj. cbn [upd dat].
  destruct (buf_eqb_spec (fst (pl b)) b') as [E|]; [|reflexivity].
  destruct (Z.eqb_spec (snd (pl b) + i) j) as [E'|]; [|reflexivity]. exfalso.
  destruct (callers b) eqn:Cb.
  - specialize (HI Cb). apply (Hj b Cb (Hb Cb)). split; [auto|lia].
  - rewrite (arg_own b Cb) in E. cbn in E. congruence.
Qed.

Lemma step_sim ts m1 m s' : Rel m1 m -> (forall t, In t ts -> tuses t) -> pstep (map (thr_at pl) ts, m) s' ->
  pfault (ts, m1) \/ exists ts1 m1', pstep (ts, m1) (ts1, m1') /\ s' = (map (thr_at pl) ts1, snd s') /\
    Rel m1' (snd s') /\ (forall t, In t ts1 -> tuses t) /\ frame m (snd s').
Proof.
  intros HR Hu H. inversion H as [ts1 t ts2 mm t' m' Hs E1 E2]; subst. clear H.
  symmetry in E1. apply map_eq_app in E1 as (us1 & us2 & -> & E1 & E2). apply map_eq_cons in E2 as (u & us3 & -> & E2 & E3). subst.
  assert (Hut : tuses u) by (apply Hu, in_or_app; right; now left).
  destruct u as [r|al b i k|b i v k|]; cbn [thr_at] in Hs; try (inversion Hs; fail).
  - cbn in Hut. destruct Hut as (Hb & Hk).
    destruct (load m1 al b i) as [v|] eqn:El.
    + right. assert (El' : load m al (fst (pl b)) (snd (pl b) + i) = Some v).
      { apply (load_sim m1); auto; [intros C; apply (Hb C)|intros C; apply (Hb C)]. }
      inversion Hs; subst. assert (v0 = v) by congruence. subst v0.
      exists (us1 ++ k v :: us3), m1. cbn [snd]. split; [|split; [|split; [auto|split; [|apply frame_refl]]]].
      * constructor. now constructor.
      * now rewrite map_app.
      * intros t Ht. apply in_app_or in Ht as [Ht|[<-|Ht]]; [apply Hu, in_or_app; auto|auto|apply Hu, in_or_app; right; now right].
    + left. left. exists (TLoad al b i k). split; [apply in_or_app; right; now left|exact El].
  - cbn in Hut. destruct Hut as (Hb & Hk).
    destruct (can_store m1 b i) eqn:El.
    + pose proof (store_inb m1 m b i HR (wr_rd b Hb) El) as HI. right. inversion Hs; subst.
      exists (us1 ++ k :: us3), (upd m1 b i v). cbn [snd]. split; [|split; [|split; [now apply upd_sim|split; [|now apply upd_frame]]]].
      * constructor. now constructor.
      * now rewrite map_app.
      * intros t Ht. apply in_app_or in Ht as [Ht|[<-|Ht]]; [apply Hu, in_or_app; auto|auto|apply Hu, in_or_app; right; now right].
    + left. left. exists (TStore b i v k). split; [apply in_or_app; right; now left|exact El].
Qed.

Lemma steps_sim s s' : psteps s s' -> forall ts m1, s = (map (thr_at pl) ts, snd s) -> Rel m1 (snd s) -> (forall t, In t ts -> tuses t) ->
  (exists s1, psteps (ts, m1) s1 /\ pfault s1) \/
  exists ts1 m1', psteps (ts, m1) (ts1, m1') /\ s' = (map (thr_at pl) ts1, snd s') /\
    Rel m1' (snd s') /\ (forall t, In t ts1 -> tuses t) /\ frame (snd s) (snd s').
Proof.
  induction 1 as [s|s1 s2 s3 H1 H2 IH]; intros ts m1 E HR Hu.
  - right. exists ts, m1. split; [constructor|]. split; [auto|]. split; [auto|]. split; [auto|apply frame_refl].
  - rewrite E in H1. destruct (step_sim ts m1 (snd s1) s2 HR Hu H1) as [Hf|(ts1 & m1' & Hs & E2 & HR2 & Hu2 & Hf2)].
    + left. exists (ts, m1). split; [constructor|auto].
    + destruct (IH ts1 m1' E2 HR2 Hu2) as [(sx & P1 & P2)|(ts3 & m3 & P1 & P2 & P3 & P4 & P5)].
      * left. exists sx. split; [|auto]. econstructor; eauto.
      * right. exists ts3, m3. split; [econstructor; eauto|]. split; [auto|]. split; [auto|]. split; [auto|]. eapply frame_trans; eauto.
Qed.

Lemma tfault_dec t m : tuses t -> {tfaulty t m} + {~ tfaulty t m}.
Proof.
  intros _. destruct t as [r|al b i k|b i v k|]; cbn; [right; tauto| | |left; auto].
  - destruct (load m al b i); [right; discriminate|left; reflexivity].
  - destruct (can_store m b i); [right; discriminate|left; reflexivity].
Qed.

Lemma fault_sim ts m1 m : Rel m1 m -> (forall t, In t ts -> tuses t) -> pfault (map (thr_at pl) ts, m) -> pfault (ts, m1).
Proof.
  intros HR Hu [(t & Ht & Hf)|(us1 & u1 & us2 & u2 & us3 & E & Hc)]; cbn [fst snd] in *.
  - apply in_map_iff in Ht as (u & <- & Ht). left. exists u. split; [auto|]. specialize (Hu u Ht).
    destruct u as [r|al b i k|b i v k|]; cbn [thr_at tfaulty snd] in *; auto.
    + destruct (load m1 al b i) as [v|] eqn:El; auto. destruct Hu as (Hb & _).
      rewrite (load_sim m1 m al b i v) in Hf; auto; try discriminate; intros C; apply (Hb C).
    + destruct (can_store m1 b i) eqn:El; auto. destruct Hu as (Hb & _). rewrite (store_sim m1 m b i) in Hf; auto.
  - apply map_eq_app in E as (x1 & x2 & -> & E1 & E2). apply map_eq_cons in E2 as (v1 & x3 & -> & E2 & E3).
    apply map_eq_app in E3 as (x4 & x5 & -> & E3 & E4). apply map_eq_cons in E4 as (v2 & x6 & -> & E4 & E5). subst.
    assert (U1 : tuses v1) by (apply Hu, in_or_app; right; now left).
    assert (U2 : tuses v2) by (apply Hu, in_or_app; right; right; apply in_or_app; right; now left).
    destruct (tfault_dec v1 m1 U1) as [F|NF1]; [left; exists v1; split; [apply in_or_app; right; now left|exact F]|].
    destruct (tfault_dec v2 m1 U2) as [F|NF2]; [left; exists v2; split; [apply in_or_app; right; right; apply in_or_app; right; now left|exact F]|].
    right. exists x1, v1, x4, v2, x6. split; [reflexivity|].
    destruct Hc as (w1 & w2 & b & i & N1 & N2 & W).
    assert (G : forall w v, tuses v -> ~ tfaulty v m1 -> tnext (thr_at pl v) = Some (w, b, i) ->
       exists b' i', tnext v = Some (w, b', i') /\ fst (pl b') = b /\ snd (pl b') + i' = i /\ okr b' /\ (w = true -> okw b') /\ inb b' i').
    { intros w v U NF Nx. destruct v as [r|al b' i' k|b' i' v k|]; cbn in Nx; try discriminate; injection Nx as <- <- <-.
      - exists b', i'. cbn in U, NF. destruct U as (U & _). destruct (load m1 al b' i') as [v|] eqn:El; [|congruence].
        assert (O : okr b') by (intros C; apply (U C)).
        split; [reflexivity|]. split; [reflexivity|]. split; [reflexivity|]. split; [exact O|]. split; [discriminate|].
        now apply (load_inb m1 m al b' i' v).
      - exists b', i'. cbn in U, NF. destruct U as (U & _). destruct (can_store m1 b' i') eqn:El; [|congruence].
        pose proof (wr_rd b' U) as O.
        split; [reflexivity|]. split; [reflexivity|]. split; [reflexivity|]. split; [exact O|]. split; [auto|].
        now apply (store_inb m1 m b' i'). }
    destruct (G w1 v1 U1 NF1 N1) as (b1 & i1 & M1 & F1 & S1 & O1 & W1 & J1).
    destruct (G w2 v2 U2 NF2 N2) as (b2 & i2 & M2 & F2 & S2 & O2 & W2 & J2).
    assert (Eb : b1 = b2 /\ i1 = i2).
    { destruct w1; [apply sep; auto; congruence|]. destruct w2; [|discriminate].
      destruct (sep b2 b1 i2 i1) as (-> & ->); auto; congruence. }
    destruct Eb as (<- & <-). exists w1, w2, b1, i1. auto.
Qed.

Lemma alloc_sim m1 m b n al (init : option V) : callers b = false -> Rel m1 m -> Rel (do_alloc m1 b n al init) (do_alloc m b n al init).
Proof.
  intros Cb (R1 & R2). split.
  - intros b' Cb'. destruct (R1 b' Cb') as (E1 & E2). cbn [do_alloc live dat]. destruct (buf_eqb b b'); auto.
  - intros b' Cb' Hr. cbn [do_alloc live dat]. destruct (arg_caller b' Cb') as (X & _).
    destruct (buf_eqb_spec b b'); [congruence|]. destruct (buf_eqb_spec b (fst (pl b'))); [congruence|]. now apply R2.
Qed.

Lemma free_sim m1 m b : callers b = false -> Rel m1 m -> Rel (do_free m1 b) (do_free m b).
Proof.
  intros Cb (R1 & R2). split.
  - intros b' Cb'. destruct (R1 b' Cb') as (E1 & E2). cbn [do_free live dat]. destruct (buf_eqb b b'); auto.
  - intros b' Cb' Hr. cbn [do_free live dat]. destruct (arg_caller b' Cb') as (X & _).
    destruct (buf_eqb_spec b b'); [congruence|]. destruct (buf_eqb_spec b (fst (pl b'))); [congruence|]. now apply R2.
Qed.

Lemma own_live m1 m b : callers b = false -> Rel m1 m -> live m1 b = live m b.
Proof. intros Cb (R1 & _). now apply R1. Qed.

Lemma exec_sim {R} (P : prog V R) : forall m1 m o, Rel m1 m -> puses P -> pexec (call_at pl P) m o ->
  exists o1, pexec P m1 o1 /\ match o1 with
    | Undef => True
    | Exited => o = Exited
    | Done r m1' => exists m', o = Done r m' /\ Rel m1' m' /\ frame m m'
    end.
Proof.
  induction P as [r|ts k IH|b n al init k IH|b k IH| |]; intros m1 m o HR Hu H; cbn [call_at puses] in *.
  - inversion H; subst. exists (Done r m1). split; [constructor|]. exists m. split; [auto|split; [auto|apply frame_refl]].
  - destruct Hu as (Hu & Hk). inversion H as [|ts0 k0 m0 ts' m' o' Hs Hd Hx|ts0 k0 m0 s Hs Hf| | | | | |]; subst.
    + destruct (steps_sim _ _ Hs ts m1 eq_refl HR Hu) as [(s1 & P1 & P2)|(ts1 & m1' & P1 & P2 & P3 & P4 & P5)].
      * exists Undef. split; [eapply PE_par_ub; eauto|exact I].
      * cbn [snd] in *. injection P2 as ->.
        destruct (IH m1' m' o P3 Hk Hx) as (o1 & X1 & X2). exists o1. split.
        { eapply PE_par_ok; [exact P1| |exact X1]. intros t Ht. cbn [fst] in Ht.
          assert (E : thr_at pl t = TRet tt) by (apply Hd; cbn [fst]; now apply in_map).
          destruct t; cbn in E; try discriminate. now injection E as ->. }
        destruct o1; auto. destruct X2 as (m2 & -> & X3 & X4). exists m2. split; [auto|split; [auto|]]. eapply frame_trans; eauto.
    + exists Undef. split; [|exact I].
      destruct (steps_sim _ _ Hs ts m1 eq_refl HR Hu) as [(s1 & P1 & P2)|(ts1 & m1' & P1 & P2 & P3 & P4 & P5)].
      * eapply PE_par_ub; eauto.
      * eapply PE_par_ub; [exact P1|]. eapply (fault_sim ts1 m1' (snd s)); auto. now rewrite <- P2.
  - destruct Hu as (Cb & Hk). inversion H as [| | |b0 n0 al0 i0 k0 m0 o0 H1 H2 Hx|b0 n0 al0 i0 k0 m0 H1| | | |]; subst.
    + destruct (IH _ _ _ (alloc_sim m1 m b n al init Cb HR) Hk Hx) as (o1 & X1 & X2). exists o1. split.
      * apply PE_alloc; auto. now rewrite (own_live m1 m b).
      * destruct o1; auto. destruct X2 as (m2 & -> & X3 & X4). exists m2. split; [auto|split; [auto|]].
        eapply frame_trans; [|exact X4]. intros b' Cb'. cbn [do_alloc live dat].
        destruct (buf_eqb_spec b b'); [congruence|auto].
    + exists Undef. split; [|exact I]. apply PE_alloc_ub. now rewrite (own_live m1 m b).
  - destruct Hu as (Cb & Hk). inversion H as [| | | | |b0 k0 m0 o0 H1 Hx|b0 k0 m0 H1| |]; subst.
    + destruct (IH _ _ _ (free_sim m1 m b Cb HR) Hk Hx) as (o1 & X1 & X2). exists o1. split.
      * apply PE_free; auto. now rewrite (own_live m1 m b).
      * destruct o1; auto. destruct X2 as (m2 & -> & X3 & X4). exists m2. split; [auto|split; [auto|]].
        eapply frame_trans; [|exact X4]. intros b' Cb'. cbn [do_free live dat].
        destruct (buf_eqb_spec b b'); [congruence|auto].
    + exists Undef. split; [|exact I]. apply PE_free_ub. now rewrite (own_live m1 m b).
  - inversion H; subst. exists Undef. split; [constructor|exact I].
  - inversion H; subst. exists Exited. split; [constructor|auto].
Qed.

Lemma cut_sim {R} (P : prog V R) m1 m (Q : R -> mem V -> Prop) : Rel m1 m -> puses P -> pok P m1 Q ->
  pok (call_at pl P) m (fun r m' => exists m1', Q r m1' /\ pexec P m1 (Done r m1') /\ Rel m1' m' /\ frame m m').
Proof.
  intros HR Hu (_ & H). split; [apply some_exec|]. intros o Ho.
  destruct (exec_sim P m1 m o HR Hu Ho) as (o1 & X1 & X2). destruct (H o1 X1) as (r & m1' & -> & HQ).
  destruct X2 as (m' & -> & X3 & X4). exists r, m'. split; [auto|]. exists m1'. auto.
Qed.

End Cut.
