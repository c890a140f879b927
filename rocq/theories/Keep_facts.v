(** * Invariants on single cells: what every finished execution leaves there.

    [tkeep I Q t]: if every load of [t] returns a value its cell may have by [I], every store
    of [t] is a value its cell may have, and the result satisfies [Q].  Such invariants do not
    depend on the interleaving, and say nothing about executions that do not finish. *)

From Coq Require Import ZArith List Bool Lia.
From Verif Require Import Lang Lang_facts.
Import ListNotations.
Open Scope Z_scope.
Local Transparent tbind tload tload_al tstore tfor tfor_ne pbind.

Section Keep.

Context {V : Type}.
Definition cellinv : Type := buf -> Z -> option V -> Prop.

Fixpoint tkeep (I : cellinv) {R} (t : thr V R) (Q : R -> Prop) : Prop :=
  match t with
  | TRet r => Q r
  | TLoad _ b i k => forall v, I b i (Some v) -> tkeep I (k v) Q
  | TStore b i v k => I b i (Some v) /\ tkeep I k Q
  | TFail => True
  end.

Fixpoint pkeep (I : cellinv) {R} (p : prog V R) (Q : R -> Prop) : Prop :=
  match p with
  | PRet r => Q r
  | PPar ts k => (forall t, In t ts -> tkeep I t (fun _ => True)) /\ pkeep I k Q
  | PAlloc b n al init k => (forall i, I b i init) /\ pkeep I k Q
  | PFree b k => b <> BufC /\ pkeep I k Q
  | PUB => True
  | PExit => True
  end.

(** The cells of live objects, and those of C, are as they may be. *)
Definition minv (I : cellinv) (m : mem V) : Prop :=
  forall b i, live m b <> None \/ b = BufC -> I b i (dat m b i).

Variable I : cellinv.

Lemma tkeep_mono {R} (t : thr V R) (Q Q' : R -> Prop) : (forall r, Q r -> Q' r) -> tkeep I t Q -> tkeep I t Q'.
Proof. intros H. induction t; cbn; intuition auto. Qed.

Lemma tkeep_bind {R R'} (t : thr V R) (f : R -> thr V R') Q : tkeep I t (fun r => tkeep I (f r) Q) -> tkeep I (tbind t f) Q.
Proof. induction t; cbn; intuition auto. Qed.

Lemma tkeep_ret {R} (r : R) (Q : R -> Prop) : Q r -> tkeep I (TRet r) Q.
Proof. auto. Qed.

Lemma tkeep_load al b i (Q : V -> Prop) : (forall v, I b i (Some v) -> Q v) -> tkeep I (tload_al al b i) Q.
Proof. auto. Qed.

Lemma tkeep_load1 b i (Q : V -> Prop) : (forall v, I b i (Some v) -> Q v) -> tkeep I (tload b i) Q.
Proof. auto. Qed.

Lemma tkeep_store b i v (Q : unit -> Prop) : I b i (Some v) -> Q tt -> tkeep I (tstore b i v) Q.
Proof. cbn. auto. Qed.

Lemma tkeep_titer {S} (f : Z -> S -> thr V S) (J : Z -> S -> Prop) step : forall n i g0 s,
  J g0 s -> (forall g s', 0 <= g < Z.of_nat n -> J (g0 + g) s' -> tkeep I (f (i + g * step) s') (J (g0 + g + 1))) ->
  tkeep I (titer n i step f s) (J (g0 + Z.of_nat n)).
Proof.
  induction n as [|n IH]; intros i g0 s H0 H.
  - cbn [titer]. apply tkeep_ret. now replace (g0 + Z.of_nat 0) with g0 by lia.
  - cbn [titer]. apply tkeep_bind.
    assert (H1 := H 0 s ltac:(lia)). replace (i + 0 * step) with i in H1 by lia. replace (g0 + 0) with g0 in H1 by lia.
    eapply tkeep_mono; [|exact (H1 H0)].
    cbv beta. intros s' Hs. replace (g0 + Z.of_nat (Datatypes.S n)) with ((g0 + 1) + Z.of_nat n) by lia.
    apply IH; [exact Hs|].
    intros g s2 Hg HJ. replace (i + step + g * step) with (i + (g + 1) * step) by lia.
    replace (g0 + 1 + g) with (g0 + (g + 1)) in * by lia. apply H; [lia|auto].
Qed.

Lemma loop_count_lt lo hi step g : 0 < step -> 0 <= g < Z.of_nat (loop_count lo hi step) -> lo <= lo + g * step < hi.
Proof.
  intros E Hg. unfold loop_count in Hg.
  assert (P : g < (hi - lo + step - 1) / step) by lia. pose proof (Z.mul_div_le (hi - lo + step - 1) step E). nia.
Qed.

(** [J g s]: after g rounds the state is s. *)
Lemma tkeep_tfor {S} (f : Z -> S -> thr V S) (J : Z -> S -> Prop) lo hi step s (Q : S -> Prop) : 0 < step ->
  J 0 s ->
  (forall g s', 0 <= g -> lo <= lo + g * step < hi -> J g s' -> tkeep I (f (lo + g * step) s') (J (g + 1))) ->
  (forall s', J (Z.of_nat (loop_count lo hi step)) s' -> Q s') -> tkeep I (tfor lo hi step s f) Q.
Proof.
  intros E H0 H HQ. unfold tfor. replace (0 <? step) with true by lia.
  eapply tkeep_mono; [|apply (tkeep_titer f J step _ _ 0); [exact H0|]].
  - intros s'. rewrite Z.add_0_l. apply HQ.
  - intros g s' Hg. rewrite Z.add_0_l. apply H; [lia|now apply loop_count_lt].
Qed.

(** without tracking the state *)
Lemma tkeep_any {S} (f : Z -> S -> thr V S) lo hi step s :
  (forall i s', lo <= i < hi -> tkeep I (f i s') (fun _ => True)) -> tkeep I (tfor lo hi step s f) (fun _ => True).
Proof.
  intros H. destruct (Z_lt_le_dec 0 step) as [E|E].
  - apply (tkeep_tfor f (fun _ _ => True)); auto.
  - unfold tfor. replace (0 <? step) with false by lia. destruct (lo <? hi); exact Logic.I.
Qed.

Lemma tkeep_any_ne {S} (f : Z -> S -> thr V S) start stop inc s :
  (forall g s', 0 <= g < (stop - start) * inc -> tkeep I (f (start + g * inc) s') (fun _ => True)) ->
  tkeep I (tfor_ne start stop inc s f) (fun _ => True).
Proof.
  intros H. unfold tfor_ne. destruct (_ && _) eqn:E; [|exact Logic.I].
  apply (tkeep_titer f (fun _ _ => True) inc _ _ 0); [auto|]. intros g s' Hg _. apply H.
  apply andb_prop in E. destruct E as (E & _). apply Z.leb_le in E. rewrite Z2Nat.id in Hg by lia. lia.
Qed.

(** ** Programs *)

Lemma pkeep_mono {R} (p : prog V R) (Q Q' : R -> Prop) : (forall r, Q r -> Q' r) -> pkeep I p Q -> pkeep I p Q'.
Proof. intros H. induction p; cbn; intuition auto. Qed.

Lemma pkeep_bind {R R'} (p : prog V R) (f : R -> prog V R') Q : pkeep I p (fun r => pkeep I (f r) Q) -> pkeep I (pbind p f) Q.
Proof. induction p; cbn; intuition auto. Qed.

Lemma pkeep_ret {R} (r : R) (Q : R -> Prop) : Q r -> pkeep I (PRet r) Q.
Proof. auto. Qed.

Lemma pkeep_alloc b n al init (Q : unit -> Prop) : (forall i, I b i init) -> Q tt -> pkeep I (palloc b n al init) Q.
Proof. cbn. auto. Qed.

Lemma pkeep_free b (Q : unit -> Prop) : b <> BufC -> Q tt -> pkeep I (pfree b) Q.
Proof. cbn. auto. Qed.

Lemma pkeep_seq t (Q : unit -> Prop) : tkeep I t (fun _ => True) -> Q tt -> pkeep I (pseq t) Q.
Proof. cbn. intros H HQ. split; [|auto]. intros t' [<-|[]]. exact H. Qed.

Lemma zseq_in n : forall lo step x, In x (zseq n lo step) -> exists g, 0 <= g < Z.of_nat n /\ x = lo + g * step.
Proof.
  induction n as [|n IH]; intros lo step x; [intros []|]. intros [<-|H].
  - exists 0. lia.
  - destruct (IH _ _ _ H) as (g & Hg & ->). exists (g + 1). lia.
Qed.

Lemma pkeep_par lo hi step body (Q : unit -> Prop) : (forall i, lo <= i < hi -> tkeep I (body i) (fun _ => True)) -> Q tt ->
  pkeep I (ppar_for lo hi step body) Q.
Proof.
  intros H HQ. unfold ppar_for. destruct (0 <? step) eqn:E.
  - apply Z.ltb_lt in E. cbn. split; [|exact HQ]. intros t Ht. apply in_map_iff in Ht. destruct Ht as (i & <- & Hi).
    apply zseq_in in Hi. destruct Hi as (g & Hg & ->). apply H. now apply loop_count_lt.
  - destruct (lo <? hi); [exact Logic.I|exact HQ].
Qed.

Lemma pkeep_piter {S} (f : Z -> S -> prog V S) (J : Z -> S -> Prop) step : forall n i g0 s,
  J g0 s -> (forall g s', 0 <= g < Z.of_nat n -> J (g0 + g) s' -> pkeep I (f (i + g * step) s') (J (g0 + g + 1))) ->
  pkeep I (piter n i step f s) (J (g0 + Z.of_nat n)).
Proof.
  induction n as [|n IH]; intros i g0 s H0 H.
  - cbn [piter]. apply pkeep_ret. now replace (g0 + Z.of_nat 0) with g0 by lia.
  - cbn [piter]. apply pkeep_bind.
    assert (H1 := H 0 s ltac:(lia)). replace (i + 0 * step) with i in H1 by lia. replace (g0 + 0) with g0 in H1 by lia.
    eapply pkeep_mono; [|exact (H1 H0)].
    cbv beta. intros s' Hs. replace (g0 + Z.of_nat (Datatypes.S n)) with ((g0 + 1) + Z.of_nat n) by lia.
    apply IH; [exact Hs|].
    intros g s2 Hg HJ. replace (i + step + g * step) with (i + (g + 1) * step) by lia.
    replace (g0 + 1 + g) with (g0 + (g + 1)) in * by lia. apply H; [lia|auto].
Qed.

Lemma pkeep_any {S} (f : Z -> S -> prog V S) lo hi step s (Q : S -> Prop) :
  (forall i s', lo <= i < hi -> pkeep I (f i s') (fun _ => True)) -> (forall s', Q s') -> pkeep I (pfor lo hi step s f) Q.
Proof.
  intros H HQ. unfold pfor. destruct (0 <? step) eqn:E.
  - apply Z.ltb_lt in E. eapply pkeep_mono; [intros; apply HQ|]. apply (pkeep_piter f (fun _ _ => True) step _ _ 0); [auto|].
    intros g s' Hg _. apply H. now apply loop_count_lt.
  - destruct (lo <? hi); [exact Logic.I|apply HQ].
Qed.

Lemma pkeep_any_ne {S} (f : Z -> S -> prog V S) start stop inc s (Q : S -> Prop) :
  (forall g s', 0 <= g < (stop - start) * inc -> pkeep I (f (start + g * inc) s') (fun _ => True)) -> (forall s', Q s') ->
  pkeep I (pfor_ne start stop inc s f) Q.
Proof.
  intros H HQ. unfold pfor_ne. destruct (_ && _) eqn:E; [|exact Logic.I]. eapply pkeep_mono; [intros; apply HQ|].
  apply (pkeep_piter f (fun _ _ => True) inc _ _ 0); [auto|]. intros g s' Hg _. apply H.
  apply andb_prop in E. destruct E as (E & _). apply Z.leb_le in E. rewrite Z2Nat.id in Hg by lia. lia.
Qed.

(** ** Soundness *)

Lemma keep_step t m t' m' : tstep t m t' m' -> tkeep I t (fun _ => True) -> minv I m -> tkeep I t' (fun _ => True) /\ minv I m'.
Proof.
  intros H HK Hm. destruct H as [al b i k v m H|b i v k m H].
  - split; [|exact Hm]. cbn in HK. apply HK. unfold load in H. destruct (live m b) as [bi|] eqn:E; [|discriminate].
    destruct (_ && _); [|discriminate]. rewrite <- H. apply Hm. left. congruence.
  - destruct HK as (HI & HK). split; [exact HK|]. intros b' i'. cbn [upd dat live].
    destruct (buf_eqb b b' && (i =? i')) eqn:E; [|apply Hm]. intros _. apply andb_prop in E. destruct E as (E1 & E2).
    apply Z.eqb_eq in E2. subst i'. destruct (buf_eqb_spec b b'); [subst b'; exact HI|discriminate].
Qed.

Lemma keep_steps s s' : psteps s s' -> (forall t, In t (fst s) -> tkeep I t (fun _ => True)) -> minv I (snd s) -> minv I (snd s').
Proof.
  induction 1 as [s|s1 s2 s3 H1 H2 IH]; intros HK Hm; [exact Hm|].
  destruct H1 as [ts1 t ts2 m t' m' H]. cbn [fst snd] in *.
  destruct (keep_step _ _ _ _ H (HK t ltac:(apply in_elt)) Hm) as (HK' & Hm').
  apply IH; [|exact Hm']. intros u Hu. apply in_app_or in Hu. destruct Hu as [Hu|[<-|Hu]]; [|exact HK'|];
    apply HK; apply in_or_app; cbn; auto.
Qed.

Theorem keep_exec {R} (p : prog V R) m o : pexec p m o -> forall Q, pkeep I p Q -> minv I m ->
  match o with Done r m' => Q r /\ minv I m' | _ => True end.
Proof.
  induction 1; intros Q HK Hm; cbn in HK; try exact Logic.I.
  - auto.
  - destruct HK as (HK & HK'). apply IHpexec; [exact HK'|]. exact (keep_steps _ _ H HK Hm).
  - destruct HK as (HK & HK'). apply IHpexec; [exact HK'|]. intros b' i. cbn [do_alloc dat].
    cbn [do_alloc live]. destruct (buf_eqb_spec b b') as [<-|]; [intros _; apply HK|apply Hm].
  - destruct HK as (HK & HK'). apply IHpexec; [exact HK'|]. intros b' i. cbn [do_free dat live].
    destruct (buf_eqb_spec b b') as [<-|]; [intros [E|E]; [now elim E|contradiction]|apply Hm].
Qed.

End Keep.

Arguments cellinv V : clear implicits.

Lemma exec_bind {V R S} (p : prog V R) (f : R -> prog V S) m r m' : pexec (pbind p f) m (Done r m') ->
  exists a m1, pexec p m (Done a m1) /\ pexec (f a) m1 (Done r m').
Proof. intros H. apply pexec_bind in H. destruct H as [H|[(H & _)|(H & _)]]; [exact H|discriminate|discriminate]. Qed.

Lemma minv_mono {V} (I I' : cellinv V) m : (forall b i v, I b i v -> I' b i v) -> minv I m -> minv I' m.
Proof. intros H Hm b i Hb. apply H, Hm, Hb. Qed.
