(** * Programs that cannot finish: every path ends in an undefined operation. *)

From Coq Require Import ZArith List Bool Lia.
From Verif Require Import Lang SpecTouch Exec Exec_facts ModelSizing ModelKernel ModelInt Int_facts LinearUndef_facts.
Import ListNotations.
Open Scope Z_scope.
Local Transparent tfor pfor pbind tbind.

Section Dead.

Variable S : scalar.
Notation T := (elt S).

Definition tdead {R} (t : thr T R) : Prop := tleaf (fun _ => False) t.

Fixpoint pdead {R} (P : prog T R) : Prop :=
  match P with
  | PRet _ => False
  | PPar ts k => (exists t, In t ts /\ tdead t) \/ pdead k
  | PAlloc _ _ _ _ k | PFree _ k => pdead k
  | PUB => True
  | PExit => False
  end.

Fixpoint noexit {R} (P : prog T R) : Prop :=
  match P with
  | PRet _ | PUB => True
  | PPar _ k | PAlloc _ _ _ _ k | PFree _ k => noexit k
  | PExit => False
  end.

Lemma dead_steps (s s' : pstate T) : psteps s s' ->
  (exists t, In t (fst s) /\ tdead t) -> exists t, In t (fst s') /\ tdead t.
Proof.
  induction 1 as [|s1 s2 s3 H1 H2 IH]; auto. intros (t & Ht & D). apply IH.
  inversion H1 as [ts1 u ts2 m u' m' Hu]; subst. cbn [fst] in *.
  apply in_app_or in Ht. destruct Ht as [Ht|[<-|Ht]].
  - exists t. split; auto. apply in_or_app. auto.
  - exists u'. split; [apply in_or_app; right; now left|]. inversion Hu; subst; cbn in D; auto. apply D.
  - exists t. split; auto. apply in_or_app. right. now right.
Qed.

Lemma dead_undef {R} (P : prog T R) m o : pexec P m o -> pdead P -> o = Undef.
Proof.
  induction 1 as [|ts k m ts' m' o Hs Hd Hk IH| |b n al init k m o _ _ _ IH| |b k m o _ _ IH| | |]; cbn; try tauto.
  intros [E|E]; auto. destruct (dead_steps _ _ Hs E) as (t & Ht & D). rewrite (Hd t Ht) in D. destruct D.
Qed.

Theorem dead_undefined {R} (P : prog T R) m : pdead P -> always_undefined P m.
Proof. intros D. apply undef_intro. intros o Ho. eapply dead_undef; eauto. Qed.

Lemma dead_seq (t : thr T unit) : tdead t -> pdead (pseq t).
Proof. intros D. left. exists t. split; [now left|exact D]. Qed.

Lemma dead_bind_l {R R'} (P : prog T R) (f : R -> prog T R') : pdead P -> pdead (pbind P f).
Proof. induction P; cbn; tauto. Qed.

Lemma dead_bind_r {R R'} (P : prog T R) (f : R -> prog T R') : noexit P -> (forall r, pdead (f r)) -> pdead (pbind P f).
Proof. intros HP Hf. induction P; cbn in *; auto; tauto. Qed.

Lemma noexit_bind {R R'} (P : prog T R) (f : R -> prog T R') : noexit P -> (forall r, noexit (f r)) -> noexit (pbind P f).
Proof. intros HP Hf. induction P; cbn in *; auto. Qed.

Lemma tdead_bind_l {R R'} (t : thr T R) (f : R -> thr T R') : tdead t -> tdead (tbind t f).
Proof. unfold tdead. induction t; cbn; auto; tauto. Qed.

Lemma tdead_bind_r {R R'} (t : thr T R) (f : R -> thr T R') : (forall r, tdead (f r)) -> tdead (tbind t f).
Proof. unfold tdead. intros Hf. induction t; cbn; auto. Qed.

Lemma tdead_int {R} e (f : Z -> thr T R) : isafe e = false \/ tdead (f (ival e)) -> tdead (tbind (tint e) f).
Proof. unfold tint. intros [->|H]; [exact I|]. destruct (isafe e); [exact H|exact I]. Qed.

Lemma tdead_for hi f j : 0 <= j < hi -> tdead (f j) -> tdead (tfor32_ (V := T) 0 hi 1 f).
Proof.
  intros Hj D. unfold tfor32_. destruct (counter_ok 0 hi 1); [|exact I]. unfold tfor_, tfor. cbn [Z.ltb Z.compare].
  assert (G : forall n i, i <= j < i + Z.of_nat n -> tdead (titer (V := T) n i 1 (fun i _ => f i) tt)).
  { induction n as [|n IH]; intros i Hi; [lia|]. cbn [titer].
    assert (i = j \/ i + 1 <= j < i + 1 + Z.of_nat n) as [->|Q] by lia; [now apply tdead_bind_l|].
    apply tdead_bind_r. intros []. now apply IH. }
  apply G. pose proof (loop_count_div 0 hi 1 ltac:(lia) ltac:(lia) (divide_1 _)). lia.
Qed.

Lemma pdead_for hi f j : 0 <= j < hi -> (forall i, noexit (f i)) -> pdead (f j) -> pdead (pfor32_ (V := T) 0 hi 1 f).
Proof.
  intros Hj E D. unfold pfor32_. destruct (counter_ok 0 hi 1); [|exact I]. unfold pfor_, pfor. cbn [Z.ltb Z.compare].
  assert (G : forall n i, i <= j < i + Z.of_nat n -> pdead (piter (V := T) n i 1 (fun i _ => f i) tt)).
  { induction n as [|n IH]; intros i Hi; [lia|]. cbn [piter].
    assert (i = j \/ i + 1 <= j < i + 1 + Z.of_nat n) as [->|Q] by lia; [now apply dead_bind_l|].
    apply dead_bind_r; auto. intros []. now apply IH. }
  apply G. pose proof (loop_count_div 0 hi 1 ltac:(lia) ltac:(lia) (divide_1 _)). lia.
Qed.

Lemma in_zseq_1 n j : forall i, i <= j < i + Z.of_nat n -> In j (zseq n i 1).
Proof.
  induction n as [|n IH]; intros i Hi; [lia|]. cbn [zseq].
  assert (i = j \/ i + 1 <= j < i + 1 + Z.of_nat n) as [->|Q] by lia; [now left|right; now apply IH].
Qed.

Lemma pdead_par hi f j : 0 <= j < hi -> tdead (f j) -> pdead (ppar_for32 (V := T) 0 hi 1 f).
Proof.
  intros Hj D. unfold ppar_for32. destruct (counter_ok 0 hi 1); [|exact I]. unfold ppar_for. cbn [Z.ltb Z.compare].
  left. exists (f j). split; [|exact D]. apply in_map, in_zseq_1.
  pose proof (loop_count_div 0 hi 1 ltac:(lia) ltac:(lia) (divide_1 _)). lia.
Qed.

Lemma noexit_par hi f : noexit (ppar_for32 (V := T) 0 hi 1 f).
Proof. unfold ppar_for32. destruct (counter_ok 0 hi 1); exact I. Qed.

End Dead.
