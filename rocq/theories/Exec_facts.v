(** * The sequential execution is an execution. *)

From Coq Require Import ZArith List Bool Lia.
From Verif Require Import Lang Lang_facts Exec.
Import ListNotations.
Open Scope Z_scope.

Section Exec.

Context {V : Type}.

Lemma psteps_app (s1 s2 s3 : pstate V) : psteps s1 s2 -> psteps s2 s3 -> psteps s1 s3.
Proof. induction 1; auto. intros. econstructor; eauto. Qed.

Lemma texec_some (t : thr V unit) : forall m m' pre post, texec t m = Some m' ->
  psteps (pre ++ t :: post, m) (pre ++ TRet tt :: post, m').
Proof.
  induction t as [[]|al b i k IH|b i v k IH|]; intros m m' pre post; cbn.
  - intros E. injection E as <-. constructor.
  - destruct (load m al b i) as [v|] eqn:L; [|discriminate]. intros E.
    eapply psteps_cons; [constructor; constructor; eauto|]. now apply IH.
  - destruct (can_store m b i) eqn:L; [|discriminate]. intros E.
    eapply psteps_cons; [constructor; constructor; eauto|]. now apply IH.
  - discriminate.
Qed.

Lemma texec_none (t : thr V unit) : forall m pre post, texec t m = None ->
  exists s, psteps (pre ++ t :: post, m) s /\ pfault s.
Proof.
  induction t as [[]|al b i k IH|b i v k IH|]; intros m pre post; cbn.
  - discriminate.
  - destruct (load m al b i) as [v|] eqn:L; intros E.
    + destruct (IH v m pre post E) as (s & H1 & H2). exists s. split; auto.
      eapply psteps_cons; [constructor; constructor; eauto|auto].
    + eexists. split; [constructor|]. left. eexists. split; [apply in_elt|exact L].
  - destruct (can_store m b i) eqn:L; intros E.
    + destruct (IH _ pre post E) as (s & H1 & H2). exists s. split; auto.
      eapply psteps_cons; [constructor; constructor; eauto|auto].
    + eexists. split; [constructor|]. left. eexists. split; [apply in_elt|exact L].
  - intros _. eexists. split; [constructor|]. left. eexists. split; [apply in_elt|exact I].
Qed.

Lemma tsexec_some (ts : list (thr V unit)) : forall m m' pre, tsexec ts m = Some m' ->
  psteps (pre ++ ts, m) (pre ++ map (fun _ => TRet tt) ts, m').
Proof.
  induction ts as [|t ts IH]; intros m m' pre; cbn.
  - intros E. injection E as <-. constructor.
  - destruct (texec t m) as [m1|] eqn:E1; [|discriminate]. intros E.
    eapply psteps_app; [apply texec_some; eauto|].
    specialize (IH m1 m' (pre ++ [TRet tt]) E). now rewrite <- !app_assoc in IH.
Qed.

Lemma tsexec_none (ts : list (thr V unit)) : forall m pre, tsexec ts m = None ->
  exists s, psteps (pre ++ ts, m) s /\ pfault s.
Proof.
  induction ts as [|t ts IH]; intros m pre; cbn; [discriminate|].
  destruct (texec t m) as [m1|] eqn:E1; intros E.
  - destruct (IH m1 (pre ++ [TRet tt]) E) as (s & H1 & H2). exists s. split; auto.
    rewrite <- app_assoc in H1. eapply psteps_app; [apply texec_some; eauto|exact H1].
  - now apply texec_none.
Qed.

Lemma pseqexec_sound {R} (P : prog V R) : forall m, pexec P m (pseqexec P m).
Proof.
  induction P as [r|ts k IH|b n al init k IH|b k IH| |]; intros m; cbn.
  - constructor.
  - destruct (tsexec ts m) as [m'|] eqn:E.
    + eapply PE_par_ok; [exact (tsexec_some ts m m' [] E)| |apply IH].
      intros t Ht. cbn in Ht. apply in_map_iff in Ht. destruct Ht as (? & <- & _). auto.
    + destruct (tsexec_none ts m [] E) as (s & H1 & H2). eapply PE_par_ub; eauto.
  - destruct (live m b) eqn:L.
    + rewrite andb_false_r. apply PE_alloc_ub. right. congruence.
    + destruct (Z.leb_spec 0 n); cbn; [apply PE_alloc; auto|apply PE_alloc_ub; auto].
  - destruct (live m b) eqn:L; [apply PE_free; [congruence|auto]|apply PE_free_ub; auto].
  - constructor.
  - constructor.
Qed.

End Exec.
