(** * Exhibiting a data race. *)

From Coq Require Import ZArith List Bool Lia.
From Verif Require Import Lang Lang_facts Exec Exec_facts.
Import ListNotations.
Open Scope Z_scope.

Section Race.

Context {V : Type}.

Definition first_two (ts : list (thr V unit)) : bool :=
  match ts with
  | t1 :: t2 :: _ =>
      match tnext t1, tnext t2 with
      | Some (w1, b1, i1), Some (w2, b2, i2) => buf_eqb b1 b2 && (i1 =? i2) && (w1 || w2)
      | _, _ => false
      end
  | _ => false
  end.

(** run the program sequentially up to a parallel region whose first two threads begin
    with conflicting accesses *)
Fixpoint prace {R} (P : prog V R) (m : mem V) : bool :=
  match P with
  | PPar ts k => if first_two ts then true else match tsexec ts m with Some m' => prace k m' | None => false end
  | PAlloc b n al init k =>
      if (0 <=? n) && match live m b with None => true | Some _ => false end
      then prace k (do_alloc m b n al init) else false
  | PFree b k => match live m b with None => false | Some _ => prace k (do_free m b) end
  | _ => false
  end.

Lemma first_two_fault ts (m : mem V) : first_two ts = true -> pfault (ts, m).
Proof.
  destruct ts as [|t1 [|t2 ts]]; cbn; try discriminate. intros H. right.
  exists [], t1, [], t2, ts. split; [reflexivity|].
  unfold conflict. destruct (tnext t1) as [((w1, b1), i1)|]; [|discriminate].
  destruct (tnext t2) as [((w2, b2), i2)|]; [|discriminate].
  apply andb_prop in H. destruct H as (H & Hw). apply andb_prop in H. destruct H as (Hb & Hi).
  apply Z.eqb_eq in Hi. subst i2. exists w1, w2, b1, i1. split; [auto|split; [|auto]].
  destruct (buf_eqb_spec b1 b2); [subst; auto|discriminate].
Qed.

Lemma prace_sound {R} (P : prog V R) : forall m, prace P m = true -> pexec P m Undef.
Proof.
  induction P as [r|ts k IH|b n al init k IH|b k IH| |]; intros m; cbn; try discriminate.
  - destruct (first_two ts) eqn:E1; intros H.
    + eapply PE_par_ub; [constructor|]. now apply first_two_fault.
    + destruct (tsexec ts m) as [m'|] eqn:E; [|discriminate].
      eapply PE_par_ok; [exact (tsexec_some ts m m' [] E)| |apply IH; auto].
      intros t Ht. cbn in Ht. apply in_map_iff in Ht. destruct Ht as (? & <- & _). auto.
  - destruct (live m b) eqn:L; [now rewrite andb_false_r|].
    destruct (Z.leb_spec 0 n); cbn; [|discriminate]. intros H'. apply PE_alloc; auto.
  - destruct (live m b) eqn:L; [|discriminate]. intros H'. apply PE_free; [congruence|auto].
Qed.

(** ** A race reached by a given schedule of the first parallel region *)

(** one step of thread [n] *)
Definition tstep1 (t : thr V unit) (m : mem V) : option (thr V unit * mem V) :=
  match t with
  | TLoad al b i k => match load m al b i with Some v => Some (k v, m) | None => None end
  | TStore b i v k => if can_store m b i then Some (k, upd m b i v) else None
  | _ => None
  end.

Fixpoint step_nth (n : nat) (ts : list (thr V unit)) (m : mem V) : option (list (thr V unit) * mem V) :=
  match ts, n with
  | t :: ts', O => match tstep1 t m with Some (t', m') => Some (t' :: ts', m') | None => None end
  | t :: ts', S n' => match step_nth n' ts' m with Some (ts2, m') => Some (t :: ts2, m') | None => None end
  | [], _ => None
  end.

Fixpoint run_sched (sc : list nat) (ts : list (thr V unit)) (m : mem V) : option (list (thr V unit) * mem V) :=
  match sc with
  | [] => Some (ts, m)
  | n :: sc' => match step_nth n ts m with Some (ts', m') => run_sched sc' ts' m' | None => None end
  end.

Lemma tstep1_step t m t' m' : tstep1 t m = Some (t', m') -> tstep t m t' m'.
Proof.
  destruct t; cbn; try discriminate.
  - destruct (load m al b i) eqn:E; [|discriminate]. intros [= <- <-]. now constructor.
  - destruct (can_store m b i) eqn:E; [|discriminate]. intros [= <- <-]. now constructor.
Qed.

Lemma step_nth_step n : forall ts m ts' m' pre, step_nth n ts m = Some (ts', m') -> pstep (pre ++ ts, m) (pre ++ ts', m').
Proof.
  induction n; intros [|t ts] m ts' m' pre; cbn; try discriminate.
  - destruct (tstep1 t m) as [(t1, m1)|] eqn:E; [|discriminate]. intros [= <- <-].
    constructor. now apply tstep1_step.
  - destruct (step_nth n ts m) as [(t1, m1)|] eqn:E; [|discriminate]. intros [= <- <-].
    specialize (IHn ts m t1 m1 (pre ++ [t]) E). now rewrite <- !app_assoc in IHn.
Qed.

Lemma run_sched_steps sc : forall ts m ts' m', run_sched sc ts m = Some (ts', m') -> psteps (ts, m) (ts', m').
Proof.
  induction sc as [|n sc IH]; cbn; intros ts m ts' m'.
  - intros [= <- <-]. constructor.
  - destruct (step_nth n ts m) as [(t1, m1)|] eqn:E; [|discriminate]. intros H.
    econstructor; [exact (step_nth_step n ts m t1 m1 [] E)|auto].
Qed.

(** running [sc] makes the first two threads of the first region conflict *)
Definition race_at {R} (sc : list nat) (P : prog V R) (m : mem V) : bool :=
  match P with
  | PPar ts _ => match run_sched sc ts m with Some (ts', _) => first_two ts' | None => false end
  | _ => false
  end.

Lemma race_at_sound {R} sc (P : prog V R) m : race_at sc P m = true -> pexec P m Undef.
Proof.
  destruct P; cbn; try discriminate. destruct (run_sched sc ts m) as [(ts', m')|] eqn:E; [|discriminate].
  intros H. eapply PE_par_ub; [eapply run_sched_steps; eauto|]. now apply first_two_fault.
Qed.

(** ** Programs that race whatever the data *)

(** some region has two threads whose first accesses conflict (or the program is undefined
    anyway); nothing before it exits *)
Fixpoint praces {R} (P : prog V R) : Prop :=
  match P with
  | PPar ts k => (exists a t1 b t2 c, ts = a ++ t1 :: b ++ t2 :: c /\ conflict t1 t2) \/ praces k
  | PAlloc _ _ _ _ k | PFree _ k => praces k
  | PUB => True
  | _ => False
  end.

Fixpoint noexit {R} (P : prog V R) : Prop :=
  match P with
  | PPar _ k | PAlloc _ _ _ _ k | PFree _ k => noexit k
  | PExit => False
  | _ => True
  end.

Lemma praces_undef {R} (P : prog V R) : praces P -> forall m, pexec P m Undef.
Proof.
  induction P as [r|ts k IH|b n al init k IH|b k IH| |]; cbn [praces]; intros H m; try tauto.
  - destruct (tsexec ts m) as [m'|] eqn:E.
    + destruct H as [(a & t1 & b & t2 & c & Et & Hc)|H].
      * eapply PE_par_ub; [constructor|]. right. exists a, t1, b, t2, c. auto.
      * eapply PE_par_ok; [exact (tsexec_some ts m m' [] E)| |apply IH; auto].
        intros t Ht. cbn in Ht. apply in_map_iff in Ht. destruct Ht as (? & <- & _). auto.
    + destruct (tsexec_none ts m [] E) as (s & H1 & H2). eapply PE_par_ub; eauto.
  - destruct (live m b) eqn:L; [apply PE_alloc_ub; right; congruence|].
    destruct (Z_le_gt_dec 0 n); [apply PE_alloc; auto|apply PE_alloc_ub; left; lia].
  - destruct (live m b) eqn:L; [apply PE_free; [congruence|auto]|apply PE_free_ub; auto].
  - constructor.
Qed.

Lemma praces_bind_l {R R'} (P : prog V R) (f : R -> prog V R') : praces P -> praces (pbind P f).
Proof. induction P; cbn [pbind praces]; try tauto; auto. Qed.

Lemma praces_bind_r {R R'} (P : prog V R) (f : R -> prog V R') :
  noexit P -> (forall r, praces (f r)) -> praces (pbind P f).
Proof. intros HP Hf. revert HP. induction P; cbn [pbind praces noexit]; auto; tauto. Qed.

Lemma noexit_bind {R R'} (P : prog V R) (f : R -> prog V R') :
  noexit P -> (forall r, noexit (f r)) -> noexit (pbind P f).
Proof. intros HP Hf. revert HP. induction P; cbn [pbind noexit]; auto. Qed.

Local Transparent pfor pfor_ne ppar_for.

Lemma noexit_piter {S} n : forall z step (f : Z -> S -> prog V S) s,
  (forall z s, noexit (f z s)) -> noexit (piter n z step f s).
Proof. induction n; intros z step f s H; cbn [piter]; [exact I|]. apply noexit_bind; auto. Qed.

Lemma noexit_pfor {S} lo hi step (s : S) (f : Z -> S -> prog V S) :
  (forall z s, noexit (f z s)) -> noexit (pfor lo hi step s f).
Proof. intros H. unfold pfor. destruct (0 <? step); [now apply noexit_piter|]. destruct (lo <? hi); exact I. Qed.

Lemma noexit_pfor_ne {S} lo hi inc (s : S) (f : Z -> S -> prog V S) :
  (forall z s, noexit (f z s)) -> noexit (pfor_ne lo hi inc s f).
Proof. intros H. unfold pfor_ne. destruct (_ && _); [now apply noexit_piter|exact I]. Qed.

Lemma noexit_ppar lo hi step (body : Z -> thr V unit) : noexit (ppar_for lo hi step body).
Proof. unfold ppar_for. destruct (0 <? step); [exact I|]. destruct (lo <? hi); exact I. Qed.

Lemma praces_piter {S} n : forall z step (f : Z -> S -> prog V S) s j, (j < n)%nat ->
  (forall z s, noexit (f z s)) ->
  (forall s, praces (f (z + Z.of_nat j * step) s)) -> praces (piter n z step f s).
Proof.
  induction n; intros z step f s j Hj Hk H; [lia|]. cbn [piter]. destruct j.
  - apply praces_bind_l. specialize (H s). replace (z + Z.of_nat 0 * step) with z in H by lia. auto.
  - apply praces_bind_r; auto. intros s'. apply (IHn _ _ _ _ j); [lia|auto|]. intros s''.
    replace (z + step + Z.of_nat j * step) with (z + Z.of_nat (Datatypes.S j) * step) by lia. auto.
Qed.

(** the first iteration of a loop that has one *)
Lemma praces_pfor0 {S} lo hi (s : S) (f : Z -> S -> prog V S) : lo < hi ->
  (forall z s, noexit (f z s)) -> praces (f lo s) -> praces (pfor lo hi 1 s f).
Proof.
  intros Hl Hk H. unfold pfor, loop_count. cbn [Z.ltb Z.compare]. rewrite Z.div_1_r.
  destruct (Z.to_nat (hi - lo + 1 - 1)) eqn:E; [lia|]. cbn [piter]. now apply praces_bind_l.
Qed.

Lemma praces_pfor_ne {S} lo nb inc (s : S) (f : Z -> S -> prog V S) q : inc * inc = 1 -> 0 <= q < nb ->
  (forall z s, noexit (f z s)) ->
  (forall s, praces (f (lo + q * inc) s)) -> praces (pfor_ne lo (lo + nb * inc) inc s f).
Proof.
  intros Hi Hq Hk H. unfold pfor_ne. replace ((lo + nb * inc - lo) * inc) with nb by nia.
  replace ((0 <=? nb) && (inc * inc =? 1)) with true by (rewrite Hi; symmetry; cbn; lia).
  apply (praces_piter _ _ _ _ _ (Z.to_nat q)); [lia|auto|]. now rewrite Z2Nat.id by lia.
Qed.

(** a parallel loop whose first two iterations conflict *)
Lemma praces_ppar n (body : Z -> thr V unit) : 2 <= n -> conflict (body 0) (body 1) -> praces (ppar_for 0 n 1 body).
Proof.
  intros Hn Hc. unfold ppar_for, loop_count. cbn [Z.ltb Z.compare praces]. rewrite Z.div_1_r.
  destruct (Z.to_nat (n - 0 + 1 - 1)) as [|[|k]] eqn:E; try lia. left. cbn [zseq map].
  exists [], (body 0), [], (body 1), (map body (zseq k (0 + 1 + 1) 1)). auto.
Qed.

End Race.
