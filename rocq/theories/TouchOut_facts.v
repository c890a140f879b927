(** * Programs that cannot avoid reading outside one of their buffers.

    As in Touch_facts, but the buffer may be allocated and written by the program, as long as
    no allocation makes it large enough to contain element i. *)

From Coq Require Import ZArith List Bool Lia.
From Verif Require Import Lang Lang_facts Exec Exec_facts Touch_facts.
Import ListNotations.
Open Scope Z_scope.

Local Transparent tfor tfor_ne pfor pfor_ne ppar_for tbind pbind.

Section Out.

Context {V : Type}.
Variables (b : buf) (i : Z).

(** what a thread returns satisfies Q *)
Fixpoint rets {R} (Q : R -> Prop) (t : thr V R) : Prop :=
  match t with
  | TRet r => Q r
  | TLoad _ _ _ k => forall v, rets Q (k v)
  | TStore _ _ _ k => rets Q k
  | TFail => True
  end.

Fixpoint small {R} (P : prog V R) : Prop :=
  match P with
  | PPar _ k => small k
  | PAlloc b' n _ _ k => (b' <> b \/ n <= i) /\ small k
  | PFree _ k => small k
  | PExit => False
  | _ => True
  end.

Fixpoint pout {R} (P : prog V R) : Prop :=
  match P with
  | PPar ts k => (exists t, In t ts /\ touches b i t) \/ pout k
  | PAlloc b' n _ _ k => (b' <> b \/ n <= i) /\ pout k
  | PFree _ k => pout k
  | PUB => True
  | _ => False
  end.

Definition outside (m : mem V) : Prop := match live m b with Some bi => ~ 0 <= i < blen bi | None => True end.

Lemma outside_unreadable m : outside m -> unreadable b i m.
Proof.
  intros H al. unfold outside, load in *. destruct (live m b) as [bi|]; auto.
  destruct (_ && _) eqn:E; auto. exfalso. apply H. rewrite !andb_true_iff, Z.leb_le, Z.ltb_lt in E. lia.
Qed.

Lemma step_live (t : thr V unit) m t' m' : tstep t m t' m' -> forall b, live m' b = live m b.
Proof. intros H. now destruct H. Qed.

Lemma pstep_out s s' : outside (snd s) -> pstep s s' -> outside (snd s').
Proof.
  intros H Hs. destruct Hs as [ts1 t ts2 m t' m' Hs]. cbn [fst snd] in *. unfold outside in *.
  now rewrite (step_live _ _ _ _ Hs).
Qed.

Lemma psteps_out s s' : outside (snd s) -> psteps s s' -> outside (snd s').
Proof. intros H Hs. induction Hs; auto. apply IHHs. eapply pstep_out; eauto. Qed.

Lemma psteps_touch_out s s' : outside (snd s) -> psteps s s' ->
  (exists t, In t (fst s) /\ touches b i t) -> exists t, In t (fst s') /\ touches b i t.
Proof.
  intros H Hs. induction Hs as [|s1 s2 s3 Hs _ IH]; auto. intros (u & Hin & Ht).
  apply IH; [eapply pstep_out; eauto|]. destruct Hs as [ts1 t ts2 m t' m' Hs]. cbn [fst snd] in *.
  rewrite in_app_iff in Hin. cbn in Hin. destruct Hin as [Hin|[<-|Hin]].
  - exists u. rewrite in_app_iff. auto.
  - exists t'. split; [rewrite in_app_iff; cbn; auto|]. eapply step_touch; [|exact Ht|exact Hs]. now apply outside_unreadable.
  - exists u. split; [rewrite in_app_iff; cbn; auto|auto].
Qed.

Lemma pout_undef {R} (P : prog V R) m o : pout P -> outside m -> pexec P m o -> o = Undef.
Proof.
  intros Ht Hu H. revert Ht Hu. induction H; cbn [pout]; try tauto; auto.
  - intros [Ht|Ht] Hu.
    + destruct (psteps_touch_out (ts, m) (ts', m') Hu H Ht) as (t & Hin & Hto). exfalso.
      rewrite (H0 t Hin) in Hto. exact Hto.
    + apply IHpexec; auto. exact (psteps_out (ts, m) (ts', m') Hu H).
  - intros (Hb & Ht) Hu. apply IHpexec; auto. unfold outside in *. cbn.
    destruct (buf_eqb_spec b0 b) as [->|]; [|exact Hu]. cbn. destruct Hb; [congruence|lia].
  - intros Ht Hu. apply IHpexec; auto. unfold outside in *. cbn. now destruct (buf_eqb b0 b).
Qed.

Lemma pout_exec {R} (P : prog V R) m : pout P -> outside m ->
  pexec P m Undef /\ forall o, pexec P m o -> o = Undef.
Proof.
  intros Ht Hu. assert (H : forall o, pexec P m o -> o = Undef) by (intros o; now apply pout_undef).
  split; auto. pose proof (pseqexec_sound P m) as Hs. now rewrite <- (H _ Hs).
Qed.

(** ** Composition *)

Lemma rets_bind {R R'} (Q : R' -> Prop) (t : thr V R) (f : R -> thr V R') :
  rets (fun r => rets Q (f r)) t -> rets Q (tbind t f).
Proof. induction t; cbn [tbind rets]; auto. Qed.

Lemma rets_mono {R} (Q Q' : R -> Prop) (t : thr V R) : rets Q t -> (forall r, Q r -> Q' r) -> rets Q' t.
Proof. induction t; cbn [rets]; auto. Qed.

Lemma rets_any {R} (t : thr V R) : rets (fun _ => True) t.
Proof. induction t; cbn [rets]; auto. Qed.

Lemma touches_bind_post {R R'} (Q : R -> Prop) (t : thr V R) (f : R -> thr V R') :
  rets Q t -> (forall r, Q r -> touches b i (f r)) -> touches b i (tbind t f).
Proof. intros Ht Hf. induction t; cbn [tbind rets touches] in *; auto. Qed.

Lemma rets_titer {S} (Q : Z -> S -> Prop) step (f : Z -> S -> thr V S) n : forall z s, Q z s ->
  (forall z s, Q z s -> rets (Q (z + step)) (f z s)) -> rets (Q (z + Z.of_nat n * step)) (titer n z step f s).
Proof.
  induction n as [|n IH]; intros z s H Hf; cbn [titer].
  - cbn [rets]. now replace (z + Z.of_nat 0 * step) with z by lia.
  - apply rets_bind. eapply rets_mono; [apply Hf, H|]. intros r Hr.
    replace (z + Z.of_nat (Datatypes.S n) * step) with (z + step + Z.of_nat n * step) by lia. now apply IH.
Qed.

Lemma touches_titer_last {S} (Q : Z -> S -> Prop) step (f : Z -> S -> thr V S) n : forall z s, Q z s ->
  (forall z s, Q z s -> rets (Q (z + step)) (f z s)) ->
  (forall s, Q (z + Z.of_nat n * step) s -> touches b i (f (z + Z.of_nat n * step) s)) ->
  touches b i (titer (Datatypes.S n) z step f s).
Proof.
  induction n as [|n IH]; intros z s H Hf Ht.
  - change (touches b i (tbind (f z s) (fun s' => TRet s'))). apply touches_bind_l.
    replace (z + Z.of_nat 0 * step) with z in Ht by lia. auto.
  - change (touches b i (tbind (f z s) (fun s' => titer (Datatypes.S n) (z + step) step f s'))).
    apply (touches_bind_post (Q (z + step))); auto. intros r Hr. apply IH; auto.
    replace (z + step + Z.of_nat n * step) with (z + Z.of_nat (Datatypes.S n) * step) by lia. auto.
Qed.

Lemma small_bind {R R'} (P : prog V R) (f : R -> prog V R') : small P -> (forall r, small (f r)) -> small (pbind P f).
Proof. intros HP Hf. induction P; cbn [pbind small] in *; auto; tauto. Qed.

Lemma pout_bind_l {R R'} (P : prog V R) (f : R -> prog V R') : pout P -> pout (pbind P f).
Proof. induction P; cbn [pbind pout]; try tauto; auto; intuition. Qed.

Lemma pout_bind_r {R R'} (P : prog V R) (f : R -> prog V R') : small P -> (forall r, pout (f r)) -> pout (pbind P f).
Proof. intros HP Hf. induction P; cbn [pbind small pout] in *; auto; tauto. Qed.

Lemma pout_bind_ret {R R' R''} (P : prog V R) (r : R') (f : R' -> prog V R'') :
  small P -> pout (f r) -> pout (pbind (pbind P (fun _ => PRet r)) f).
Proof. intros HP Hf. induction P; cbn [pbind small pout] in *; auto; tauto. Qed.

Lemma small_piter {S} n : forall z step (f : Z -> S -> prog V S) s,
  (forall z s, small (f z s)) -> small (piter n z step f s).
Proof. induction n; intros z step f s H; cbn [piter]; [exact I|]. apply small_bind; auto. Qed.

Lemma small_pfor {S} lo hi step (s : S) (f : Z -> S -> prog V S) :
  (forall z s, small (f z s)) -> small (pfor lo hi step s f).
Proof. intros H. unfold pfor. destruct (0 <? step); [now apply small_piter|]. destruct (lo <? hi); exact I. Qed.

Lemma small_pfor_ne {S} lo hi inc (s : S) (f : Z -> S -> prog V S) :
  (forall z s, small (f z s)) -> small (pfor_ne lo hi inc s f).
Proof. intros H. unfold pfor_ne. destruct (_ && _); [now apply small_piter|exact I]. Qed.

Lemma small_ppar lo hi step (body : Z -> thr V unit) : small (ppar_for lo hi step body).
Proof. unfold ppar_for. destruct (0 <? step); [exact I|destruct (lo <? hi); exact I]. Qed.

Lemma pout_piter {S} n : forall z step (f : Z -> S -> prog V S) s j, (j < n)%nat ->
  (forall z s, small (f z s)) ->
  (forall s, pout (f (z + Z.of_nat j * step) s)) -> pout (piter n z step f s).
Proof.
  induction n; intros z step f s j Hj Hk H; [lia|]. cbn [piter]. destruct j.
  - apply pout_bind_l. specialize (H s). replace (z + Z.of_nat 0 * step) with z in H by lia. auto.
  - apply pout_bind_r; auto. intros s'. apply (IHn _ _ _ _ j); [lia|auto|]. intros s''.
    replace (z + step + Z.of_nat j * step) with (z + Z.of_nat (Datatypes.S j) * step) by lia. auto.
Qed.

Lemma pout_pfor1 {S} lo hi (s : S) (f : Z -> S -> prog V S) z : lo <= z < hi ->
  (forall z s, small (f z s)) -> (forall s, pout (f z s)) -> pout (pfor lo hi 1 s f).
Proof.
  intros Hz Hk H. unfold pfor. cbn [Z.ltb Z.compare].
  apply (pout_piter _ _ _ _ _ (Z.to_nat (z - lo))); [apply count_lt; lia|auto|].
  rewrite Z2Nat.id by lia. now replace (lo + (z - lo) * 1) with z by lia.
Qed.

Lemma pout_pfor_ne {S} lo nb inc (s : S) (f : Z -> S -> prog V S) q : inc * inc = 1 -> 0 <= q < nb ->
  (forall z s, small (f z s)) ->
  (forall s, pout (f (lo + q * inc) s)) -> pout (pfor_ne lo (lo + nb * inc) inc s f).
Proof.
  intros Hi Hq Hk H. unfold pfor_ne. replace ((lo + nb * inc - lo) * inc) with nb by nia.
  replace ((0 <=? nb) && (inc * inc =? 1)) with true by (rewrite Hi; symmetry; cbn; lia).
  apply (pout_piter _ _ _ _ _ (Z.to_nat q)); [lia|auto|]. now rewrite Z2Nat.id by lia.
Qed.

Lemma pout_ppar1 lo hi (body : Z -> thr V unit) z : lo <= z < hi -> touches b i (body z) -> pout (ppar_for lo hi 1 body).
Proof.
  intros Hz H. unfold ppar_for. cbn [Z.ltb Z.compare pout]. left. exists (body z). split; auto. apply in_map.
  pose proof (in_zseq (loop_count lo hi 1) lo 1 (Z.to_nat (z - lo))) as I. rewrite Z2Nat.id in I by lia.
  replace (lo + (z - lo) * 1) with z in I by lia. apply I. apply count_lt; lia.
Qed.

Lemma touches_tfor_ne {S} lo nb inc (s : S) (f : Z -> S -> thr V S) q : inc * inc = 1 -> 0 <= q < nb ->
  (forall s, touches b i (f (lo + q * inc) s)) -> touches b i (tfor_ne lo (lo + nb * inc) inc s f).
Proof.
  intros Hi Hq H. unfold tfor_ne. replace ((lo + nb * inc - lo) * inc) with nb by nia.
  destruct (_ && _) eqn:E.
  - apply (touches_titer b i _ lo inc f s (Z.to_nat q)); [apply Z2Nat.inj_lt; lia|]. rewrite Z2Nat.id by lia. auto.
  - exact I.
Qed.

End Out.
