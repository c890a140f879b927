(** * Programs that cannot avoid reading an element of their own buffer that they never wrote.

    As in Touch_facts, but the buffer may be allocated and written by the program, as long as
    the element itself is not written before it is read. *)

From Coq Require Import ZArith List Bool Lia.
From Verif Require Import Lang Lang_facts Exec Exec_facts Touch_facts.
Import ListNotations.
Open Scope Z_scope.

Local Transparent tfor tfor_ne pfor pfor_ne ppar_for.

Section TouchAt.

Context {V : Type}.
Variables (b : buf) (i : Z).

(** never stores to element i of b without having read it; what it returns satisfies Q *)
Fixpoint keepq {R} (Q : R -> Prop) (t : thr V R) : Prop :=
  match t with
  | TRet r => Q r
  | TLoad _ b' i' k => (b' = b /\ i' = i) \/ forall v, keepq Q (k v)
  | TStore b' i' _ k => (b' <> b \/ i' <> i) /\ keepq Q k
  | TFail => True
  end.

Definition keepat {R} (t : thr V R) : Prop := keepq (fun _ => True) t.

Fixpoint pkeepat {R} (P : prog V R) : Prop :=
  match P with
  | PPar ts k => (forall t, In t ts -> keepat t) /\ pkeepat k
  | PAlloc b' _ _ init k => (b' <> b \/ init = None) /\ pkeepat k
  | PFree _ k => pkeepat k
  | PExit => False
  | _ => True
  end.

Fixpoint pmust {R} (P : prog V R) : Prop :=
  match P with
  | PPar ts k => (forall t, In t ts -> keepat t) /\ ((exists t, In t ts /\ touches b i t) \/ pmust k)
  | PAlloc b' _ _ init k => (b' <> b \/ init = None) /\ pmust k
  | PFree _ k => pmust k
  | PUB => True
  | _ => False
  end.

Definition same_at (m m' : mem V) : Prop := live m' b = live m b /\ dat m' b i = dat m b i.

Lemma same_at_unreadable m m' : same_at m m' -> unreadable b i m -> unreadable b i m'.
Proof.
  intros (H1 & H2) H al. specialize (H al). unfold load in *. rewrite H1. destruct (live m b) as [bi|]; auto.
  destruct (_ && _); auto. now rewrite H2.
Qed.

Lemma step_same_at t m t' m' : unreadable b i m -> keepat t -> tstep t m t' m' -> same_at m m' /\ keepat (R:=unit) t'.
Proof.
  intros Hu Hk H. destruct H; cbn in Hk.
  - destruct Hk as [(-> & ->)|Hk]; [rewrite Hu in H; discriminate|]. split; [split; auto|apply Hk].
  - destruct Hk as (Hb & Hk). split; auto. split; [reflexivity|]. cbn.
    destruct (buf_eqb_spec b0 b) as [->|]; [|reflexivity].
    destruct Hb as [Hb|Hb]; [congruence|]. cbn. now rewrite (proj2 (Z.eqb_neq i0 i)).
Qed.

Definition inv_at (m0 : mem V) (s : pstate V) : Prop :=
  (forall t, In t (fst s) -> keepat t) /\ same_at m0 (snd s).

Lemma same_at_trans m1 m2 m3 : same_at m1 m2 -> same_at m2 m3 -> same_at m1 m3.
Proof. intros (A1 & A2) (B1 & B2). split; congruence. Qed.

Lemma pstep_inv_at m0 s s' : unreadable b i m0 -> inv_at m0 s -> pstep s s' -> inv_at m0 s'.
Proof.
  intros Hu0 (H1 & H2) H. destruct H as [ts1 t ts2 m t' m' H]. cbn [fst snd] in *.
  destruct (step_same_at t m t' m') as (Q1 & Q2); auto. { eapply same_at_unreadable; eauto. } { apply H1. rewrite in_app_iff; cbn; auto. }
  split; cbn [fst snd]; [|eapply same_at_trans; eauto].
  intros u Hu. rewrite in_app_iff in Hu. cbn in Hu. destruct Hu as [Hu|[<-|Hu]]; auto; apply H1; rewrite in_app_iff; cbn; auto.
Qed.

Lemma psteps_inv_at m0 s s' : unreadable b i m0 -> inv_at m0 s -> psteps s s' -> inv_at m0 s'.
Proof. intros Hu H Hs. induction Hs; auto. apply IHHs. eapply pstep_inv_at; eauto. Qed.

Lemma pstep_touch_at m0 s s' : unreadable b i m0 -> inv_at m0 s -> pstep s s' ->
  (exists t, In t (fst s) /\ touches b i t) -> exists t, In t (fst s') /\ touches b i t.
Proof.
  intros Hu (H1 & H2) H (u & Hin & Ht). destruct H as [ts1 t ts2 m t' m' H]. cbn [fst snd] in *.
  rewrite in_app_iff in Hin. cbn in Hin. destruct Hin as [Hin|[<-|Hin]].
  - exists u. rewrite in_app_iff. auto.
  - exists t'. split; [rewrite in_app_iff; cbn; auto|]. eapply step_touch; [|exact Ht|exact H].
    eapply same_at_unreadable; eauto.
  - exists u. split; [rewrite in_app_iff; cbn; auto|auto].
Qed.

Lemma psteps_touch_at m0 s s' : unreadable b i m0 -> inv_at m0 s -> psteps s s' ->
  (exists t, In t (fst s) /\ touches b i t) -> exists t, In t (fst s') /\ touches b i t.
Proof.
  intros Hu H Hs. induction Hs; auto. intros Ht. apply IHHs; [eapply pstep_inv_at; eauto|].
  eapply pstep_touch_at; eauto.
Qed.

Lemma pmust_undef {R} (P : prog V R) m o : pmust P -> unreadable b i m -> pexec P m o -> o = Undef.
Proof.
  intros Ht Hu H. revert Ht Hu. induction H; cbn [pmust]; try tauto; auto.
  - intros (Hk & Ht) Hu. assert (I : inv_at m (ts, m)) by (split; [auto|split; auto]).
    destruct Ht as [Ht|Ht].
    + destruct (psteps_touch_at _ _ _ Hu I H Ht) as (t & Hin & Hto). exfalso.
      rewrite (H0 t Hin) in Hto. exact Hto.
    + apply IHpexec; auto. destruct (psteps_inv_at _ _ _ Hu I H) as (_ & Hs). eapply same_at_unreadable; eauto.
  - intros (Hb & Ht) Hu. apply IHpexec; auto. intros al0. unfold load. cbn.
    destruct (buf_eqb_spec b0 b) as [->|].
    + destruct Hb as [Hb|Hb]; [congruence|]. rewrite Hb. now destruct (_ && _).
    + exact (Hu al0).
  - intros Ht Hu. apply IHpexec; auto. intros al0. unfold load. cbn. destruct (buf_eqb b0 b); [reflexivity|]. exact (Hu al0).
Qed.

Lemma pmust_exec {R} (P : prog V R) m : pmust P -> unreadable b i m ->
  pexec P m Undef /\ forall o, pexec P m o -> o = Undef.
Proof.
  intros Ht Hu. assert (H : forall o, pexec P m o -> o = Undef) by (intros o; now apply pmust_undef).
  split; auto. pose proof (pseqexec_sound P m) as Hs. now rewrite <- (H _ Hs).
Qed.

(** ** Composition *)

Lemma keepq_bind {R R'} (Q : R -> Prop) (Q' : R' -> Prop) (t : thr V R) (f : R -> thr V R') :
  keepq Q t -> (forall r, Q r -> keepq Q' (f r)) -> keepq Q' (tbind t f).
Proof.
  intros Ht Hf. revert Ht. induction t as [r|al b' i' k IH|b' i' v k IH|]; cbn [tbind keepq].
  - apply Hf.
  - intros [H|H]; [auto|right]. intros w. now apply IH.
  - intros (H1 & H2). split; auto.
  - auto.
Qed.

Lemma keepq_weaken {R} (Q Q' : R -> Prop) (t : thr V R) : (forall r, Q r -> Q' r) -> keepq Q t -> keepq Q' t.
Proof.
  intros H. induction t as [r|al b' i' k IH|b' i' v k IH|]; cbn; auto.
  - intros [H1|H1]; auto.
  - intros (H1 & H2). auto.
Qed.

Lemma keeps_at {R} (t : thr V R) : keeps b t -> keepat t.
Proof.
  unfold keepat. induction t as [r|al b' i' k IH|b' i' v k IH|]; cbn; auto.
  intros (H1 & H2). split; auto.
Qed.

(** once it has read the element it may do anything *)
Lemma keepat_touch {R R'} (t : thr V R) (f : R -> thr V R') : keeps b t -> touches b i t -> keepat (tbind t f).
Proof.
  unfold keepat. induction t as [r|al b' i' k IH|b' i' v k IH|]; cbn [keeps touches tbind keepq]; [tauto| | |auto].
  - intros Hk [H|H]; [auto|right]. intros w. apply IH; auto.
  - intros (H1 & H2) H. split; auto.
Qed.

Lemma keepat_bind {R R'} (t : thr V R) (f : R -> thr V R') : keepat t -> (forall r, keepat (f r)) -> keepat (tbind t f).
Proof. intros H1 H2. eapply keepq_bind; [exact H1|]. intros r _. apply H2. Qed.

Lemma keepat_tfor {S} lo hi step (s : S) (f : Z -> S -> thr V S) :
  (forall z s, keepat (f z s)) -> keepat (tfor lo hi step s f).
Proof.
  intros H. assert (G : forall n z s, keepat (titer n z step f s)).
  { induction n; intros; cbn [titer]; [exact I|]. apply keepat_bind; auto. }
  unfold tfor. destruct (0 <? step); [apply G|]. destruct (lo <? hi); exact I.
Qed.

Lemma keepq_tfor_step {S} cnt step (s : S) (f : Z -> S -> thr V S) (I : Z -> S -> Prop) : 0 < step -> 0 <= cnt ->
  (forall q s, 0 <= q < cnt -> I q s -> keepq (I (q + 1)) (f (q * step) s)) -> I 0 s ->
  keepq (I cnt) (tfor 0 (cnt * step) step s f).
Proof.
  intros Hs Hc H HI. unfold tfor. rewrite (proj2 (Z.ltb_lt 0 step)) by auto.
  assert (En : loop_count 0 (cnt * step) step = Z.to_nat cnt).
  { unfold loop_count. f_equal. symmetry. apply (Z.div_unique _ step cnt (step - 1)); lia. }
  rewrite En.
  assert (G : forall n q s, Z.of_nat n = cnt - q -> 0 <= q -> I q s -> keepq (I cnt) (titer n (q * step) step f s)).
  { induction n; intros q s' Eq Hq HIq; cbn [titer].
    - now replace cnt with q by lia.
    - apply (keepq_bind (I (q + 1))); [apply H; auto; lia|]. intros r Hr.
      replace (q * step + step) with ((q + 1) * step) by ring. apply IHn; auto; lia. }
  change 0 with (0 * step) at 1. apply G; auto; lia.
Qed.

Lemma keepq_tfor {S} lo hi (s : S) (f : Z -> S -> thr V S) (I : Z -> S -> Prop) : lo <= hi ->
  (forall z s, lo <= z < hi -> I z s -> keepq (I (z + 1)) (f z s)) -> I lo s -> keepq (I hi) (tfor lo hi 1 s f).
Proof.
  intros Hh H HI. unfold tfor. cbn [Z.ltb Z.compare].
  assert (G : forall n z s, Z.of_nat n = hi - z -> lo <= z -> I z s -> keepq (I hi) (titer n z 1 f s)).
  { induction n; intros z s' En Hz HIz; cbn [titer].
    - now replace hi with z by lia.
    - apply (keepq_bind (I (z + 1))); [apply H; auto; lia|]. intros r Hr. apply IHn; auto; lia. }
  apply G; auto; [|lia]. unfold loop_count. rewrite Z.div_1_r. lia.
Qed.

Lemma pkeepat_bind {R R'} (P : prog V R) (f : R -> prog V R') : pkeepat P -> (forall r, pkeepat (f r)) -> pkeepat (pbind P f).
Proof. intros HP Hf. revert HP. induction P; cbn [pbind pkeepat]; auto; intros (H1 & H2); split; auto. Qed.

Lemma pmust_bind_l {R R'} (P : prog V R) (f : R -> prog V R') : pmust P -> pmust (pbind P f).
Proof. induction P; cbn [pbind pmust]; try tauto; auto; intros (H1 & H2); split; auto. Qed.

Lemma pmust_bind_r {R R'} (P : prog V R) (f : R -> prog V R') : pkeepat P -> (forall r, pmust (f r)) -> pmust (pbind P f).
Proof. intros HP Hf. revert HP. induction P; cbn [pbind pkeepat pmust]; auto; intros (H1 & H2); split; auto. Qed.

Lemma pkeepat_piter {S} n : forall z step (f : Z -> S -> prog V S) s,
  (forall z s, pkeepat (f z s)) -> pkeepat (piter n z step f s).
Proof. induction n; intros z step f s H; cbn [piter]; [exact I|]. apply pkeepat_bind; auto. Qed.

Lemma pkeepat_pfor {S} lo hi step (s : S) (f : Z -> S -> prog V S) :
  (forall z s, pkeepat (f z s)) -> pkeepat (pfor lo hi step s f).
Proof. intros H. unfold pfor. destruct (0 <? step); [now apply pkeepat_piter|]. destruct (lo <? hi); exact I. Qed.

(** the first iteration *)
Lemma pmust_pfor0 {S} lo hi (s : S) (f : Z -> S -> prog V S) : lo < hi -> pmust (f lo s) -> pmust (pfor lo hi 1 s f).
Proof.
  intros Hz H. unfold pfor. cbn [Z.ltb Z.compare]. unfold loop_count. rewrite Z.div_1_r.
  destruct (Z.to_nat (hi - lo + 1 - 1)) eqn:E; [lia|]. cbn [piter]. now apply pmust_bind_l.
Qed.

Lemma in_zseq_inv n : forall z0 step z, In z (zseq n z0 step) -> exists j, (j < n)%nat /\ z = z0 + Z.of_nat j * step.
Proof.
  induction n; intros z0 step z H; [destruct H|]. cbn in H. destruct H as [<-|H].
  - exists 0%nat. split; lia.
  - destruct (IHn _ _ _ H) as (j & Hj & ->). exists (Datatypes.S j). split; lia.
Qed.

Lemma count_gt lo hi step j : 0 < step -> (j < loop_count lo hi step)%nat -> lo + Z.of_nat j * step < hi.
Proof.
  intros Hs H. unfold loop_count in H.
  assert (G : Z.of_nat j + 1 <= (hi - lo + step - 1) / step) by lia.
  pose proof (Z.mul_div_le (hi - lo + step - 1) step Hs). nia.
Qed.

Lemma pkeepat_pfor1 {S} lo hi (s : S) (f : Z -> S -> prog V S) :
  (forall z s, lo <= z < hi -> pkeepat (f z s)) -> pkeepat (pfor lo hi 1 s f).
Proof.
  intros H. unfold pfor. cbn [Z.ltb Z.compare]. unfold loop_count. rewrite Z.div_1_r.
  assert (G : forall n z s, lo <= z -> z + Z.of_nat n <= Z.max lo hi -> pkeepat (piter n z 1 f s)).
  { induction n; intros z s' Hz Hn; cbn [piter]; [exact I|]. apply pkeepat_bind; [apply H; lia|]. intros r. apply IHn; lia. }
  apply G; lia.
Qed.

Lemma pkeepat_pfor_ne {S} lo hi inc (s : S) (f : Z -> S -> prog V S) :
  (forall z s, pkeepat (f z s)) -> pkeepat (pfor_ne lo hi inc s f).
Proof. intros H. unfold pfor_ne. destruct (_ && _); [now apply pkeepat_piter|exact I]. Qed.

Lemma pmust_piter {S} n : forall z step (f : Z -> S -> prog V S) s j, (j < n)%nat ->
  (forall z s, pkeepat (f z s)) ->
  (forall s, pmust (f (z + Z.of_nat j * step) s)) -> pmust (piter n z step f s).
Proof.
  induction n; intros z step f s j Hj Hk H; [lia|]. cbn [piter]. destruct j.
  - apply pmust_bind_l. specialize (H s). replace (z + Z.of_nat 0 * step) with z in H by lia. auto.
  - apply pmust_bind_r; auto. intros s'. apply (IHn _ _ _ _ j); [lia|auto|]. intros s''.
    replace (z + step + Z.of_nat j * step) with (z + Z.of_nat (Datatypes.S j) * step) by lia. auto.
Qed.

Lemma pmust_pfor1 {S} lo hi (s : S) (f : Z -> S -> prog V S) z : lo <= z < hi ->
  (forall z s, pkeepat (f z s)) -> (forall s, pmust (f z s)) -> pmust (pfor lo hi 1 s f).
Proof.
  intros Hz Hk H. unfold pfor. cbn [Z.ltb Z.compare].
  apply (pmust_piter _ _ _ _ _ (Z.to_nat (z - lo))); [apply count_lt; lia|auto|].
  rewrite Z2Nat.id by lia. now replace (lo + (z - lo) * 1) with z by lia.
Qed.

Lemma pmust_pfor_ne {S} lo nb inc (s : S) (f : Z -> S -> prog V S) q : inc * inc = 1 -> 0 <= q < nb ->
  (forall z s, pkeepat (f z s)) ->
  (forall s, pmust (f (lo + q * inc) s)) -> pmust (pfor_ne lo (lo + nb * inc) inc s f).
Proof.
  intros Hi Hq Hk H. unfold pfor_ne. replace ((lo + nb * inc - lo) * inc) with nb by nia.
  replace ((0 <=? nb) && (inc * inc =? 1)) with true by (rewrite Hi; symmetry; cbn; lia).
  apply (pmust_piter _ _ _ _ _ (Z.to_nat q)); [lia|auto|]. now rewrite Z2Nat.id by lia.
Qed.

(** what the program leaves alone *)
Lemma pkeepat_same {R} (P : prog V R) m r m' : pkeepat P -> unreadable b i m -> dat m b i = None ->
  pexec P m (Done r m') -> dat m' b i = None.
Proof.
  intros Hk Hu Hd H. remember (Done r m') as o. revert Hk Hu Hd Heqo. induction H; cbn [pkeepat]; try discriminate; try tauto.
  - intros _ Hu Hd E. injection E as <- <-. auto.
  - intros (Hk & Ht) Hu Hd E. assert (I : inv_at m (ts, m)) by (split; [auto|split; auto]).
    destruct (psteps_inv_at _ _ _ Hu I H) as (_ & Hs). pose proof (proj2 Hs) as Hs2. cbn [snd] in Hs2.
    apply IHpexec; auto; [eapply same_at_unreadable; eauto|congruence].
  - intros (Hb & Ht) Hu Hd E. apply IHpexec; auto.
    + intros al0. unfold load. cbn. destruct (buf_eqb_spec b0 b) as [->|].
      * destruct Hb as [Hb|Hb]; [congruence|]. rewrite Hb. now destruct (_ && _).
      * exact (Hu al0).
    + cbn. destruct (buf_eqb_spec b0 b) as [->|]; [|auto]. destruct Hb as [Hb|Hb]; [congruence|auto].
  - intros Ht Hu Hd E. apply IHpexec; auto; [intros al0; unfold load|]; cbn; destruct (buf_eqb b0 b); auto. exact (Hu al0).
Qed.

Lemma pkeepat_ppar lo hi step (body : Z -> thr V unit) :
  (forall q, 0 <= q -> lo + q * step < hi -> keepat (body (lo + q * step))) -> pkeepat (ppar_for lo hi step body).
Proof.
  intros H. unfold ppar_for. destruct (Z.ltb_spec 0 step); [|destruct (lo <? hi); exact I].
  cbn. split; auto. intros t Ht. apply in_map_iff in Ht. destruct Ht as (z & <- & Hz).
  apply in_zseq_inv in Hz. destruct Hz as (j & Hj & ->). apply H; [lia|]. now apply count_gt.
Qed.

Lemma pmust_ppar1 lo hi (body : Z -> thr V unit) z : lo <= z < hi ->
  (forall z, keepat (body z)) -> touches b i (body z) -> pmust (ppar_for lo hi 1 body).
Proof.
  intros Hz Hk H. unfold ppar_for. cbn [Z.ltb Z.compare]. cbn [pmust]. split.
  - intros t Ht. apply in_map_iff in Ht. destruct Ht as (y & <- & _). auto.
  - left. exists (body z). split; auto. apply in_map.
    pose proof (in_zseq (loop_count lo hi 1) lo 1 (Z.to_nat (z - lo))) as G. rewrite Z2Nat.id in G by lia.
    replace (lo + (z - lo) * 1) with z in G by lia. apply G. apply count_lt; lia.
Qed.

End TouchAt.
