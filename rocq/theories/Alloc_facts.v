(** * Running out of memory: programs in general, and the pieces of the library. *)

From Coq Require Import ZArith List Bool Lia.
From Verif Require Import Lang Lang_facts Exec Exec_facts Spec SpecTop SpecAlloc ModelAlloc ModelSizing ModelKernel ModelPack ModelSched ModelTop
     Touch_facts TouchOut_facts.
Import ListNotations.
Open Scope Z_scope.

Local Transparent pbind pfor pfor_ne ppar_for.

Section Gen.

Context {V : Type}.
(** every request is in [Q], every object freed in [Fr] *)
Fixpoint heap_ops {R} (Q : buf -> bool -> Prop) (Fr : buf -> Prop) (P : prog V R) : Prop :=
  match P with
  | PPar _ k => heap_ops Q Fr k
  | PAlloc b _ al _ k => Q b al /\ heap_ops Q Fr k
  | PFree b k => Fr b /\ heap_ops Q Fr k
  | _ => True
  end.

Lemma heap_mono {R} (Q Q' : buf -> bool -> Prop) (Fr Fr' : buf -> Prop) (P : prog V R) :
  (forall b al, Q b al -> Q' b al) -> (forall b, Fr b -> Fr' b) -> heap_ops Q Fr P -> heap_ops Q' Fr' P.
Proof. intros H1 H2. induction P; cbn [heap_ops]; auto; intuition. Qed.

Lemma heap_bind {R R'} Q Fr (P : prog V R) (f : R -> prog V R') :
  heap_ops Q Fr P -> (forall r, heap_ops Q Fr (f r)) -> heap_ops Q Fr (pbind P f).
Proof. intros H Hf. induction P; cbn [pbind heap_ops] in *; auto; tauto. Qed.

Lemma heap_piter {S} Q Fr n : forall z step (f : Z -> S -> prog V S) s,
  (forall z s, heap_ops Q Fr (f z s)) -> heap_ops Q Fr (piter n z step f s).
Proof. induction n; intros z step f s H; cbn [piter]; [exact I|]. apply heap_bind; auto. Qed.

Lemma heap_pfor {S} Q Fr lo hi step (s : S) (f : Z -> S -> prog V S) :
  (forall z s, heap_ops Q Fr (f z s)) -> heap_ops Q Fr (pfor lo hi step s f).
Proof. intros H. unfold pfor. destruct (0 <? step); [now apply heap_piter|]. destruct (lo <? hi); exact I. Qed.

Lemma heap_pfor_ne {S} Q Fr lo hi inc (s : S) (f : Z -> S -> prog V S) :
  (forall z s, heap_ops Q Fr (f z s)) -> heap_ops Q Fr (pfor_ne lo hi inc s f).
Proof. intros H. unfold pfor_ne. destruct (_ && _); [now apply heap_piter|exact I]. Qed.

Lemma heap_ppar Q Fr lo hi step (body : Z -> thr V unit) : heap_ops Q Fr (ppar_for lo hi step body).
Proof. unfold ppar_for. destruct (0 <? step); [exact I|destruct (lo <? hi); exact I]. Qed.

Variable fl : buf -> bool.

(** no path avoids a request that fails and is tested *)
Fixpoint must_exit {R} (P : prog V R) : Prop :=
  match P with
  | PRet _ => False
  | PPar _ k => must_exit k
  | PAlloc b _ al _ k => (fl b = true /\ al = true) \/ must_exit k
  | PFree _ k => must_exit k
  | PUB => True
  | PExit => True
  end.

Lemma oom_bind {R R'} (P : prog V R) (f : R -> prog V R') :
  out_of_memory fl (pbind P f) = pbind (out_of_memory fl P) (fun r => out_of_memory fl (f r)).
Proof.
  induction P; cbn [pbind out_of_memory]; auto; try (now rewrite IHP).
  - destruct (fl b); cbn [pbind]; [|now rewrite IHP]. destruct al; [reflexivity|]. destruct b; auto.
  - destruct (fl b); cbn [pbind]; [auto|now rewrite IHP].
Qed.

Lemma exit_bind_l {R R'} (P : prog V R) (f : R -> prog V R') : must_exit P -> must_exit (pbind P f).
Proof. induction P; cbn [pbind must_exit]; try tauto. Qed.

Lemma exit_bind_r {R R'} (P : prog V R) (f : R -> prog V R') : (forall r, must_exit (f r)) -> must_exit (pbind P f).
Proof. intros H. induction P; cbn [pbind must_exit]; auto. Qed.

Lemma exit_piter {S} n : forall z step (f : Z -> S -> prog V S) s j, (j < n)%nat ->
  (forall s, must_exit (f (z + Z.of_nat j * step) s)) -> must_exit (piter n z step f s).
Proof.
  induction n; intros z step f s j Hj H; [lia|]. cbn [piter]. destruct j.
  - apply exit_bind_l. specialize (H s). replace (z + Z.of_nat 0 * step) with z in H by lia. auto.
  - apply exit_bind_r; auto. intros s'. apply (IHn _ _ _ _ j); [lia|]. intros s''.
    replace (z + step + Z.of_nat j * step) with (z + Z.of_nat (Datatypes.S j) * step) by lia. auto.
Qed.

Lemma exit_pfor1 {S} lo hi (s : S) (f : Z -> S -> prog V S) z : lo <= z < hi ->
  (forall s, must_exit (f z s)) -> must_exit (pfor lo hi 1 s f).
Proof.
  intros Hz H. unfold pfor. cbn [Z.ltb Z.compare].
  apply (exit_piter _ _ _ _ _ (Z.to_nat (z - lo))); [apply count_lt; lia|].
  rewrite Z2Nat.id by lia. now replace (lo + (z - lo) * 1) with z by lia.
Qed.

Lemma oom_id {R} (P : prog V R) : heap_ops (fun b _ => fl b = false) (fun b => fl b = false) P -> out_of_memory fl P = P.
Proof.
  induction P; cbn [heap_ops out_of_memory]; auto.
  - intros H. now rewrite IHP.
  - intros (-> & H). now rewrite IHP.
  - intros (-> & H). now rewrite IHP.
Qed.

Definition tested : buf -> bool -> Prop := fun b al => fl b = true -> al = true.

Lemma psteps_live (s s' : pstate V) : psteps s s' -> forall b : buf, live (snd s') b = live (snd s) b.
Proof.
  intros H. induction H as [|s1 s2 s3 Hs _ IH]; auto. intros b. rewrite IH. destruct Hs as [ts1 t ts2 m t' m' Hs].
  cbn. apply (step_live t m t' m' Hs).
Qed.

(** With tested requests only: what an execution can be. *)
Lemma oom_exec {R} (P : prog V R) : forall m o, heap_ops tested (fun _ => True) P ->
  (forall b, fl b = true -> live m b = None) -> pexec (out_of_memory fl P) m o ->
  o = Exited \/ pexec P m Undef \/ pexec P m o.
Proof.
  induction P; intros m o Hh Hl H; cbn [heap_ops out_of_memory] in *.
  - auto.
  - inversion H as [| ts0 k0 m0' ts' m' o' Hs Hd Hk | | | | | | |]; subst.
    + assert (Hl' : forall b, fl b = true -> live m' b = None).
      { intros b Hb. pose proof (psteps_live (ts, m) (ts', m') Hs b) as E. cbn in E. rewrite E. auto. }
      destruct (IHP m' o Hh Hl' Hk) as [E|[E|E]]; auto.
      * right. left. eapply PE_par_ok; eauto.
      * right. right. eapply PE_par_ok; eauto.
    + right. left. eapply PE_par_ub; eauto.
  - destruct Hh as (Ht & Hh). destruct (fl b) eqn:Eb.
    + rewrite (Ht Eb) in H. left. now inversion H.
    + inversion H; subst.
      * assert (Hl' : forall b', fl b' = true -> live (do_alloc m b n al init) b' = None).
        { intros b' Hb'. cbn. destruct (buf_eqb_spec b b') as [->|]; [congruence|auto]. }
        edestruct (IHP (do_alloc m b n al init) o) as [E|[E|E]]; eauto.
        -- right. left. apply PE_alloc; auto.
        -- right. right. apply PE_alloc; auto.
      * right. left. now apply PE_alloc_ub.
  - destruct Hh as (_ & Hh). destruct (fl b) eqn:Eb.
    + right. left. apply PE_free_ub. auto.
    + inversion H; subst.
      * assert (Hl' : forall b', fl b' = true -> live (do_free m b) b' = None).
        { intros b' Hb'. cbn. destruct (buf_eqb_spec b b') as [->|]; auto. }
        edestruct (IHP (do_free m b) o) as [E|[E|E]]; eauto.
        -- right. left. apply PE_free; auto.
        -- right. right. apply PE_free; auto.
      * right. left. now apply PE_free_ub.
  - right. right. auto.
  - inversion H. auto.
Qed.

Lemma oom_exit {R} (P : prog V R) : forall m o, heap_ops tested (fun _ => True) P -> must_exit P ->
  (forall b, fl b = true -> live m b = None) -> pexec (out_of_memory fl P) m o ->
  o = Exited \/ pexec P m Undef.
Proof.
  induction P; intros m o Hh Hx Hl H; cbn [heap_ops must_exit out_of_memory] in *; try tauto.
  - inversion H as [| ts0 k0 m0' ts' m' o' Hs Hd Hk | | | | | | |]; subst.
    + assert (Hl' : forall b, fl b = true -> live m' b = None).
      { intros b Hb. pose proof (psteps_live (ts, m) (ts', m') Hs b) as E. cbn in E. rewrite E. auto. }
      destruct (IHP m' o Hh Hx Hl' Hk) as [E|E]; auto.
      right. eapply PE_par_ok; eauto.
    + right. eapply PE_par_ub; eauto.
  - destruct Hh as (Ht & Hh). destruct (fl b) eqn:Eb.
    + rewrite (Ht Eb) in H. left. now inversion H.
    + destruct Hx as [(Hx & _)|Hx]; [discriminate|]. inversion H; subst.
      * assert (Hl' : forall b', fl b' = true -> live (do_alloc m b n al init) b' = None).
        { intros b' Hb'. cbn. destruct (buf_eqb_spec b b') as [->|]; [congruence|auto]. }
        edestruct (IHP (do_alloc m b n al init) o) as [E|E]; eauto.
        right. apply PE_alloc; auto.
      * right. now apply PE_alloc_ub.
  - destruct Hh as (_ & Hh). destruct (fl b) eqn:Eb.
    + right. apply PE_free_ub. auto.
    + inversion H; subst.
      * assert (Hl' : forall b', fl b' = true -> live (do_free m b) b' = None).
        { intros b' Hb'. cbn. destruct (buf_eqb_spec b b') as [->|]; auto. }
        edestruct (IHP (do_free m b) o) as [E|E]; eauto.
        right. apply PE_free; auto.
      * right. now apply PE_free_ub.
  - right. constructor.
  - inversion H. auto.
Qed.

Lemma some_exec {R} (P : prog V R) m : exists o, pexec P m o.
Proof. exists (pseqexec P m). apply pseqexec_sound. Qed.

Lemma oom_always_exits {R} (P : prog V R) m Q : always P m Q -> heap_ops tested (fun _ => True) P -> must_exit P ->
  (forall b, fl b = true -> live m b = None) -> always_exits (out_of_memory fl P) m.
Proof.
  intros (_ & H) Hh Hx Hl. split; [apply some_exec|]. intros o Ho.
  destruct (oom_exit P m o Hh Hx Hl Ho) as [E|E]; auto. destruct (H _ E) as (r & m' & E' & _). discriminate.
Qed.

End Gen.

(** ** Pieces that request and free nothing *)

Definition no_heap {V R} (P : prog V R) : Prop := heap_ops (fun _ _ => False) (fun _ => False) P.

Lemma no_heap_any {V R} Q Fr (P : prog V R) : no_heap P -> heap_ops Q Fr P.
Proof. apply (heap_mono (fun _ _ => False) Q (fun _ => False) Fr); contradiction. Qed.

Lemma no_heap_oom {V R} fl (P : prog V R) : no_heap P -> out_of_memory fl P = P.
Proof. intros H. apply oom_id. now apply no_heap_any. Qed.

Ltac nh := repeat first
  [ exact I
  | apply heap_ppar
  | apply heap_pfor; intros
  | apply heap_pfor_ne; intros
  | apply heap_bind; intros
  | progress cbv zeta
  | match goal with
    | |- heap_ops _ _ (match ?x with _ => _ end) => destruct x
    | |- heap_ops _ _ (let _ := _ in _) => cbv zeta
    end ].

Local Opaque ppar_for pfor pfor_ne pbind.

Section Pieces.
Variable S : scalar.

Lemma nh_lift {A} (c : comp A) : no_heap (lift S c).
Proof. destruct c; exact I. Qed.

Lemma nh_pack_A A A_p M K p x c s : no_heap (pack_A S A A_p M K p x c s).
Proof.
  unfold no_heap. destruct s; cbn [pack_A]; unfold pack_A_single_buf_k_first, pack_A_single_buf_m_first, pack_A_single_buf_n_first, pfor_, pfor_ne_; nh.
Qed.

Lemma nh_pack_B B B_p K N p x c s : no_heap (pack_B S B B_p K N p x c s).
Proof.
  unfold no_heap. destruct s; cbn [pack_B]; unfold pack_B_k_first, pack_B_m_first, pack_B_n_first, packB_main, packB_tail, pfor_, pfor_ne_; nh.
Qed.

Lemma nh_pack_C C C_p M N p x c s : no_heap (pack_C S C C_p M N p x c s).
Proof.
  unfold no_heap. destruct s; cbn [pack_C]; unfold pack_C_single_buf_k_first, pack_C_single_buf_m_first, pack_C_single_buf_n_first, pfor_, pfor_ne_; nh.
Qed.

Lemma nh_unpack_C C C_p M N p x c s : no_heap (unpack_C S C C_p M N p x c s).
Proof.
  unfold no_heap. destruct s; cbn [unpack_C]; unfold unpack_C_single_buf_k_first, unpack_C_single_buf_m_first, unpack_C_single_buf_n_first, pfor_, pfor_ne_; nh.
Qed.

Lemma nh_schedule ar A_p B_p C_p M N K p c x s : no_heap (schedule S ar A_p B_p C_p M N K p c x s).
Proof. unfold no_heap. destruct s; cbn [schedule]; unfold schedule_MKN, schedule_NKM, pfor_, pfor_ne_; nh. Qed.

Lemma nh_KMN ar A_p B_p C M N K p c x : no_heap (schedule_KMN S ar A_p B_p C M N K p c x).
Proof. unfold no_heap, schedule_KMN, pfor_, pfor_ne_. nh. Qed.

Lemma nh_online so ar A B C M N K p c x : no_heap (schedule_KMN_online S so ar A B C M N K p c x).
Proof. unfold no_heap, schedule_KMN_online, pfor_, pfor_ne_. nh. Qed.

Lemma nh_2d ar A B C M N K c x : no_heap (schedule_KMN_2d S ar A B C M N K c x).
Proof. unfold no_heap, schedule_KMN_2d, pfor_, pfor_ne_. nh. Qed.

Lemma nh_2d_small ar A B C M N K p c x : no_heap (schedule_KMN_2d_small S ar A B C M N K p c x).
Proof. unfold no_heap, schedule_KMN_2d_small, pfor_, pfor_ne_. nh. Qed.

End Pieces.
