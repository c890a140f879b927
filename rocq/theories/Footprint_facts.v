(** * Frames: which objects a program may store to, allocate and free, whatever its arguments. *)

From Coq Require Import ZArith List Bool Lia.
From Verif Require Import Lang Lang_facts SpecTop ModelSizing ModelKernel ModelPack ModelSched ModelTop.
Import ListNotations.
Open Scope Z_scope.
Local Transparent tbind tload tload_al tstore tfor tfor_ne pbind.

Section Frame.

Context {V : Type}.
Variable W : buf -> Prop.

Definition lives : Type := buf -> option binfo.
Definition born (l : lives) (b : buf) (bi : binfo) : lives := fun b' => if buf_eqb b b' then Some bi else l b'.
Definition gone (l : lives) (b : buf) : lives := fun b' => if buf_eqb b b' then None else l b'.

(** Every store goes to an object of [W]. *)
Fixpoint twr {R} (t : thr V R) : Prop :=
  match t with
  | TRet _ => True
  | TLoad _ _ _ k => forall v, twr (k v)
  | TStore b _ _ k => W b /\ twr k
  | TFail => True
  end.

(** [Q] holds of the result and of the live objects at the end of every finished execution that starts
    with the live objects [l]. *)
Fixpoint pfr {R} (p : prog V R) (l : lives) (Q : R -> lives -> Prop) : Prop :=
  match p with
  | PRet r => Q r l
  | PPar ts k => (forall t, In t ts -> twr t) /\ pfr k l Q
  | PAlloc b n al init k => W b /\ (l b = None -> pfr k (born l b (BInfo n al)) Q)
  | PFree b k => W b /\ (l b <> None -> pfr k (gone l b) Q)
  | PUB => True
  | PExit => True
  end.

(** ** Threads *)

Lemma twr_bind {R R'} (t : thr V R) (f : R -> thr V R') : twr t -> (forall r, twr (f r)) -> twr (tbind t f).
Proof. induction t; cbn; intuition auto. Qed.

Lemma twr_load b i : twr (tload b i : thr V V). Proof. cbn. auto. Qed.
Lemma twr_load_al al b i : twr (tload_al al b i : thr V V). Proof. cbn. auto. Qed.
Lemma twr_store b i v : W b -> twr (tstore b i v : thr V unit). Proof. cbn. auto. Qed.

Lemma twr_titer {S} (f : Z -> S -> thr V S) step : (forall i s, twr (f i s)) -> forall n i s, twr (titer n i step f s).
Proof. intros H. induction n as [|n IH]; intros i s; cbn [titer]; [exact I|]. apply twr_bind; auto. Qed.

Lemma twr_for {S} (f : Z -> S -> thr V S) lo hi step s : (forall i s, twr (f i s)) -> twr (tfor lo hi step s f).
Proof. intros H. unfold tfor. destruct (0 <? step); [now apply twr_titer|]. destruct (lo <? hi); exact I. Qed.

Lemma twr_for_ (f : Z -> thr V unit) lo hi step : (forall i, twr (f i)) -> twr (tfor_ lo hi step f).
Proof. intros H. now apply twr_for. Qed.

Lemma twr_for_ne {S} (f : Z -> S -> thr V S) a b inc s : (forall i s, twr (f i s)) -> twr (tfor_ne a b inc s f).
Proof. intros H. unfold tfor_ne. destruct (_ && _); [now apply twr_titer|exact I]. Qed.

Lemma twr_for_ne_ (f : Z -> thr V unit) a b inc : (forall i, twr (f i)) -> twr (tfor_ne_ a b inc f).
Proof. intros H. now apply twr_for_ne. Qed.

(** ** Programs *)

Lemma pfr_mono {R} (p : prog V R) (Q Q' : R -> lives -> Prop) : (forall r l, Q r l -> Q' r l) -> forall l, pfr p l Q -> pfr p l Q'.
Proof. intros H. induction p; cbn; intuition auto. Qed.

Lemma pfr_bind {R R'} (p : prog V R) (f : R -> prog V R') Q : forall l, pfr p l (fun r l' => pfr (f r) l' Q) -> pfr (pbind p f) l Q.
Proof. induction p; cbn; intuition auto. Qed.

Lemma pfr_ret {R} (r : R) l (Q : R -> lives -> Prop) : Q r l -> pfr (PRet r) l Q.
Proof. auto. Qed.

Lemma pfr_alloc b n al init l (Q : unit -> lives -> Prop) : W b -> (l b = None -> Q tt (born l b (BInfo n al))) -> pfr (palloc b n al init) l Q.
Proof. cbn. auto. Qed.

Lemma pfr_free b l (Q : unit -> lives -> Prop) : W b -> (l b <> None -> Q tt (gone l b)) -> pfr (pfree b) l Q.
Proof. cbn. auto. Qed.

Lemma pfr_par lo hi step body l (Q : unit -> lives -> Prop) : (forall i, twr (body i)) -> Q tt l -> pfr (ppar_for lo hi step body) l Q.
Proof.
  intros H HQ. unfold ppar_for. destruct (0 <? step).
  - split; [|exact HQ]. intros t Ht. apply in_map_iff in Ht. destruct Ht as (i & <- & _). apply H.
  - destruct (lo <? hi); [exact I|exact HQ].
Qed.

(** Programs without allocation *)
Definition still {R} (p : prog V R) : Prop := forall l, pfr p l (fun _ l' => l' = l).

Lemma still_bind {R R'} (p : prog V R) (f : R -> prog V R') : still p -> (forall r, still (f r)) -> still (pbind p f).
Proof. intros Hp Hf l. apply pfr_bind. eapply pfr_mono; [|apply Hp]. intros r l' ->. apply Hf. Qed.

Lemma still_ret {R} (r : R) : still (PRet r). Proof. intros l. reflexivity. Qed.
Lemma still_ub {R} : still (PUB : prog V R). Proof. intros l. exact I. Qed.
Lemma still_exit {R} : still (PExit : prog V R). Proof. intros l. exact I. Qed.

Lemma still_par lo hi step body : (forall i, twr (body i)) -> still (ppar_for lo hi step body).
Proof. intros H l. now apply pfr_par. Qed.

Lemma still_piter {S} (f : Z -> S -> prog V S) step : (forall i s, still (f i s)) -> forall n i s, still (piter n i step f s).
Proof. intros H. induction n as [|n IH]; intros i s; cbn [piter]; [apply still_ret|]. apply still_bind; auto. Qed.

Lemma still_for {S} (f : Z -> S -> prog V S) lo hi step s : (forall i s, still (f i s)) -> still (pfor lo hi step s f).
Proof. intros H. unfold pfor. destruct (0 <? step); [now apply still_piter|]. destruct (lo <? hi); [apply still_ub|apply still_ret]. Qed.

Lemma still_for_ (f : Z -> prog V unit) lo hi step : (forall i, still (f i)) -> still (pfor_ lo hi step f).
Proof. intros H. now apply still_for. Qed.

Lemma still_for_ne (f : Z -> prog V unit) a b inc : (forall i, still (f i)) -> still (pfor_ne_ a b inc f).
Proof. intros H. unfold pfor_ne_, pfor_ne. destruct (_ && _); [now apply still_piter|apply still_ub]. Qed.

(** A loop that allocates one object per round, and one that frees them *)
Lemma pfr_alloc_loop p (f : Z -> buf) n al init l (Q : unit -> lives -> Prop) :
  (forall i, W (f i)) -> (forall i j, f i = f j -> i = j) ->
  (forall l', (forall i, 0 <= i < p -> l (f i) = None) -> (forall b, (forall i, 0 <= i < p -> b <> f i) -> l' b = l b) -> Q tt l') ->
  pfr (pfor_ 0 p 1 (fun i => palloc (f i) n al init)) l Q.
Proof.
  intros HW Hinj HQ. unfold pfor_, pfor. change (0 <? 1) with true. cbn iota. unfold loop_count. rewrite Z.div_1_r.
  assert (G : forall k z l0 (Q0 : unit -> lives -> Prop),
     (forall l', (forall i, z <= i < z + Z.of_nat k -> l0 (f i) = None) -> (forall b, (forall i, z <= i < z + Z.of_nat k -> b <> f i) -> l' b = l0 b) -> Q0 tt l') ->
     pfr (piter k z 1 (fun i (_ : unit) => palloc (f i) n al init) tt) l0 Q0).
  { induction k as [|k IH]; intros z l0 Q0 H; cbn [piter].
    - apply H; [intros; lia|auto].
    - apply pfr_bind, pfr_alloc; [apply HW|]. intros Hz. apply IH. intros l' H1 H2. apply H.
      + intros i Hi. destruct (Z.eq_dec i z) as [->|Hne]; [exact Hz|].
        specialize (H1 i ltac:(lia)). unfold born in H1. destruct (buf_eqb_spec (f z) (f i)) as [E|E]; [discriminate|exact H1].
      + intros b Hb. rewrite H2 by (intros i Hi; apply Hb; lia). unfold born.
        destruct (buf_eqb_spec (f z) b) as [E|E]; [exfalso; apply (Hb z); [lia|congruence]|reflexivity]. }
  apply G. intros l' H1 H2. apply HQ; [intros i Hi; apply H1; lia|intros b Hb; apply H2; intros i Hi; apply Hb; lia].
Qed.

Lemma pfr_free_loop p (body : Z -> prog V unit) (fs : list (Z -> buf)) l (Q : unit -> lives -> Prop) :
  (forall i l0 (Q0 : unit -> lives -> Prop), (forall l', (forall b, (forall f, In f fs -> b <> f i) -> l' b = l0 b) -> (forall f, In f fs -> l' (f i) = None) -> Q0 tt l') -> pfr (body i) l0 Q0) ->
  (forall f g i j, In f fs -> In g fs -> f i = g j -> i = j) ->
  (forall l', (forall i f, 0 <= i < p -> In f fs -> l' (f i) = None) -> (forall b, (forall i f, 0 <= i < p -> In f fs -> b <> f i) -> l' b = l b) -> Q tt l') ->
  pfr (pfor_ 0 p 1 body) l Q.
Proof.
  intros Hb Hinj HQ. unfold pfor_, pfor. change (0 <? 1) with true. cbn iota. unfold loop_count. rewrite Z.div_1_r.
  assert (G : forall k z l0 (Q0 : unit -> lives -> Prop),
     (forall l', (forall i f, z <= i < z + Z.of_nat k -> In f fs -> l' (f i) = None) -> (forall b, (forall i f, z <= i < z + Z.of_nat k -> In f fs -> b <> f i) -> l' b = l0 b) -> Q0 tt l') ->
     pfr (piter k z 1 (fun i (_ : unit) => body i) tt) l0 Q0).
  { induction k as [|k IH]; intros z l0 Q0 H; cbn [piter].
    - apply H; [intros; lia|auto].
    - apply pfr_bind, Hb. intros l1 A1 A2. apply IH. intros l' H1 H2. apply H.
      + intros i f Hi Hf. destruct (Z.eq_dec i z) as [->|Hne]; [|apply H1; auto; lia].
        rewrite H2; [now apply A2|]. intros j g Hj Hg E. apply (Hinj f g z j) in E; auto; lia.
      + intros b Hbb. rewrite H2 by (intros i f Hi; apply Hbb; lia). apply A1. intros f Hf. apply (Hbb z); auto; lia. }
  apply G. intros l' H1 H2. apply HQ; [intros i f Hi; apply H1; lia|intros b Hbb; apply H2; intros i f Hi; apply Hbb; lia].
Qed.

(** ** Executions *)

Lemma wr_step t m t' m' : tstep t m t' m' -> twr t -> twr t' /\ live m' = live m /\ forall b i, ~ W b -> dat m' b i = dat m b i.
Proof.
  intros [al b i k v m1 L|b i v k m1 L]; cbn; [auto|]. intros (Hb & Hk). split; [exact Hk|]. split; [reflexivity|].
  intros b' i' Hn. destruct (buf_eqb_spec b b') as [->|E]; [contradiction|reflexivity].
Qed.

Lemma wr_steps s s' : psteps s s' -> (forall t, In t (fst s) -> twr t) ->
  live (snd s') = live (snd s) /\ forall b i, ~ W b -> dat (snd s') b i = dat (snd s) b i.
Proof.
  induction 1 as [s|s1 s2 s3 H1 H2 IH]; intros Hs; [auto|].
  destruct H1 as [ts1 t ts2 m t' m' Ht]. cbn [fst snd] in *.
  destruct (wr_step _ _ _ _ Ht) as (A1 & A2 & A3); [apply Hs, in_or_app; right; left; reflexivity|].
  destruct IH as (B1 & B2).
  - intros u Hu. apply in_app_or in Hu. destruct Hu as [Hu|[<-|Hu]]; [apply Hs, in_or_app; auto|exact A1|apply Hs, in_or_app; right; right; exact Hu].
  - split; [now rewrite B1|]. intros b i Hb. rewrite B2, A3; auto.
Qed.

Lemma pfr_sound {R} (p : prog V R) : forall m r m' Q, pexec p m (Done r m') -> pfr p (live m) Q ->
  Q r (live m') /\ forall b i, ~ W b -> dat m' b i = dat m b i.
Proof.
  induction p as [r0|ts k IH|b n al init k IH|b k IH| |]; intros m r m' Q Hx HQ; inversion Hx; subst; cbn in HQ.
  - auto.
  - destruct HQ as (Ht & Hk).
    match goal with H : psteps _ _ |- _ => destruct (wr_steps _ _ H Ht) as (A1 & A2) end. cbn [fst snd] in *.
    match goal with H : pexec k ?m1 _ |- _ => rewrite <- A1 in Hk; destruct (IH m1 r m' Q H Hk) as (B1 & B2) end.
    split; [exact B1|]. intros b i Hb. now rewrite B2, A2.
  - destruct HQ as (Hb & Hk).
    match goal with H : pexec k ?m1 _, L : live m b = None |- _ => destruct (IH m1 r m' Q H (Hk L)) as (B1 & B2) end.
    split; [exact B1|]. intros b' i Hn. rewrite B2 by exact Hn. cbn [do_alloc dat].
    destruct (buf_eqb_spec b b') as [->|E]; [contradiction|reflexivity].
  - destruct HQ as (Hb & Hk).
    match goal with H : pexec k ?m1 _, L : live m b <> None |- _ => destruct (IH m1 r m' Q H (Hk L)) as (B1 & B2) end.
    split; [exact B1|]. intros b' i Hn. rewrite B2 by exact Hn. cbn [do_free dat].
    try reflexivity; destruct (buf_eqb_spec b b') as [->|E]; [contradiction|reflexivity].
Qed.

End Frame.
