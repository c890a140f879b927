(** * Loops that fill consecutive blocks of one object. *)

From Coq Require Import ZArith List Bool Lia.
From Verif Require Import Lang Lang_facts Kernel_facts.
Import ListNotations.
Open Scope Z_scope.

Section L.

Context {V : Type}.
Notation mem := (mem V).
Notation thr := (thr V).
Notation prog := (prog V).

Definition same_on (db : buf) (lo hi : Z) (m1 m2 : mem) : Prop :=
  forall x, lo <= x < hi -> dat m1 db x = dat m2 db x.

Definition same_out (W : region) (m1 m2 : mem) : Prop :=
  forall b x, ~ W b x -> dat m2 b x = dat m1 b x.

(** [P] only depends on the cells lo..hi-1 of [db]. *)
Definition stable (db : buf) (lo hi : Z) (P : mem -> Prop) : Prop :=
  forall m1 m2, same_on db lo hi m1 m2 -> P m1 -> P m2.

Lemma blk_loop (g : Z -> Z -> thr Z) db d0 n lo hi step w ind0 (P : Z -> mem -> Prop)
      (Rd : region) m :
  0 < step -> 0 <= n -> hi = lo + n * step -> 0 <= w ->
  (forall q, 0 <= q < n -> stable db (d0 + q * w) (d0 + (q + 1) * w) (P q)) ->
  (forall q m', 0 <= q < n -> live m' = live m ->
     (forall b x, ~ rng db d0 (d0 + n * w) b x -> dat m' b x = dat m b x) ->
     twp (rng db (d0 + q * w) (d0 + (q + 1) * w)) Rd (g (lo + q * step) (ind0 + q * w))
         (fun ind' m'' => ind' = ind0 + (q + 1) * w /\ P q m'') m') ->
  twp (rng db d0 (d0 + n * w)) Rd (tfor lo hi step ind0 g)
      (fun ind' m' => ind' = ind0 + n * w /\ forall q, 0 <= q < n -> P q m') m.
Proof.
  intros Hs Hn Hhi Hw Hst Hb.
  eapply (twp_tfor _ Rd (fun c ind m' => ind = ind0 + c * w /\ forall q, 0 <= q < c -> P q m')
            g lo hi step n); auto.
  - split; [lia|intros; lia].
  - intros c ind m' Hc (-> & HP) HL HF.
    eapply twp_call; [apply Hb; auto| | |].
    + intros b x (-> & Hx). split; auto. nia.
    + auto.
    + cbn. intros ind' m'' (-> & HPc) _ HF'. split; auto.
      intros q Hq. destruct (Z.eq_dec q c) as [->|Hne]; auto.
      eapply (Hst q ltac:(lia)); [|apply HP; lia].
      intros x Hx. symmetry. apply HF'. intros (_ & Hx'). nia.
Qed.

Lemma pblk_loop (g : Z -> Z -> prog Z) db (o : Z -> Z) n lo hi step (P : Z -> mem -> Prop) m :
  0 < step -> 0 <= n -> hi = lo + n * step ->
  (forall c, 0 <= c < n -> o c <= o (c + 1)) ->
  (forall c, 0 <= c < n -> stable db (o c) (o (c + 1)) (P c)) ->
  (forall c m', 0 <= c < n -> live m' = live m -> same_out (rng db (o 0) (o n)) m m' ->
     pok (g (lo + c * step) (o c)) m'
         (fun off' m'' => off' = o (c + 1) /\ live m'' = live m' /\
            same_out (rng db (o c) (o (c + 1))) m' m'' /\ P c m'')) ->
  pok (pfor lo hi step (o 0) g) m
      (fun off' m' => off' = o n /\ live m' = live m /\ same_out (rng db (o 0) (o n)) m m' /\
         forall c, 0 <= c < n -> P c m').
Proof.
  intros Hs Hn Hhi Hmono Hst Hb.
  assert (Hle : forall d c, 0 <= d -> 0 <= c -> c + d <= n -> o c <= o (c + d)).
  { intros d c Hd. revert d Hd c. apply (natlike_ind (fun d => forall c, 0 <= c -> c + d <= n -> o c <= o (c + d))).
    - intros c _ _. replace (c + 0) with c by lia. lia.
    - intros d Hd IH c Hc Hcd. unfold Z.succ. specialize (IH c Hc ltac:(lia)).
      specialize (Hmono (c + d) ltac:(lia)). replace (c + (d + 1)) with (c + d + 1) by lia. lia. }
  assert (Hle' : forall a b, 0 <= a -> a <= b -> b <= n -> o a <= o b).
  { intros a b Ha Hab Hb'. replace b with (a + (b - a)) by lia. apply Hle; lia. }
  eapply (pok_pfor (fun c off m' => off = o c /\ live m' = live m /\
             same_out (rng db (o 0) (o c)) m m' /\ forall q, 0 <= q < c -> P q m') g lo hi step n); auto.
  - split; [auto|split; [auto|split]]; [intros ? ? ?; auto|intros; lia].
  - intros c off m' Hc (-> & HL & HF & HP).
    assert (H0c : o 0 <= o c) by (apply Hle'; lia).
    assert (Hcc : o c <= o (c + 1)) by (apply Hle'; lia).
    assert (Hcn : o (c + 1) <= o n) by (apply Hle'; lia).
    eapply pok_mono; [apply Hb; auto|].
    + intros b x Hx. apply HF. intros (E & ?). apply Hx. split; auto. lia.
    + cbn. intros off' m'' (-> & HL' & HF' & HPc). split; [auto|split; [congruence|split]].
      * intros b x Hx. rewrite HF'; [apply HF|]; intros (E & ?); apply Hx; split; auto; lia.
      * intros q Hq. destruct (Z.eq_dec q c) as [->|Hne]; auto.
        eapply (Hst q ltac:(lia)); [|apply HP; lia].
        intros x Hx. symmetry. apply HF'. intros (_ & Hx').
        pose proof (Hle' (q + 1) c ltac:(lia) ltac:(lia) ltac:(lia)). lia.
Qed.

(** Threads of a parallel loop, each writing its own block of one object and reading
    other objects only. *)
Lemma par_blk (body : Z -> thr unit) db n lo hi step (bl bh : Z -> Z) (P : Z -> mem -> Prop)
      (Rd : Z -> region) tlo thi m (Post : unit -> mem -> Prop) :
  0 < step -> 0 <= n -> hi = lo + n * step ->
  (forall c d x, 0 <= c < n -> 0 <= d < n -> c <> d -> bl c <= x < bh c -> ~ (bl d <= x < bh d)) ->
  (forall c, 0 <= c < n -> bl c < bh c -> tlo <= bl c /\ bh c <= thi) ->
  (forall c, 0 <= c < n -> stable db (bl c) (bh c) (P c)) ->
  (forall c x, 0 <= c < n -> ~ Rd c db x) ->
  (forall c, 0 <= c < n -> twp (rng db (bl c) (bh c)) (Rd c) (body (lo + c * step)) (fun _ => P c) m) ->
  (forall m', live m' = live m -> same_out (rng db tlo thi) m m' ->
      (forall c, 0 <= c < n -> P c m') -> Post tt m') ->
  pok (ppar_for lo hi step body) m Post.
Proof.
  intros Hs Hn Hhi Hdis Htot Hst HRd Hb HP.
  eapply (pok_par_for lo hi step n body m (fun c => rng db (bl c) (bh c)) Rd P); auto.
  - intros c d b x Hc Hd Hcd (-> & Hx) [(_ & Hx')|Hr].
    + apply (Hdis c d x); auto.
    + apply (HRd d x); auto.
  - intros m' HL HT HF. apply HP; auto.
    + intros b x Hx. apply HF. intros c Hc (E & Hx'). apply Hx. split; auto.
      destruct (Htot c Hc); lia.
    + intros c Hc. destruct (HT c Hc) as (ms & HPc & _ & _ & Hag).
      eapply (Hst c Hc); [|exact HPc]. intros x Hx. symmetry. apply Hag. split; auto.
Qed.

(** Sequential loops over consecutive blocks in the main thread, with no carried state. *)
Lemma same_out_trans (W : region) m1 m2 m3 :
  same_out W m1 m2 -> same_out W m2 m3 -> same_out W m1 m3.
Proof. intros H1 H2 b x Hx. rewrite H2 by auto. auto. Qed.

Lemma same_out_sub (W W' : region) m1 m2 :
  same_out W m1 m2 -> (forall b x, W b x -> W' b x) -> same_out W' m1 m2.
Proof. intros H HW b x Hx. apply H. auto. Qed.

Lemma same_out_refl (W : region) m : same_out W m m.
Proof. intros b x _. auto. Qed.

End L.
