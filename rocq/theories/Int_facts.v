(** * Facts about 32-bit int expressions and programs that do not overflow. *)

From Coq Require Import ZArith List Bool Lia FunctionalExtensionality.
From Verif Require Import Lang ModelSizing ModelKernel ModelPack ModelSched ModelInt Sizing_facts.
Open Scope Z_scope.

(** ** Expressions whose intermediate results do not exceed the final one *)

Definition leaf (e : ix) : Prop := match e with IxV _ => True | _ => False end.

Fixpoint grows (e : ix) : Prop :=
  match e with
  | IxV z => 0 <= z
  | IxAdd a b => grows a /\ grows b
  | IxMul a b => grows a /\ grows b /\ (leaf a \/ 1 <= ival b) /\ (leaf b \/ 1 <= ival a)
  | IxSub a b => grows a /\ grows b /\ ival b <= ival a < 2 ^ 31
  | IxDiv a b | IxRem a b => grows a /\ grows b /\ ival a < 2 ^ 31 /\ 0 < ival b < 2 ^ 31
  end.

Lemma grows_pos e : grows e -> 0 <= ival e.
Proof.
  induction e; cbn; intros H; try (destruct H as [H1 H2]); try lia.
  - specialize (IHe1 H1). specialize (IHe2 H2). lia.
  - destruct H2 as [H2 _]. specialize (IHe1 H1). specialize (IHe2 H2). nia.
  - destruct H2 as (H2 & H3 & H4). apply Z.quot_pos; [auto|lia].
  - destruct H2 as (H2 & H3 & H4). apply Z.rem_bound_pos; [auto|lia].
Qed.

Lemma in_int_ok z : - 2 ^ 31 <= z < 2 ^ 31 -> in_int z = true.
Proof. intros H. unfold in_int. apply andb_true_intro. split; [apply Z.leb_le|apply Z.ltb_lt]; lia. Qed.

Lemma leaf_safe e : leaf e -> isafe e = true.
Proof. destruct e; cbn; easy. Qed.

Lemma ix_ok e : grows e -> ival e < 2 ^ 31 -> isafe e = true.
Proof.
  induction e; intros H L; pose proof (grows_pos _ H) as P; cbn in H, L, P |- *; auto.
  - destruct H as [H1 H2]. pose proof (grows_pos _ H1). pose proof (grows_pos _ H2).
    rewrite IHe1, IHe2 by (auto; lia). apply in_int_ok; lia.
  - destruct H as (H1 & H2 & H3). pose proof (grows_pos _ H1). pose proof (grows_pos _ H2).
    rewrite IHe1, IHe2 by (auto; lia). apply in_int_ok; lia.
  - destruct H as (H1 & H2 & H3 & H4). pose proof (grows_pos _ H1). pose proof (grows_pos _ H2).
    assert (E1 : isafe e1 = true) by (destruct H3; [now apply leaf_safe|apply IHe1; auto; nia]).
    assert (E2 : isafe e2 = true) by (destruct H4; [now apply leaf_safe|apply IHe2; auto; nia]).
    rewrite E1, E2. apply in_int_ok; lia.
  - destruct H as (H1 & H2 & H3 & H4). pose proof (grows_pos _ H1).
    rewrite IHe1, IHe2 by (auto; lia). destruct (Z.eqb_spec (ival e2) 0); [lia|]. apply in_int_ok; lia.
  - destruct H as (H1 & H2 & H3 & H4). pose proof (grows_pos _ H1).
    rewrite IHe1, IHe2 by (auto; lia). destruct (Z.eqb_spec (ival e2) 0); [lia|]. cbn.
    assert (0 <= Z.quot (ival e1) (ival e2)) by (apply Z.quot_pos; lia).
    assert (Z.quot (ival e1) (ival e2) <= ival e1).
    { rewrite Z.quot_div_nonneg by lia. apply Z.div_le_upper_bound; nia. }
    apply in_int_ok; lia.
Qed.

(** ** Sizing code *)

Lemma cint_ok e : isafe e = true -> cint e = CRet (ival e).
Proof. intros H. unfold cint. now rewrite H. Qed.

(** ** Threads *)

Section T.
Context {V : Type}.

(** every return value satisfies P *)
Fixpoint tleaf {R} (P : R -> Prop) (t : thr V R) : Prop :=
  match t with
  | TRet r => P r
  | TLoad _ _ _ k => forall v, tleaf P (k v)
  | TStore _ _ _ k => tleaf P k
  | TFail => True
  end.

Definition tsame {R} (P : R -> Prop) (t t' : thr V R) : Prop := t = t' /\ tleaf P t.

Lemma ts_ret {R} (P : R -> Prop) r r' : r = r' -> P r -> tsame P (TRet r) (TRet r').
Proof. intros -> H. split; auto. Qed.

Lemma ts_refl {R} (P : R -> Prop) t : tleaf P t -> tsame P t t.
Proof. split; auto. Qed.

Lemma ts_weak {R} (P Q : R -> Prop) t t' : tsame P t t' -> (forall r, P r -> Q r) -> tsame Q t t'.
Proof.
  intros [-> H0] W. split; auto. induction t'; cbn in *; auto.
Qed.

Lemma tleaf_bind {R S} (P : R -> Prop) (Q : S -> Prop) t f :
  tleaf P t -> (forall r, P r -> tleaf Q (f r)) -> tleaf Q (tbind t f).
Proof. induction t; cbn; intros H0 W; auto. Qed.

Lemma ts_bind {R S} (P : R -> Prop) (Q : S -> Prop) t t' f f' :
  tsame P t t' -> (forall r, P r -> tsame Q (f r) (f' r)) -> tsame Q (tbind t f) (tbind t' f').
Proof.
  intros [-> H0] W. split.
  - induction t'; cbn in *; auto.
    + now apply W.
    + f_equal. apply functional_extensionality. intros v. auto.
    + f_equal. auto.
  - eapply tleaf_bind; eauto. intros r Hr. apply W; auto.
Qed.

Lemma tleaf_unit (t : thr V unit) : tleaf (fun _ => True) t.
Proof. induction t; cbn; auto. Qed.

Lemma ts_eq (t t' : thr V unit) : t = t' -> tsame (fun _ => True) t t'.
Proof. intros ->. split; auto. apply tleaf_unit. Qed.

Lemma ts_int {R} (P : R -> Prop) e f t' :
  isafe e = true -> tsame P (f (ival e)) t' -> tsame P (tbind (tint e) f) t'.
Proof. intros E H. unfold tint. rewrite E. exact H. Qed.

Lemma ts_int_ret (P : Z -> Prop) e z : isafe e = true -> ival e = z -> P z -> tsame P (tint e) (TRet z).
Proof. intros E <- H. unfold tint. rewrite E. now apply ts_ret. Qed.

Lemma ts_iter {S} (I : Z -> S -> Prop) step f g n : forall i s,
  I i s ->
  (forall j s, i <= j -> j + step <= i + Z.of_nat n * step -> (step | j - i) -> I j s ->
     tsame (I (j + step)) (f j s) (g j s)) ->
  0 < step ->
  tsame (I (i + Z.of_nat n * step)) (titer (V:=V) n i step f s) (titer n i step g s).
Proof.
  induction n as [|n IH]; intros i s H0 H Hs.
  - cbn. replace (i + 0 * step) with i by ring. apply ts_ret; auto. now replace (i + 0) with i by ring.
  - cbn [titer]. eapply ts_bind.
    + apply H; [lia|nia|exists 0; ring|exact H0].
    + intros s' H'. replace (i + Z.of_nat (Datatypes.S n) * step) with (i + step + Z.of_nat n * step) by lia.
      apply IH; auto. intros j s2 Hj1 Hj2 [d Hd] HI. apply H; try lia; auto.
      exists (d + 1). lia.
Qed.

Lemma loop_count_div lo hi step : 0 < step -> lo <= hi -> (step | hi - lo) ->
  lo + Z.of_nat (loop_count lo hi step) * step = hi.
Proof.
  intros Hs Hl [d Hd]. unfold loop_count.
  replace ((hi - lo + step - 1) / step) with d.
  - rewrite Z2Nat.id by nia. lia.
  - apply Z.div_unique with (step - 1); lia.
Qed.

Lemma counter_div lo hi step : 0 < step -> lo <= hi -> (step | hi - lo) -> hi < 2 ^ 31 ->
  counter_ok lo hi step = true.
Proof. intros. unfold counter_ok. rewrite loop_count_div by auto. now apply Z.ltb_lt. Qed.

Lemma ts_for {S} (I : Z -> S -> Prop) lo hi step s f g :
  0 < step -> lo <= hi -> (step | hi - lo) -> hi < 2 ^ 31 -> I lo s ->
  (forall i s, lo <= i -> i + step <= hi -> (step | i - lo) -> I i s ->
     tsame (I (i + step)) (f i s) (g i s)) ->
  tsame (I hi) (tfor32 (V:=V) lo hi step s f) (tfor lo hi step s g).
Proof.
  intros Hs Hl Hd Hh H0 H. unfold tfor32, tfor. rewrite counter_div by auto.
  destruct (Z.ltb_spec 0 step); [|lia].
  rewrite <- (loop_count_div lo hi step) at 1 by auto.
  apply ts_iter; auto. rewrite loop_count_div by auto. auto.
Qed.

Lemma ts_for_ lo hi step f g :
  0 < step -> lo <= hi -> (step | hi - lo) -> hi < 2 ^ 31 ->
  (forall i, lo <= i -> i + step <= hi -> (step | i - lo) -> tsame (fun _ => True) (f i) (g i)) ->
  tsame (fun _ => True) (tfor32_ (V:=V) lo hi step f) (tfor_ lo hi step g).
Proof.
  intros Hs Hl Hd Hh H. unfold tfor32_, tfor_.
  pose proof (ts_for (fun _ (_ : unit) => True) lo hi step tt (fun i _ => f i) (fun i _ => g i) Hs Hl Hd Hh I) as E.
  unfold tfor32 in E. destruct (counter_ok lo hi step) eqn:C; [|rewrite counter_div in C by auto; easy].
  apply E. intros; auto.
Qed.

Lemma ts_snake_ rev nb f g :
  0 <= nb -> (forall i, 0 <= i < nb -> tsame (fun _ => True) (f i) (g i)) ->
  tsame (fun _ => True)
    (tfor_ne_ (V:=V) (sn_start (snake rev nb)) (sn_end (snake rev nb)) (sn_inc (snake rev nb)) f)
    (tfor_ne_ (sn_start (snake rev nb)) (sn_end (snake rev nb)) (sn_inc (snake rev nb)) g).
Proof.
  intros Hn H. apply ts_eq. unfold tfor_ne_, tfor_ne.
  match goal with |- (if ?c then _ else _) = _ => destruct c end; auto.
  assert (W : forall n i inc, (forall j, 0 <= j < Z.of_nat n -> 0 <= i + j * inc < nb) ->
    titer (V:=V) n i inc (fun i _ => f i) tt = titer n i inc (fun i _ => g i) tt).
  { induction n as [|n IH]; intros i inc Hi; cbn [titer]; auto.
    assert (E : f i = g i). { apply H. specialize (Hi 0). lia. }
    rewrite E. f_equal. apply functional_extensionality. intros [].
    apply IH. intros j Hj. specialize (Hi (j + 1)). lia. }
  apply W. destruct rev; unfold snake, sn_start, sn_end, sn_inc; cbn [fst snd]; intros j Hj; lia.
Qed.

(** ** Programs *)

Fixpoint pleaf {R} (P : R -> Prop) (t : prog V R) : Prop :=
  match t with
  | PRet r => P r
  | PPar _ k => pleaf P k
  | PAlloc _ _ _ _ k => pleaf P k
  | PFree _ k => pleaf P k
  | PUB | PExit => True
  end.

Definition psame {R} (P : R -> Prop) (t t' : prog V R) : Prop := t = t' /\ pleaf P t.

Lemma ps_ret {R} (P : R -> Prop) r r' : r = r' -> P r -> psame P (PRet r) (PRet r').
Proof. intros -> H. split; auto. Qed.

Lemma ps_weak {R} (P Q : R -> Prop) t t' : psame P t t' -> (forall r, P r -> Q r) -> psame Q t t'.
Proof. intros [-> H] W. split; auto. induction t'; cbn in *; auto. Qed.

Lemma ps_bind {R S} (P : R -> Prop) (Q : S -> Prop) t t' f f' :
  psame P t t' -> (forall r, P r -> psame Q (f r) (f' r)) -> psame Q (pbind t f) (pbind t' f').
Proof.
  intros [-> H] W. split.
  - induction t'; cbn in *; auto; [now apply W|f_equal; auto|f_equal; auto|f_equal; auto].
  - induction t'; cbn in *; auto. now apply W.
Qed.

Lemma pleaf_unit (t : prog V unit) : pleaf (fun _ => True) t.
Proof. induction t; cbn; auto. Qed.

Lemma ps_eq (t t' : prog V unit) : t = t' -> psame (fun _ => True) t t'.
Proof. intros ->. split; auto. apply pleaf_unit. Qed.

Lemma ps_int {R} (P : R -> Prop) e f t' :
  isafe e = true -> psame P (f (ival e)) t' -> psame P (pbind (pint e) f) t'.
Proof. intros E H. unfold pint. rewrite E. exact H. Qed.

Lemma ps_int_ret (P : Z -> Prop) e z : isafe e = true -> ival e = z -> P z -> psame P (pint e) (PRet z).
Proof. intros E <- H. unfold pint. rewrite E. now apply ps_ret. Qed.

Lemma ps_iter {S} (I : Z -> S -> Prop) step f g n : forall i s,
  I i s ->
  (forall j s, i <= j -> j + step <= i + Z.of_nat n * step -> (step | j - i) -> I j s ->
     psame (I (j + step)) (f j s) (g j s)) ->
  0 < step ->
  psame (I (i + Z.of_nat n * step)) (piter (V:=V) n i step f s) (piter n i step g s).
Proof.
  induction n as [|n IH]; intros i s H0 H Hs.
  - cbn. replace (i + 0 * step) with i by ring. apply ps_ret; auto. now replace (i + 0) with i by ring.
  - cbn [piter]. eapply ps_bind.
    + apply H; [lia|nia|exists 0; ring|exact H0].
    + intros s' H'. replace (i + Z.of_nat (Datatypes.S n) * step) with (i + step + Z.of_nat n * step) by lia.
      apply IH; auto. intros j s2 Hj1 Hj2 [d Hd] HI. apply H; try lia; auto.
      exists (d + 1). lia.
Qed.

Lemma ps_for {S} (I : Z -> S -> Prop) lo hi step s f g :
  0 < step -> lo <= hi -> (step | hi - lo) -> hi < 2 ^ 31 -> I lo s ->
  (forall i s, lo <= i -> i + step <= hi -> (step | i - lo) -> I i s ->
     psame (I (i + step)) (f i s) (g i s)) ->
  psame (I hi) (pfor32 (V:=V) lo hi step s f) (pfor lo hi step s g).
Proof.
  intros Hs Hl Hd Hh H0 H. unfold pfor32, pfor. rewrite counter_div by auto.
  destruct (Z.ltb_spec 0 step); [|lia].
  rewrite <- (loop_count_div lo hi step) at 1 by auto.
  apply ps_iter; auto. rewrite loop_count_div by auto. auto.
Qed.

Lemma ps_for_ lo hi step f g :
  0 < step -> lo <= hi -> (step | hi - lo) -> hi < 2 ^ 31 ->
  (forall i, lo <= i -> i + step <= hi -> (step | i - lo) -> psame (fun _ => True) (f i) (g i)) ->
  psame (fun _ => True) (pfor32_ (V:=V) lo hi step f) (pfor_ lo hi step g).
Proof.
  intros Hs Hl Hd Hh H. unfold pfor32_, pfor_.
  pose proof (ps_for (fun _ (_ : unit) => True) lo hi step tt (fun i _ => f i) (fun i _ => g i) Hs Hl Hd Hh I) as E.
  unfold pfor32 in E. destruct (counter_ok lo hi step) eqn:C; [|rewrite counter_div in C by auto; easy].
  apply E. intros; auto.
Qed.

Lemma ps_snake_ rev nb f g :
  0 <= nb -> (forall i, 0 <= i < nb -> psame (fun _ => True) (f i) (g i)) ->
  psame (fun _ => True)
    (pfor_ne_ (V:=V) (sn_start (snake rev nb)) (sn_end (snake rev nb)) (sn_inc (snake rev nb)) f)
    (pfor_ne_ (sn_start (snake rev nb)) (sn_end (snake rev nb)) (sn_inc (snake rev nb)) g).
Proof.
  intros Hn H. apply ps_eq. unfold pfor_ne_, pfor_ne.
  match goal with |- (if ?c then _ else _) = _ => destruct c end; auto.
  assert (W : forall n i inc, (forall j, 0 <= j < Z.of_nat n -> 0 <= i + j * inc < nb) ->
    piter (V:=V) n i inc (fun i _ => f i) tt = piter n i inc (fun i _ => g i) tt).
  { induction n as [|n IH]; intros i inc Hi; cbn [piter]; auto.
    assert (E : f i = g i). { apply H. specialize (Hi 0). lia. }
    rewrite E. f_equal. apply functional_extensionality. intros [].
    apply IH. intros j Hj. specialize (Hi (j + 1)). lia. }
  apply W. destruct rev; unfold snake, sn_start, sn_end, sn_inc; cbn [fst snd]; intros j Hj; lia.
Qed.

Lemma in_zseq n i step j : In j (zseq n i step) ->
  exists d, 0 <= d < Z.of_nat n /\ j = i + d * step.
Proof.
  revert i. induction n as [|n IH]; intros i H; cbn in H; [easy|].
  destruct H as [<-|H].
  - exists 0. lia.
  - destruct (IH _ H) as (d & Hd & ->). exists (d + 1). lia.
Qed.

Lemma ps_par lo hi step f g :
  0 < step -> lo <= hi -> (step | hi - lo) -> hi < 2 ^ 31 ->
  (forall i, lo <= i -> i + step <= hi -> (step | i - lo) -> tsame (fun _ => True) (f i) (g i)) ->
  psame (fun _ => True) (ppar_for32 (V:=V) lo hi step f) (ppar_for lo hi step g).
Proof.
  intros Hs Hl Hd Hh H. apply ps_eq. unfold ppar_for32, ppar_for. rewrite counter_div by auto.
  destruct (Z.ltb_spec 0 step); [|lia]. f_equal. apply map_ext_in.
  intros j Hj. destruct (in_zseq _ _ _ _ Hj) as (d & Hd1 & ->).
  pose proof (loop_count_div lo hi step Hs Hl Hd).
  apply H; [nia|nia|]. exists d. ring.
Qed.

End T.

Lemma divide_1 a : (1 | a).
Proof. exists a. ring. Qed.
