(** * Consequences of the end-to-end theorem, in the form of the listed properties. *)

From Coq Require Import ZArith List Bool Lia Permutation.
From Verif Require Import Lang Lang_facts Spec SpecTop ModelSizing ModelKernel ModelPack ModelSched ModelTop
     Kernel_facts Sizing_facts Frame_facts Init_facts Call_facts CallAll_facts Det_facts Exec Exec_facts Misc_facts.
Import ListNotations.
Open Scope Z_scope.

Lemma pok_always {V R} (P : prog V R) m Q : pok P m Q -> always P m Q.
Proof. Transparent pok. intros H. exact H. Opaque pok. Qed.
Lemma always_pok {V R} (P : prog V R) m Q : always P m Q -> pok P m Q.
Proof. Transparent pok. intros H. exact H. Opaque pok. Qed.

Lemma always_mono {V R} (P : prog V R) m (Q Q' : R -> mem V -> Prop) :
  always P m Q -> (forall r m', Q r m' -> Q' r m') -> always P m Q'.
Proof.
  intros (H1 & H2) H. split; [exact H1|]. intros o Ho. destruct (H2 o Ho) as (r & m' & E & HQ).
  exists r, m'. auto.
Qed.

Lemma always_no_undef {V R} (P : prog V R) m Q : always P m Q -> ~ pexec P m Undef.
Proof. intros (_ & H) Hu. destruct (H _ Hu) as (r & m' & E & _). discriminate. Qed.
Lemma always_no_exit {V R} (P : prog V R) m Q : always P m Q -> ~ pexec P m Exited.
Proof. intros (_ & H) Hu. destruct (H _ Hu) as (r & m' & E & _). discriminate. Qed.

Lemma always_det {V R} (P : prog V R) m Q : always P m Q ->
  forall o1 o2, pexec P m o1 -> pexec P m o2 ->
  exists r m1 m2, o1 = Done r m1 /\ o2 = Done r m2 /\ same_mem m1 m2.
Proof.
  intros H o1 o2 H1 H2. pose proof (no_ub_deterministic P m o1 o2 (always_no_undef _ _ _ H) H1 H2) as E.
  destruct H as (_ & H). destruct (H _ H1) as (r1 & m1 & -> & _). destruct (H _ H2) as (r2 & m2 & -> & _).
  destruct E as (-> & E). exists r2, m1, m2. auto.
Qed.

(** a refutation by one execution *)
Lemma not_always {V R} (P : prog V R) m Q o : pexec P m o ->
  (forall r m', o = Done r m' -> ~ Q r m') -> ~ always P m Q.
Proof. intros He Hn (_ & H). destruct (H _ He) as (r & m' & E & HQ). exact (Hn _ _ E HQ). Qed.

Section Mult.

Variable S : scalar.
Notation T := (elt S).

Lemma acc0_false s C0 i j : acc0 S s false C0 i j = zero S.
Proof. destruct s; reflexivity. Qed.

Section Call.

Variables (F : fpenv) (ar : arch) (q : cntx) (nz : T -> bool) (M N K p : Z) (c : cntx) (al be : T)
  (s : sched) (mcu kcu ncu : Z).
Hypothesis L : legal F ar s c M N K p mcu kcu ncu.

Lemma K_first_ok : s = KMN ->
  exists ord c', orders K ord /\ same_ctx c c' /\
    forall A B m0, caller m0 M N K A B ->
      always (cake_sgemm S F ar q nz M N K p (Some c) false false al be s mcu kcu ncu) m0
        (fun r m' => r = c' /\ holds m' BufC M N (product S A B ord) /\ only_C_changed m0 m' M N).
Proof.
  intros Es. destruct L as (L1 & L2 & L3 & L4 & L5 & L6 & L7).
  destruct (cake_sgemm_ok S F ar q nz M N K p (Some c) al be s mcu kcu ncu 0) as (ord & c' & H1 & H2 & H3); auto.
  - rewrite Es; discriminate.
  - rewrite Es; discriminate.
  - exists ord, c'. split; [auto|split; [auto|]]. intros A B m0 Hc. apply pok_always.
    eapply pok_mono; [apply (H3 A B (fun _ _ => zero S) m0 Hc); congruence|]. cbv beta.
    rewrite Es. cbn. auto.
Qed.

(** without C on the right hand side, every schedule *)
Lemma plain_ok oc t : match oc with Some c1 => c = c1 | None => c = q end -> s = KMN \/ nz be = false -> tail_ok c K p mcu kcu ncu t ->
  exists ord c', orders K ord /\ same_ctx c c' /\
    forall A B m0, caller m0 M N K A B -> (s <> KMN -> B_rim m0 N K (nr c) t) ->
      always (cake_sgemm S F ar q nz M N K p oc false false al be s mcu kcu ncu) m0
        (fun r m' => r = c' /\ holds m' BufC M N (product S A B ord) /\ only_C_changed (start S m0 oc) m' M N).
Proof.
  intros Eoc Hnz Ht. destruct L as (L1 & L2 & L3 & L4 & L5 & L6 & L7).
  assert (Ec : match oc with Some c1 => c1 | None => q end = c) by (destruct oc; auto).
  destruct (cake_sgemm_ok S F ar q nz M N K p oc al be s mcu kcu ncu t) as (ord & c' & H1 & H2 & H3);
    rewrite ?Ec; auto; try (destruct Hnz; congruence).
  rewrite Ec in *.
  exists ord, c'. split; [auto|split; [auto|]]. intros A B m0 Hc Hr. apply pok_always.
  eapply pok_mono; [apply (H3 A B (fun _ _ => zero S) m0 Hc Hr); destruct Hnz; congruence|]. cbv beta.
  intros r m' (E1 & E2 & E3). split; [auto|split; [|auto]].
  intros i j Hi Hj. rewrite (E2 i j Hi Hj). unfold product_plus, product.
  destruct Hnz as [Hk|Hz]; [now rewrite Hk|now rewrite Hz, acc0_false].
Qed.

(** with C on the right hand side *)
Lemma plus_ok t : nz be = true -> (s = MKN \/ s = NKM) ->
  (s = NKM -> user_tiles c mcu kcu ncu /\ n_first_C_fits M N p (mr c) (nr c) mcu ncu) ->
  tail_ok c K p mcu kcu ncu t ->
  exists ord c', orders K ord /\ same_ctx c c' /\
    forall A B C0 m0, caller m0 M N K A B -> B_rim m0 N K (nr c) t -> holds m0 BufC M N C0 ->
      always (cake_sgemm S F ar q nz M N K p (Some c) false false al be s mcu kcu ncu) m0
        (fun r m' => r = c' /\ holds m' BufC M N (product_plus S A B C0 ord) /\ only_C_changed m0 m' M N).
Proof.
  intros Hnz Hs Hn Ht. destruct L as (L1 & L2 & L3 & L4 & L5 & L6 & L7).
  destruct (cake_sgemm_ok S F ar q nz M N K p (Some c) al be s mcu kcu ncu t) as (ord & c' & H1 & H2 & H3); auto.
  - intros _. destruct Hs as [-> | ->]; discriminate.
  - exists ord, c'. split; [auto|split; [auto|]]. intros A B C0 m0 Hc Hr H0. apply pok_always.
    eapply pok_mono; [apply (H3 A B C0 m0 Hc); auto|]. cbv beta.
    intros r m' (E1 & E2 & E3). split; [auto|split; [|exact E3]]. rewrite Hnz in E2.
    intros i j Hi Hj. rewrite (E2 i j Hi Hj). destruct Hs as [-> | ->]; reflexivity.
Qed.

End Call.

(** ** Reordering *)
Lemma dot_perm add mul a b l l' : sums S add mul -> Permutation l l' ->
  forall acc, dot S a b l acc = dot S a b l' acc.
Proof.
  intros (H1 & H2 & H3). unfold dot. induction 1 as [|k l l' _ IH|k k' l|l l' l'' _ IH1 _ IH2]; intros acc; cbn; auto.
  - f_equal. rewrite !H1. now rewrite !H3, (H2 (mul (a k) (b k))).
  - now rewrite IH1.
Qed.

Lemma dot_matmul add mul A B K i j : sums S add mul ->
  dot S (A i) (fun k => B k j) (zrange 0 K) (zero S) = matmul S add mul A B K i j.
Proof.
  intros Hs. rewrite (dot_perm add mul _ _ _ _ Hs (Permutation_rev _)).
  destruct Hs as (H1 & _). unfold dot, matmul. rewrite fold_left_rev_right with (f := fun k acc => _) || rewrite <- fold_left_rev_right.
  rewrite rev_involutive. induction (zrange 0 K) as [|k l IH]; cbn; [auto|]. now rewrite H1, IH.
Qed.

Lemma product_matmul add mul A B K ord i j : sums S add mul -> orders K ord ->
  product S A B ord i j = matmul S add mul A B K i j.
Proof.
  intros Hs Ho. unfold product. rewrite (dot_perm add mul _ _ _ _ Hs (Ho i j)). now apply dot_matmul.
Qed.

End Mult.

(** ** Further forms *)
Section More.

Variable S : scalar.
Notation T := (elt S).

(** with reorderable sums, every schedule, thread count and tile size gives the same C *)
Lemma semiring_ok F ar q nz M N K p c al be s mcu kcu ncu t add mul A B m0 :
  sums S add mul -> legal F ar s c M N K p mcu kcu ncu -> s = KMN \/ nz be = false -> tail_ok c K p mcu kcu ncu t ->
  caller m0 M N K A B -> (s <> KMN -> B_rim m0 N K (nr c) t) ->
  always (cake_sgemm S F ar q nz M N K p (Some c) false false al be s mcu kcu ncu) m0
    (fun _ m' => holds m' BufC M N (matmul S add mul A B K)).
Proof.
  intros Hs L Hnz Ht Hc Hr.
  destruct (plain_ok S F ar q nz M N K p c al be s mcu kcu ncu L (Some c) t eq_refl Hnz Ht) as (ord & c' & H1 & H2 & H3).
  eapply always_mono; [apply (H3 A B m0 Hc Hr)|]. cbv beta. intros r m' (_ & E & _) i j Hi Hj.
  rewrite (E i j Hi Hj). f_equal. now apply product_matmul.
Qed.

Lemma calls_agree F1 F2 ar1 ar2 q1 q2 nz M N K p1 p2 c1 c2 al1 be1 al2 be2 s1 s2 mcu1 kcu1 ncu1 mcu2 kcu2 ncu2 t1 t2 add mul A B m1 m2 o1 o2 :
  sums S add mul -> s1 = KMN \/ nz be1 = false -> s2 = KMN \/ nz be2 = false ->
  legal F1 ar1 s1 c1 M N K p1 mcu1 kcu1 ncu1 -> tail_ok c1 K p1 mcu1 kcu1 ncu1 t1 ->
  legal F2 ar2 s2 c2 M N K p2 mcu2 kcu2 ncu2 -> tail_ok c2 K p2 mcu2 kcu2 ncu2 t2 ->
  caller m1 M N K A B -> (s1 <> KMN -> B_rim m1 N K (nr c1) t1) ->
  caller m2 M N K A B -> (s2 <> KMN -> B_rim m2 N K (nr c2) t2) ->
  pexec (cake_sgemm S F1 ar1 q1 nz M N K p1 (Some c1) false false al1 be1 s1 mcu1 kcu1 ncu1) m1 o1 ->
  pexec (cake_sgemm S F2 ar2 q2 nz M N K p2 (Some c2) false false al2 be2 s2 mcu2 kcu2 ncu2) m2 o2 ->
  exists r1 r2 m1' m2', o1 = Done r1 m1' /\ o2 = Done r2 m2' /\
    forall i, 0 <= i < M * N -> dat m1' BufC i = dat m2' BufC i.
Proof.
  intros Hs Hnz1 Hnz2 L1 T1 L2 T2 C1 R1 C2 R2 X1 X2.
  destruct (semiring_ok F1 ar1 q1 nz M N K p1 c1 al1 be1 s1 mcu1 kcu1 ncu1 t1 add mul A B m1) as (_ & H1); auto.
  destruct (semiring_ok F2 ar2 q2 nz M N K p2 c2 al2 be2 s2 mcu2 kcu2 ncu2 t2 add mul A B m2) as (_ & H2); auto.
  destruct (H1 _ X1) as (r1 & m1' & -> & E1). destruct (H2 _ X2) as (r2 & m2' & -> & E2).
  exists r1, r2, m1', m2'. split; [auto|split; [auto|]]. intros i Hi.
  assert (HM : 0 <= M) by apply L1. assert (HN : 0 <= N) by apply L1.
  assert (0 < N) by nia.
  pose proof (Z.div_mod i N ltac:(lia)) as Ei. pose proof (Z.mod_pos_bound i N ltac:(lia)).
  assert (0 <= i / N < M) by (split; [apply Z.div_pos; lia|apply Z.div_lt_upper_bound; lia]).
  replace i with (i / N * N + i mod N) by lia.
  rewrite (E1 (i / N) (i mod N)), (E2 (i / N) (i mod N)) by lia. auto.
Qed.

(** the memory result of a plain call, elementwise *)
Lemma holds_all (m1 m2 : mem T) b M N f : 0 <= M -> 0 <= N -> holds m1 b M N f -> holds m2 b M N f ->
  forall i, 0 <= i < M * N -> dat m1 b i = dat m2 b i.
Proof.
  intros HM HN E1 E2 i Hi. assert (0 < N) by nia.
  pose proof (Z.div_mod i N ltac:(lia)) as Ei. pose proof (Z.mod_pos_bound i N ltac:(lia)).
  assert (0 <= i / N < M) by (split; [apply Z.div_pos; lia|apply Z.div_lt_upper_bound; lia]).
  replace i with (i / N * N + i mod N) by lia.
  rewrite (E1 (i / N) (i mod N)), (E2 (i / N) (i mod N)) by lia. auto.
Qed.

(** a second call, and other garbage in C, give the same C *)
Lemma garbage_independent F ar q nz M N K p c al be s mcu kcu ncu t A B m1 m2 o1 o2 :
  s = KMN \/ nz be = false -> legal F ar s c M N K p mcu kcu ncu -> tail_ok c K p mcu kcu ncu t ->
  caller m1 M N K A B -> (s <> KMN -> B_rim m1 N K (nr c) t) ->
  caller m2 M N K A B -> (s <> KMN -> B_rim m2 N K (nr c) t) ->
  let P := cake_sgemm S F ar q nz M N K p (Some c) false false al be s mcu kcu ncu in
  pexec P m1 o1 -> pexec P m2 o2 ->
  exists r m1' m2', o1 = Done r m1' /\ o2 = Done r m2' /\
    forall i, 0 <= i < M * N -> dat m1' BufC i = dat m2' BufC i.
Proof.
  intros Hnz L Ht C1 R1 C2 R2 P X1 X2.
  destruct (plain_ok S F ar q nz M N K p c al be s mcu kcu ncu L (Some c) t eq_refl Hnz Ht) as (ord & c' & H1 & H2 & H3).
  destruct (H3 A B m1 C1 R1) as (_ & G1). destruct (H3 A B m2 C2 R2) as (_ & G2).
  destruct (G1 _ X1) as (r1 & m1' & -> & Er1 & E1 & _). destruct (G2 _ X2) as (r2 & m2' & -> & Er2 & E2 & _).
  exists c', m1', m2'. subst. split; [auto|split; [auto|]].
  eapply holds_all; [apply L|apply L|exact E1|exact E2].
Qed.

Lemma caller_after (m0 m' : mem T) M N K A B : caller m0 M N K A B -> only_C_changed m0 m' M N -> caller m' M N K A B.
Proof.
  intros ((ba & A1 & A2) & HA & (bb & B1 & B2) & HB & (bc & C1 & C2) & Ho) (L & D).
  unfold caller. split; [exists ba; rewrite L; auto|]. split; [|split; [exists bb; rewrite L; auto|split; [|split; [exists bc; rewrite L; auto|]]]].
  - intros i j Hi Hj. rewrite D; [apply HA; auto|congruence|intros (? & _); discriminate].
  - intros i j Hi Hj. rewrite D; [apply HB; auto|congruence|intros (? & _); discriminate].
  - intros b Hb. rewrite L. auto.
Qed.

Lemma rim_after (m0 m' : mem T) M N K nr t : B_rim m0 N K nr t -> only_C_changed m0 m' M N -> B_rim m' N K nr t.
Proof.
  intros H (L & D) k j Hk Hj. destruct (H k j Hk Hj) as (bi & v & E1 & E2 & E3).
  exists bi, v. rewrite L, D; [auto|congruence|intros (? & _); discriminate].
Qed.

Lemma twice_ok F ar q nz M N K p c al be s mcu kcu ncu t :
  s = KMN \/ nz be = false -> legal F ar s c M N K p mcu kcu ncu -> tail_ok c K p mcu kcu ncu t ->
  exists ord c', orders K ord /\
   forall A B m0, caller m0 M N K A B -> (s <> KMN -> B_rim m0 N K (nr c) t) ->
   always (cake_sgemm S F ar q nz M N K p (Some c) false false al be s mcu kcu ncu) m0
    (fun r m' => r = c' /\ holds m' BufC M N (product S A B ord) /\ only_C_changed m0 m' M N) /\
   always (pbind (cake_sgemm S F ar q nz M N K p (Some c) false false al be s mcu kcu ncu) (fun c1 =>
             cake_sgemm S F ar q nz M N K p (Some c1) false false al be s mcu kcu ncu)) m0
    (fun r m' => r = c' /\ holds m' BufC M N (product S A B ord) /\ only_C_changed m0 m' M N).
Proof.
  intros Hnz L Ht.
  destruct (plain_ok S F ar q nz M N K p c al be s mcu kcu ncu L (Some c) t eq_refl Hnz Ht) as (ord & c' & H1 & H2 & H3).
  exists ord, c'. split; [auto|]. intros A B m0 Hc Hr. pose proof (H3 A B m0 Hc Hr) as G1.
  cbn [start] in G1. split; [exact G1|]. apply pok_always, pok_bind.
  eapply pok_mono; [apply always_pok; exact G1|]. cbv beta. intros r m' (-> & E2 & E3).
  rewrite (sgemm_same_ctx S F ar q nz M N K p c c') by exact H2.
  eapply pok_mono; [apply always_pok, (H3 A B m')|].
  - eapply caller_after; eauto.
  - intros Hk. eapply rim_after; eauto.
  - cbv beta. cbn [start]. intros r m2 (-> & G2 & G3 & G4). split; [auto|split; [auto|]].
    destruct E3 as (E3 & E4). split.
    + intros b. rewrite G3. auto.
    + intros b i Hb Hn. rewrite G4; auto. now rewrite E3.
Qed.

End More.

Section Corollaries.

Variable S : scalar.
Notation T := (elt S).
Variables (F : fpenv) (ar : arch) (q : cntx) (nz : T -> bool) (M N K p : Z) (c : cntx) (al be : T)
  (s : sched) (mcu kcu ncu t : Z) (A B : Z -> Z -> T) (m0 : mem T).
Hypothesis L : legal F ar s c M N K p mcu kcu ncu.
Hypothesis Ht : tail_ok c K p mcu kcu ncu t.
Hypothesis Hc : caller m0 M N K A B.
Hypothesis Hr : s <> KMN -> B_rim m0 N K (nr c) t.
Notation call oc := (cake_sgemm S F ar q nz M N K p oc false false al be s mcu kcu ncu).

(** K-first with any beta, or any schedule with beta = 0 *)
Lemma any_ok : s = KMN \/ nz be = false ->
  exists ord c', orders K ord /\ same_ctx c c' /\
   always (call (Some c)) m0 (fun r m' => r = c' /\ holds m' BufC M N (product S A B ord) /\ only_C_changed m0 m' M N).
Proof.
  intros [Hs|Hnz].
  - destruct (K_first_ok S F ar q nz M N K p c al be s mcu kcu ncu L Hs) as (ord & c' & H1 & H2 & H3).
    exists ord, c'. auto.
  - destruct (plain_ok S F ar q nz M N K p c al be s mcu kcu ncu L (Some c) t eq_refl (or_intror Hnz) Ht) as (ord & c' & H1 & H2 & H3).
    exists ord, c'. split; [auto|split; [auto|]]. exact (H3 A B m0 Hc Hr).
Qed.

Lemma any_det : s = KMN \/ nz be = false -> forall o1 o2, pexec (call (Some c)) m0 o1 -> pexec (call (Some c)) m0 o2 ->
  exists r m1 m2, o1 = Done r m1 /\ o2 = Done r m2 /\ same_mem m1 m2.
Proof. intros H. destruct (any_ok H) as (ord & c' & _ & _ & G). exact (always_det _ _ _ G). Qed.

Lemma any_safe : s = KMN \/ nz be = false ->
  (exists o, pexec (call (Some c)) m0 o) /\
  forall o, pexec (call (Some c)) m0 o -> exists r m', o = Done r m'.
Proof.
  intros H. destruct (any_ok H) as (ord & c' & _ & _ & (G1 & G2)). split; [exact G1|].
  intros o Ho. destruct (G2 o Ho) as (r & m' & E & _). eauto.
Qed.

Lemma any_only_C : s = KMN \/ nz be = false -> forall r m', pexec (call (Some c)) m0 (Done r m') ->
  (forall i, dat m' BufA i = dat m0 BufA i) /\ (forall i, dat m' BufB i = dat m0 BufB i) /\
  (forall i, ~ (0 <= i < M * N) -> dat m' BufC i = dat m0 BufC i) /\
  (forall b i, live m0 b <> None -> b <> BufC -> dat m' b i = dat m0 b i).
Proof.
  intros H r m' He. destruct (any_ok H) as (ord & c' & _ & _ & (_ & G2)).
  destruct (G2 _ He) as (r1 & m1 & E & _ & _ & (_ & D)). injection E as <- <-.
  destruct Hc as ((ba & A1 & _) & _ & (bb & B1 & _) & _ & (bc & C1 & _) & _).
  split; [|split; [|split]].
  - intros i. apply D; [congruence|intros (? & _); discriminate].
  - intros i. apply D; [congruence|intros (? & _); discriminate].
  - intros i Hi. apply D; [congruence|intros (_ & ?); tauto].
  - intros b i Hb Hn. apply D; [auto|intros (? & _); tauto].
Qed.

Lemma any_live : s = KMN \/ nz be = false -> forall r m', pexec (call (Some c)) m0 (Done r m') ->
  forall b, live m' b = live m0 b.
Proof.
  intros H r m' He. destruct (any_ok H) as (ord & c' & _ & _ & (_ & G2)).
  destruct (G2 _ He) as (r1 & m1 & E & _ & _ & (G & D)). injection E as <- <-. exact G.
Qed.

Lemma null_leaks : c = q -> s = KMN \/ nz be = false -> 
  always (call None) m0 (fun r m' =>
     live m' (BufX 1) <> None /\ live m0 (BufX 1) = None /\ forall b, b <> BufX 1 -> live m' b = live m0 b).
Proof.
  intros Eq Hnz.
  destruct (plain_ok S F ar q nz M N K p c al be s mcu kcu ncu L None t Eq Hnz Ht) as (ord & c' & H1 & H2 & H3).
  eapply always_mono; [exact (H3 A B m0 Hc Hr)|]. cbv beta. intros r m' (_ & _ & (G & _)). split; [|split].
  - rewrite G. cbn [start]. rewrite live_alloc. cbn. discriminate.
  - apply Hc. cbn; lia.
  - intros b Hb. rewrite G. cbn [start]. rewrite live_alloc. rewrite buf_eqb_neq; auto.
Qed.

Lemma null_ok : c = q -> s = KMN \/ nz be = false -> exists ord, orders K ord /\
  always (call None) m0 (fun r m' => holds m' BufC M N (product S A B ord) /\
     (forall i, dat m' BufA i = dat m0 BufA i) /\ (forall i, dat m' BufB i = dat m0 BufB i)).
Proof.
  intros Eq Hnz.
  destruct (plain_ok S F ar q nz M N K p c al be s mcu kcu ncu L None t Eq Hnz Ht) as (ord & c' & H1 & H2 & H3).
  exists ord. split; [auto|]. eapply always_mono; [exact (H3 A B m0 Hc Hr)|]. cbv beta. intros r m' (_ & E & (G & D)).
  destruct Hc as ((ba & A1 & _) & _ & (bb & B1 & _) & _).
  split; [exact E|split].
  - intros i. rewrite D; [reflexivity| |intros (? & _); discriminate]. cbn [start]. rewrite live_alloc. cbn. congruence.
  - intros i. rewrite D; [reflexivity| |intros (? & _); discriminate]. cbn [start]. rewrite live_alloc. cbn. congruence.
Qed.

Lemma empty_MN : (M = 0 \/ N = 0) -> s = KMN \/ nz be = false ->
  always (call (Some c)) m0 (fun r m' => (forall b, live m' b = live m0 b) /\
     forall b i, live m0 b <> None -> dat m' b i = dat m0 b i).
Proof.
  intros Hz H. destruct (any_ok H) as (ord & c' & _ & _ & G).
  eapply always_mono; [exact G|]. cbv beta. intros r m' (_ & _ & (L1 & D)). split; [auto|].
  intros b i Hb. apply D; auto. intros (_ & Hi). destruct Hz; subst; lia.
Qed.

Lemma empty_K : K = 0 -> s = KMN \/ nz be = false ->
  always (call (Some c)) m0 (fun r m' => holds m' BufC M N (fun _ _ => zero S)).
Proof.
  intros Hz H. destruct (any_ok H) as (ord & c' & Ho & _ & G).
  eapply always_mono; [exact G|]. cbv beta. intros r m' (_ & E & _) i j Hi Hj.
  rewrite (E i j Hi Hj). unfold product. specialize (Ho i j). rewrite Hz in Ho. cbn in Ho.
  apply Permutation_sym, Permutation_nil in Ho. rewrite Ho. reflexivity.
Qed.

End Corollaries.

Section MN.

Variable S : scalar.
Notation T := (elt S).

Lemma rim_vacuous {V} (m : mem V) N K nr t : 0 < nr -> (nr | N) -> B_rim m N K nr t.
Proof.
  intros Hn [q ->] k j _ Hj. exfalso. unfold round_up, ceil_div in Hj.
  replace (q * nr + nr - 1) with (nr - 1 + q * nr) in Hj by ring.
  rewrite Z.div_add, (Z.div_small (nr - 1) nr) in Hj by lia. lia.
Qed.

Lemma MN_safe F ar q (nz : T -> bool) M N K p c al be s mcu kcu ncu t A B m0 :
  s = MKN \/ s = NKM -> legal F ar s c M N K p mcu kcu ncu -> nz be = false ->
  tail_ok c K p mcu kcu ncu t -> caller m0 M N K A B ->
  (nr c | N) \/ B_rim m0 N K (nr c) t ->
  (exists o, pexec (cake_sgemm S F ar q nz M N K p (Some c) false false al be s mcu kcu ncu) m0 o) /\
  forall o, pexec (cake_sgemm S F ar q nz M N K p (Some c) false false al be s mcu kcu ncu) m0 o ->
    exists r m', o = Done r m'.
Proof.
  intros Hs L Hnz Ht Hc Hr. apply (any_safe S F ar q nz M N K p c al be s mcu kcu ncu t A B m0); auto.
  intros _. destruct Hr as [Hd|Hr]; [|exact Hr]. apply rim_vacuous; [|exact Hd].
  destruct L as (L1 & L2 & _). eapply ctx_for_pos; eauto.
Qed.

Lemma M_first_plus F ar q (nz : T -> bool) M N K p c al be mcu kcu ncu t :
  legal F ar MKN c M N K p mcu kcu ncu -> nz be = true -> tail_ok c K p mcu kcu ncu t ->
  exists ord c', orders K ord /\ same_ctx c c' /\
    forall A B C0 m0, caller m0 M N K A B -> B_rim m0 N K (nr c) t -> holds m0 BufC M N C0 ->
      always (cake_sgemm S F ar q nz M N K p (Some c) false false al be MKN mcu kcu ncu) m0
        (fun r m' => r = c' /\ holds m' BufC M N (product_plus S A B C0 ord) /\ only_C_changed m0 m' M N).
Proof. intros L Hb Ht. apply (plus_ok S F ar q nz M N K p c al be MKN mcu kcu ncu L t Hb); auto. discriminate. Qed.

Lemma N_first_plus F ar q (nz : T -> bool) M N K p c al be mcu kcu ncu t :
  legal F ar NKM c M N K p mcu kcu ncu -> nz be = true ->
  user_tiles c mcu kcu ncu -> n_first_C_fits M N p (mr c) (nr c) mcu ncu ->
  tail_ok c K p mcu kcu ncu t ->
  exists ord c', orders K ord /\ same_ctx c c' /\
    forall A B C0 m0, caller m0 M N K A B -> B_rim m0 N K (nr c) t -> holds m0 BufC M N C0 ->
      always (cake_sgemm S F ar q nz M N K p (Some c) false false al be NKM mcu kcu ncu) m0
        (fun r m' => r = c' /\ holds m' BufC M N (product_plus S A B C0 ord) /\ only_C_changed m0 m' M N).
Proof. intros L Hb Hu Ha Ht. apply (plus_ok S F ar q nz M N K p c al be NKM mcu kcu ncu L t Hb); auto. Qed.

Lemma user_tiles_ok F ar q (nz : T -> bool) M N K p c al be mcu kcu ncu :
  arch_ok ar -> ctx_ok ar c -> 0 <= M -> 0 <= N -> 0 <= K -> 0 < p ->
  0 < mcu -> 0 < kcu -> 0 < ncu -> (mr c | mcu) -> (nr c | ncu) ->
  exists ord, orders K ord /\
    forall A B m0, caller m0 M N K A B ->
      always (cake_sgemm S F ar q nz M N K p (Some c) false false al be KMN mcu kcu ncu) m0
        (fun _ m' => holds m' BufC M N (product S A B ord)).
Proof.
  intros. destruct (K_first_ok S F ar q nz M N K p c al be KMN mcu kcu ncu) as (ord & c' & Q1 & Q2 & Q3); auto.
  - unfold legal. repeat (split; [assumption|]). left. unfold user_tiles. auto.
  - exists ord. split; [auto|]. intros A B m0 Hc. eapply always_mono; [apply (Q3 A B m0 Hc)|]. cbv beta. tauto.
Qed.

Lemma alpha_ignored F ar q (nz : T -> bool) M N K p oc pa pb al al' be s mcu kcu ncu m o :
  pexec (cake_sgemm S F ar q nz M N K p oc pa pb al be s mcu kcu ncu) m o <->
  pexec (cake_sgemm S F ar q nz M N K p oc pa pb al' be s mcu kcu ncu) m o.
Proof. apply iff_refl. Qed.

End MN.
