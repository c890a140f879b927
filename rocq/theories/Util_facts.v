(** * The checkers and clamping. *)

From Coq Require Import ZArith List Bool Lia SpecFloat.
From Verif Require Import Lang Lang_facts Spec SpecTop ModelSizing ModelKernel ModelPack ModelUtil
     Kernel_facts Tile_facts Loop_facts Mult_facts Trans_facts.
Import ListNotations.
Open Scope Z_scope.

Section Check.

Variable S : scalar.
Notation T := (elt S).
Variable far : T -> T -> bool.
Variables ok bad : T.

(** ** Comparing two matrices *)

Section Compare.

Variables (cb kb : buf) (W Rd : region) (m : mem T) (bc bk : binfo).
Hypothesis HLc : live m cb = Some bc.
Hypothesis HLk : live m kb = Some bk.
Hypothesis HRc : forall x, Rd cb x.
Hypothesis HRk : forall x, Rd kb x.

Lemma compare_step (ind : Z) (correct : bool) a b (Q : Z * bool -> mem T -> Prop) :
  0 <= ind < blen bc -> ind < blen bk -> dat m kb ind = Some a -> dat m cb ind = Some b ->
  Q (ind + 1, if far a b then false else correct) m ->
  twp W Rd (tbind (pload S (kb, 0) ind) (fun a => tbind (pload S (cb, 0) ind) (fun b =>
      TRet (ind + 1, if far a b then false else correct)))) Q m.
Proof.
  intros Hc Hk Ha Hb HQ. apply twp_bind. unfold pload. cbn [fst snd]. rewrite Z.add_0_l.
  apply (twp_load W Rd kb ind a _ m bk); auto; [lia|]. apply twp_bind.
  apply (twp_load W Rd cb ind b _ m bc); auto.
Qed.

Lemma mat_equals_spec M N (f g : Z -> Z -> T) :
  0 <= M -> 0 <= N -> M * N <= blen bc -> M * N <= blen bk ->
  holds m kb M N f -> holds m cb M N g ->
  twp W Rd (mat_equals S far (cb, 0) (kb, 0) M N)
    (fun r m' => m' = m /\ (r = true <-> forall i j, 0 <= i < M -> 0 <= j < N -> far (f i j) (g i j) = false)) m.
Proof.
  intros HM HN Hc Hk Hf Hg. unfold mat_equals. apply twp_bind.
  eapply (twp_tfor1 W Rd (fun i (r : Z * bool) m' => m' = m /\ fst r = i * N /\
     (snd r = true <-> forall i' j, 0 <= i' < i -> 0 <= j < N -> far (f i' j) (g i' j) = false))); try lia.
  - split; [auto|]. cbn. split; [auto|]. split; [intros; lia|auto].
  - intros i r m' Hi (-> & Hr1 & Hr2) _ _.
    eapply (twp_tfor1 W Rd (fun j (r' : Z * bool) m' => m' = m /\ fst r' = i * N + j /\
      (snd r' = true <-> snd r = true /\ forall j', 0 <= j' < j -> far (f i j') (g i j') = false))); try lia.
    + split; [auto|]. split; [lia|]. split; [intros H; split; [auto|intros; lia]|tauto].
    + intros j (ind, cor) m' Hj (-> & Hr3 & Hr4) _ _. cbn [fst snd] in *. subst ind.
      apply (compare_step (i * N + j) cor (f i j) (g i j)); try nia; try (apply Hf; lia); try (apply Hg; lia).
      split; [auto|]. cbn [fst snd]. split; [lia|].
      destruct (far (f i j) (g i j)) eqn:E.
      * split; [discriminate|]. intros (_ & H). specialize (H j ltac:(lia)). congruence.
      * rewrite Hr4. split; intros (H1 & H2); split; auto; intros j' Hj'.
        -- destruct (Z.eq_dec j' j) as [->|]; [auto|apply H2; lia].
        -- apply H2; lia.
    + cbv beta. intros r' m' (-> & Hr3 & Hr4) _ _. split; [auto|]. split; [lia|].
      rewrite Hr4, Hr2. split.
      * intros (H1 & H2) i' j Hi' Hj. destruct (Z.eq_dec i' i) as [->|]; [auto|apply H1; lia].
      * intros H. split; intros; apply H; lia.
  - cbv beta. intros r m' (-> & _ & Hr) _ _. apply twp_ret. auto.
Qed.

Lemma add_compare_spec n (f g : Z -> T) :
  0 <= n -> n <= blen bc -> n <= blen bk ->
  (forall i, 0 <= i < n -> dat m kb i = Some (f i)) -> (forall i, 0 <= i < n -> dat m cb i = Some (g i)) ->
  twp W Rd (add_compare S far (cb, 0) (kb, 0) n)
    (fun r m' => m' = m /\ (r = true <-> forall i, 0 <= i < n -> far (f i) (g i) = false)) m.
Proof.
  intros Hn Hc Hk Hf Hg. unfold add_compare. apply twp_bind.
  eapply (twp_tfor1 W Rd (fun i (r : Z * bool) m' => m' = m /\ fst r = i /\
     (snd r = true <-> forall i', 0 <= i' < i -> far (f i') (g i') = false))); try lia.
  - split; [auto|]. cbn. split; [auto|]. split; [intros; lia|auto].
  - intros j (ind, cor) m' Hj (-> & Hr3 & Hr4) _ _. cbn [fst snd] in *. subst ind.
    apply (compare_step j cor (f j) (g j)); try lia; try (apply Hf; lia); try (apply Hg; lia).
    split; [auto|]. cbn [fst snd]. split; [lia|].
    destruct (far (f j) (g j)) eqn:E.
    + split; [discriminate|]. intros H. specialize (H j ltac:(lia)). congruence.
    + rewrite Hr4. split; intros H j' Hj'.
      * destruct (Z.eq_dec j' j) as [->|]; [auto|apply H; lia].
      * apply H; lia.
  - cbv beta. intros r m' (-> & _ & Hr) _ _. apply twp_ret. auto.
Qed.

End Compare.

(** ** The reference product *)

Section Ref.

Variables (M N K : Z) (A B : Z -> Z -> T) (m : mem T) (ba bb bk : binfo).
Hypothesis HM : 0 <= M.
Hypothesis HN : 0 <= N.
Hypothesis HK : 0 <= K.
Hypothesis HLa : live m BufA = Some ba.
Hypothesis HLb : live m BufB = Some bb.
Hypothesis HLk : live m ckbuf = Some bk.
Hypothesis Hba : M * K <= blen ba.
Hypothesis Hbb : K * N <= blen bb.
Hypothesis Hbk : M * N <= blen bk.
Hypothesis HA : holds m BufA M K A.
Hypothesis HB : holds m BufB K N B.

Definition refk (k i j : Z) : T := dot S (A i) (fun k => B k j) (zrange 0 k) (zero S).

Definition rdAB : region := fun b _ => b = BufA \/ b = BufB.

Definition sameAB (m' : mem T) : Prop :=
  live m' = live m /\ forall b x, ~ (b = ckbuf /\ 0 <= x < M * N) -> dat m' b x = dat m b x.

Lemma row_spec k i (g : Z -> T) m1 :
  sameAB m1 -> 0 <= k < K -> 0 <= i < M ->
  (forall j, 0 <= j < N -> dat m1 ckbuf (i * N + j) = Some (g j)) ->
  twp (rng ckbuf (i * N) (i * N + N)) rdAB (ck_row S (BufA, 0) (BufB, 0) (ckbuf, 0) N K k i)
    (fun _ m2 => forall j, 0 <= j < N -> dat m2 ckbuf (i * N + j) = Some (fma S (A i k) (B k j) (g j))) m1.
Proof.
  intros (HL & HD) Hk Hi Hg. unfold ck_row, tfor_.
  eapply (twp_tfor1 _ rdAB (fun n (_ : unit) m2 => forall j, 0 <= j < N ->
     dat m2 ckbuf (i * N + j) = Some (if j <? n then fma S (A i k) (B k j) (g j) else g j))); try lia.
  - intros j Hj. replace (j <? 0) with false by lia. auto.
  - intros n s1 m2 Hn HI HL2 HD2.
    assert (Hsrc : forall b x, b = BufA \/ b = BufB -> dat m2 b x = dat m b x).
    { intros b x Hb. rewrite HD2.
      - apply HD. intros (E & _). subst b. now destruct Hb.
      - intros (E & _). subst b. now destruct Hb. }
    apply twp_bind. unfold pload, pstore. cbn [fst snd]. rewrite !Z.add_0_l.
    specialize (HI n Hn) as Hn1. replace (n <? n) with false in Hn1 by lia.
    assert (Hb1 : 0 <= i * N + n < blen bk) by nia.
    assert (Hb2 : 0 <= i * K + k < blen ba) by nia.
    assert (Hb3 : 0 <= k * N + n < blen bb) by nia.
    eapply (twp_load _ _ _ _ _ _ _ bk); [right; split; [auto|lia]|rewrite HL2, HL; auto|exact Hb1|exact Hn1|].
    apply twp_bind.
    eapply (twp_load _ _ _ _ (A i k) _ _ ba); [left; now left|rewrite HL2, HL; auto|exact Hb2|rewrite Hsrc by auto; apply HA; lia|].
    apply twp_bind.
    eapply (twp_load _ _ _ _ (B k n) _ _ bb); [left; now right|rewrite HL2, HL; auto|exact Hb3|rewrite Hsrc by auto; apply HB; lia|].
    eapply (twp_store _ _ _ _ _ _ _ bk); [split; [auto|lia]|rewrite HL2, HL; auto|exact Hb1|].
    intros j Hj. destruct (Z.eq_dec j n) as [->|].
    + replace (n <? n + 1) with true by lia. apply dat_upd_same.
    + rewrite dat_upd_other by (right; lia). rewrite HI by auto.
      replace (j <? n + 1) with (j <? n); [auto|]. apply Bool.eq_true_iff_eq. rewrite !Z.ltb_lt. lia.
  - cbv beta. intros _ m2 HI _ _ j Hj. rewrite HI by auto. now replace (j <? N) with true by lia.
Qed.

Lemma ref_spec m1 :
  sameAB m1 -> holds m1 ckbuf M N (fun _ _ => zero S) ->
  pok (pfor_ 0 K 1 (fun k => ppar_for 0 M 1 (ck_row S (BufA, 0) (BufB, 0) (ckbuf, 0) N K k))) m1
    (fun _ m2 => sameAB m2 /\ holds m2 ckbuf M N (refk K)).
Proof.
  intros HS HZ. unfold pfor_.
  eapply (pok_pfor1 (fun k (_ : unit) m2 => sameAB m2 /\ holds m2 ckbuf M N (refk k))); try lia.
  - split; [auto|]. intros i j Hi Hj. rewrite HZ by auto. reflexivity.
  - intros k s1 m2 Hk ((HL & HD) & HH).
    eapply (pok_par_for 0 M 1 M _ m2 (fun i => rng ckbuf (i * N) (i * N + N)) (fun _ => rdAB)
      (fun i m3 => forall j, 0 <= j < N -> dat m3 ckbuf (i * N + j) = Some (fma S (A i k) (B k j) (refk k i j)))); try lia.
    + intros i Hi. replace (0 + i * 1) with i by lia. apply row_spec; auto. split; auto.
    + intros i i' b x Hi Hi' Hne (-> & Hx) [(_ & Hx')|[E|E]]; try discriminate E. nia.
    + intros m3 HL3 HV HF. split; [split|].
      * congruence.
      * intros b x Hx. rewrite HF; [auto|]. intros i Hi (-> & Hx'). apply Hx. split; [auto|nia].
      * intros i j Hi Hj. destruct (HV i Hi) as (ms & HQ & _ & _ & HW).
        rewrite HW by (split; [auto|lia]). rewrite HQ by auto.
        unfold refk, dot. rewrite zrange_snoc by lia. rewrite fold_left_app. reflexivity.
  - cbv beta. tauto.
Qed.

End Ref.

(** ** The checker *)

Definition no_far (M N : Z) (f g : Z -> Z -> T) : Prop :=
  forall i j, 0 <= i < M -> 0 <= j < N -> far (f i j) (g i j) = false.

Lemma ret_spec M N (f g : Z -> Z -> T) m bc bk br :
  0 <= M -> 0 <= N -> live m BufC = Some bc -> live m ckbuf = Some bk -> live m retb = Some br ->
  M * N <= blen bc -> M * N <= blen bk -> 1 <= blen br ->
  holds m ckbuf M N f -> holds m BufC M N g ->
  pok (pseq (tbind (mat_equals S far (BufC, 0) (ckbuf, 0) M N) (fun r => pstore S (retb, 0) 0 (if r then ok else bad)))) m
    (fun _ m' => live m' = live m /\ (forall b x, ~ (b = retb /\ x = 0) -> dat m' b x = dat m b x) /\
       exists r : bool, dat m' retb 0 = Some (if r then ok else bad) /\ (r = true <-> no_far M N f g)).
Proof.
  intros HM HN Lc Lk Lr Bc Bk Br Hf Hg.
  eapply (pok_seq (fun b x => b = retb /\ x = 0) (fun b _ => b = BufC \/ b = ckbuf) _ m
    (fun m' => exists r : bool, dat m' retb 0 = Some (if r then ok else bad) /\ (r = true <-> no_far M N f g))).
  - apply twp_bind. eapply twp_mono.
    + apply (mat_equals_spec BufC ckbuf _ _ m bc bk) with (f := f) (g := g); auto.
    + cbv beta. intros r m' (-> & Hr). unfold pstore. cbn [fst snd].
      eapply (twp_store _ _ _ _ _ _ _ br); [split; auto|auto|lia|]. exists r. split; [apply dat_upd_same|auto].
  - cbv beta. intros ms m' (r & H1 & H2) _ HL HE HF. split; [auto|]. split; [auto|].
    exists r. rewrite HE. auto.
  - intros b x. destruct (buf_eqb_spec b retb) as [->|]; [|right; tauto].
    destruct (Z.eq_dec x 0); [left; auto|right; tauto].
Qed.

Lemma checker_ok M N K (A B C : Z -> Z -> T) m :
  0 <= M -> 0 <= N -> 0 <= K ->
  at_least m BufA (M * K) -> holds m BufA M K A ->
  at_least m BufB (K * N) -> holds m BufB K N B ->
  at_least m BufC (M * N) -> holds m BufC M N C ->
  at_least m retb 1 -> live m ckbuf = None ->
  always (cake_sgemm_checker S far ok bad (BufA, 0) (BufB, 0) (BufC, 0) N M K) m (fun _ m' =>
    (forall b, live m' b = live m b) /\
    (forall b x, live m b <> None -> ~ (b = retb /\ x = 0) -> dat m' b x = dat m b x) /\
    exists r : bool, dat m' retb 0 = Some (if r then ok else bad) /\
      (r = true <-> no_far M N (refk A B K) C)).
Proof.
  intros HM HN HK (ba & La & Ba) HA (bb & Lb & Bb) HB (bc & Lc & Bc) HC (br & Lr & Br) Lk.
  apply pok_always. unfold cake_sgemm_checker.
  apply pok_bind. apply pok_alloc; [nia|auto|]. cbv beta.
  set (m1 := do_alloc m ckbuf (M * N) false (Some (zero S))).
  assert (HL1 : forall b, b <> ckbuf -> live m1 b = live m b).
  { intros b Hb. unfold m1, do_alloc. cbn [live]. destruct (buf_eqb_spec ckbuf b); congruence. }
  assert (HK1 : live m1 ckbuf = Some (BInfo (M * N) false)) by reflexivity.
  assert (HD1 : forall b x, b <> ckbuf -> dat m1 b x = dat m b x).
  { intros b x Hb. unfold m1, do_alloc. cbn [dat]. destruct (buf_eqb_spec ckbuf b); congruence. }
  assert (HZ1 : forall x, dat m1 ckbuf x = Some (zero S)) by reflexivity.
  apply pok_bind. eapply pok_mono.
  { apply (ref_spec M N K A B m1 ba bb (BInfo (M * N) false)); auto; cbn [blen]; try lia.
    - split; auto.
    - intros i j Hi Hj. apply HZ1. }
  cbv beta. intros _ m2 ((HL2 & HD2) & HH2).
  apply pok_bind. eapply pok_mono.
  { apply (ret_spec M N (refk A B K) C m2 bc (BInfo (M * N) false) br); auto; rewrite ?HL2; auto; try (cbn [blen]; lia).
    - intros i j Hi Hj. rewrite HD2 by (intros (E & _); discriminate E). rewrite HD1 by discriminate. auto. }
  cbv beta. intros _ m3 (HL3 & HD3 & r & Hr1 & Hr2).
  apply pok_free.
  { rewrite HL3, HL2, HK1. discriminate. }
  split; [|split].
  - intros b. unfold do_free. cbn [live]. destruct (buf_eqb_spec ckbuf b) as [<-|Nb]; [auto|].
    rewrite HL3, HL2. apply HL1. congruence.
  - intros b x Hb Hx. unfold do_free. cbn [dat].
    assert (b <> ckbuf) by congruence.
    try (destruct (buf_eqb_spec ckbuf b); [congruence|]).
    rewrite HD3 by auto. rewrite HD2 by (intros (E & _); congruence). auto.
  - exists r. split; [exact Hr1|auto].
Qed.

End Check.

(** ** add_checker *)

Section AddCheck.

Variable S : scalar.
Notation T := (elt S).
Variable far : T -> T -> bool.
Variable add : T -> T -> T.
Variables ok bad : T.

Definition sumk (g : Z -> Z -> T) (p i : Z) : T := fold_left (fun s c => add s (g c i)) (zrange 0 p) (zero S).

Lemma sum_spec n p (g : Z -> Z -> T) m bk :
  0 <= n -> 0 <= p -> live m ckbuf = Some bk -> n <= blen bk ->
  (forall c, 0 <= c < p -> at_least m (BufCp c) n) ->
  (forall c i, 0 <= c < p -> 0 <= i < n -> dat m (BufCp c) i = Some (g c i)) ->
  (forall i, 0 <= i < n -> dat m ckbuf i = Some (zero S)) ->
  twp (rng ckbuf 0 n) (fun b _ => exists c, b = BufCp c)
    (tfor_ 0 p 1 (fun c => tfor_ 0 n 1 (fun i =>
      tbind (pload S (ckbuf, 0) i) (fun a => tbind (pload S (BufCp c, 0) i) (fun b =>
      pstore S (ckbuf, 0) i (add a b))))))
    (fun _ m' => forall i, 0 <= i < n -> dat m' ckbuf i = Some (sumk g p i)) m.
Proof.
  intros Hn Hp Lk Bk La Hg Hz. unfold tfor_.
  eapply (twp_tfor1 _ _ (fun c (_ : unit) m' => forall i, 0 <= i < n -> dat m' ckbuf i = Some (sumk g c i))); try lia.
  - exact Hz.
  - intros c s1 m1 Hc HI HL1 HD1.
    eapply (twp_tfor1 _ _ (fun i (_ : unit) m' => forall i', 0 <= i' < n ->
      dat m' ckbuf i' = Some (if i' <? i then sumk g (c + 1) i' else sumk g c i'))); try lia.
    + intros i Hi. replace (i <? 0) with false by lia. auto.
    + intros i s2 m2 Hi HI2 HL2 HD2. apply twp_bind. unfold pload, pstore. cbn [fst snd]. rewrite !Z.add_0_l.
      pose proof (HI2 i Hi) as Hv. replace (i <? i) with false in Hv by lia.
      destruct (La c Hc) as (bc & Lc & Bc).
      apply (twp_load _ _ _ _ (sumk g c i) _ _ bk); [right; split; auto; lia|congruence|lia|auto|].
      apply twp_bind.
      apply (twp_load _ _ _ _ (g c i) _ _ bc); [left; eauto|congruence|lia| |].
      { rewrite HD2 by (intros (E & _); discriminate E). rewrite HD1 by (intros (E & _); discriminate E). auto. }
      apply (twp_store _ _ _ _ _ _ _ bk); [split; auto; lia|congruence|lia|].
      intros i' Hi'. destruct (Z.eq_dec i' i) as [->|].
      * replace (i <? i + 1) with true by lia. rewrite dat_upd_same. f_equal.
        unfold sumk. rewrite zrange_snoc by lia. now rewrite fold_left_app.
      * rewrite dat_upd_other by (right; lia). rewrite HI2 by auto.
        replace (i' <? i + 1) with (i' <? i); [auto|]. apply Bool.eq_true_iff_eq. rewrite !Z.ltb_lt. lia.
    + cbv beta. intros _ m2 H2 _ _ i Hi. rewrite H2 by auto. now replace (i <? n) with true by lia.
  - cbv beta. auto.
Qed.

Lemma add_checker_ok M N p (g : Z -> Z -> T) (C : Z -> T) m :
  0 <= M -> 0 <= N -> 0 <= p ->
  (forall c, 0 <= c < p -> at_least m (BufCp c) (M * N)) ->
  (forall c i, 0 <= c < p -> 0 <= i < M * N -> dat m (BufCp c) i = Some (g c i)) ->
  at_least m BufC (M * N) -> (forall i, 0 <= i < M * N -> dat m BufC i = Some (C i)) ->
  at_least m retb 1 -> live m ckbuf = None ->
  always (add_checker S far add ok bad (fun c => (BufCp c, 0)) (BufC, 0) M N p) m (fun _ m' =>
    (forall b, live m' b = live m b) /\
    (forall b x, live m b <> None -> ~ (b = retb /\ x = 0) -> dat m' b x = dat m b x) /\
    exists r : bool, dat m' retb 0 = Some (if r then ok else bad) /\
      (r = true <-> forall i, 0 <= i < M * N -> far (sumk g p i) (C i) = false)).
Proof.
  intros HM HN Hp La Hg (bc & Lc & Bc) HC (br & Lr & Br) Lk.
  apply pok_always. unfold add_checker.
  assert (Hn : 0 <= M * N) by nia. set (n := M * N) in *.
  apply pok_bind. apply pok_alloc; [lia|auto|]. cbv beta.
  set (m1 := do_alloc m ckbuf n false (Some (zero S))).
  assert (HL1 : forall b, b <> ckbuf -> live m1 b = live m b).
  { intros b Hb. unfold m1, do_alloc. cbn [live]. destruct (buf_eqb_spec ckbuf b); congruence. }
  assert (HK1 : live m1 ckbuf = Some (BInfo n false)) by reflexivity.
  assert (HD1 : forall b x, b <> ckbuf -> dat m1 b x = dat m b x).
  { intros b x Hb. unfold m1, do_alloc. cbn [dat]. destruct (buf_eqb_spec ckbuf b); congruence. }
  assert (HZ1 : forall x, dat m1 ckbuf x = Some (zero S)) by reflexivity.
  clearbody m1.
  apply pok_bind.
  eapply (pok_seq (rng ckbuf 0 n) (fun b _ => exists c, b = BufCp c)).
  { apply (sum_spec n p g m1 (BInfo n false)); auto.
    - cbn. lia.
    - intros c Hc. destruct (La c Hc) as (bi & L & B). exists bi. rewrite HL1 by discriminate. auto.
    - intros c i Hc Hi. rewrite HD1 by discriminate. auto. }
  2:{ intros b x. apply (range_dec ckbuf n). }
  cbv beta. intros ms m2 HS _ HL2 HE2 HF2.
  apply pok_bind.
  eapply (pok_seq (fun b x => b = retb /\ x = 0) (fun b _ => b = BufC \/ b = ckbuf) _ m2
    (fun m' => exists r : bool, dat m' retb 0 = Some (if r then ok else bad) /\
       (r = true <-> forall i, 0 <= i < n -> far (sumk g p i) (C i) = false))).
  { apply twp_bind. eapply twp_mono.
    - apply (add_compare_spec S far BufC ckbuf _ _ m2 bc (BInfo n false)) with (f := sumk g p) (g := C); auto.
      + rewrite HL2, HL1 by discriminate. auto.
      + rewrite HL2. auto.
      + cbn. lia.
      + intros i Hi. rewrite HE2. auto.
      + intros i Hi. rewrite HF2 by (intros (E & _); discriminate E). rewrite HD1 by discriminate. auto.
    - cbv beta. intros r m' (-> & Hr). unfold pstore. cbn [fst snd].
      apply (twp_store _ _ _ _ _ _ _ br); [split; auto|rewrite HL2, HL1 by discriminate; auto|lia|].
      exists r. split; [apply dat_upd_same|auto]. }
  2:{ intros b x. destruct (buf_eqb_spec b retb) as [->|]; [|right; tauto].
      destruct (Z.eq_dec x 0); [left; auto|right; tauto]. }
  cbv beta. intros ms' m3 (r & Hr1 & Hr2) _ HL3 HE3 HF3.
  apply pok_free.
  { rewrite HL3, HL2, HK1. discriminate. }
  split; [|split].
  - intros b. unfold do_free. cbn [live]. destruct (buf_eqb_spec ckbuf b) as [<-|Nb]; [auto|].
    rewrite HL3, HL2. apply HL1. congruence.
  - intros b x Hb Hx. unfold do_free. cbn [dat].
    assert (b <> ckbuf) by congruence.
    destruct (buf_eqb_spec ckbuf b); [congruence|].
    rewrite HF3 by auto. rewrite HF2 by (intros (E & _); congruence). auto.
  - exists r. split; [|auto]. unfold do_free. cbn. rewrite HE3. exact Hr1.
Qed.

End AddCheck.

(** ** Comparing floats *)

Lemma pos_cont_antisym a b : Pos.compare_cont Eq a b = CompOpp (Pos.compare_cont Eq b a).
Proof. symmetry. apply (Pos.compare_cont_antisym b a Eq). Qed.

Lemma SFcompare_total x y : x <> S754_nan -> y <> S754_nan ->
  exists c, SFcompare x y = Some c /\ SFcompare y x = Some (CompOpp c).
Proof.
  intros Hx Hy.
  destruct x as [sx|sx| |sx mx ex]; destruct y as [sy|sy| |sy my ey]; try congruence;
    cbn [SFcompare]; try (destruct sx); try (destruct sy); try (eexists; split; reflexivity).
  - rewrite (Z.compare_antisym ex ey). destruct (Z.compare ex ey); cbn; try (eexists; split; reflexivity).
    eexists. split; [reflexivity|]. f_equal. f_equal. apply pos_cont_antisym.
  - rewrite (Z.compare_antisym ex ey). destruct (Z.compare ex ey); cbn; try (eexists; split; reflexivity).
    eexists. split; [reflexivity|]. f_equal. apply pos_cont_antisym.
Qed.

Lemma SF_refl x : x <> S754_nan -> SFleb x x = true.
Proof.
  intros Hx. unfold SFleb. destruct (SFcompare_total x x Hx Hx) as (c & H1 & H2).
  rewrite H1 in H2. injection H2 as E. rewrite H1. now destruct c.
Qed.

(** not less is greater or equal, unless NaN *)
Lemma SF_ge x y : x <> S754_nan -> y <> S754_nan -> SFltb x y = false -> SFleb y x = true.
Proof.
  intros Hx Hy. unfold SFltb, SFleb. destruct (SFcompare_total x y Hx Hy) as (c & -> & ->).
  destruct c; auto.
Qed.

Lemma SF_le_not_lt x y : SFleb x y = true -> SFltb y x = false.
Proof.
  intros H. assert (x <> S754_nan /\ y <> S754_nan) as (Hx & Hy).
  { destruct x, y; cbn in H; split; congruence. }
  unfold SFltb, SFleb in *. destruct (SFcompare_total x y Hx Hy) as (c & H1 & H2).
  rewrite H1 in H. rewrite H2. now destruct c.
Qed.

Lemma clamp_spec d mn mx :
  d <> S754_nan -> SFleb mn mx = true ->
  SFleb mn (clamp_val d mn mx) = true /\ SFleb (clamp_val d mn mx) mx = true /\
  (SFleb mn d = true -> SFleb d mx = true -> clamp_val d mn mx = d).
Proof.
  intros Hd Hm.
  assert (mn <> S754_nan /\ mx <> S754_nan) as (Hmn & Hmx).
  { destruct mn, mx; cbn in Hm; split; congruence. }
  unfold clamp_val. split; [|split].
  - destruct (SFltb d mn) eqn:E1.
    + destruct (SFltb mx mn); [exact Hm|now apply SF_refl].
    + destruct (SFltb mx d); [exact Hm|]. now apply SF_ge.
  - destruct (SFltb d mn) eqn:E1.
    + destruct (SFltb mx mn) eqn:E2; [now apply SF_refl|exact Hm].
    + destruct (SFltb mx d) eqn:E2; [now apply SF_refl|]. now apply SF_ge.
  - intros H1 H2. rewrite (SF_le_not_lt _ _ H1). now rewrite (SF_le_not_lt _ _ H2).
Qed.

(** ** NaN *)

Lemma sub_nan_r a : sub32 a S754_nan = S754_nan.
Proof. now destruct a. Qed.

Lemma far_nan a : far32 a S754_nan = false.
Proof. unfold far32. rewrite sub_nan_r. reflexivity. Qed.
