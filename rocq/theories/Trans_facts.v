(** * Transposition. *)

From Coq Require Import ZArith List Bool Lia.
From Verif Require Import Lang Lang_facts Spec SpecTop ModelSizing ModelKernel ModelPack ModelTrans
     Kernel_facts Tile_facts Loop_facts Mult_facts.
Import ListNotations.
Open Scope Z_scope.

(** ** The register network *)

Lemma below8 (P : Z -> Prop) : P 0 -> P 1 -> P 2 -> P 3 -> P 4 -> P 5 -> P 6 -> P 7 -> forall e, 0 <= e < 8 -> P e.
Proof.
  intros. assert (E : e = 0 \/ e = 1 \/ e = 2 \/ e = 3 \/ e = 4 \/ e = 5 \/ e = 6 \/ e = 7) by lia.
  destruct E as [-> | [-> | [-> | [-> | [-> | [-> | [-> | ->]]]]]]]; auto.
Qed.

Lemma network8_spec S (r : Z -> m256 S) : forall i, 0 <= i < 8 -> forall e, 0 <= e < 8 -> network8 S r i e = r e i.
Proof.
  apply (below8 (fun i => forall e, 0 <= e < 8 -> network8 S r i e = r e i));
  apply below8; reflexivity.
Qed.

(** one thread alone *)
Lemma pok_seq {V} (W Rd : region) (t : thr V unit) (m : mem V) (Q : mem V -> Prop) (Post : unit -> mem V -> Prop) :
  twp W Rd t (fun _ => Q) m ->
  (forall ms m', Q ms -> live ms = live m -> live m' = live m ->
     (forall b x, dat m' b x = dat ms b x) -> (forall b x, ~ W b x -> dat m' b x = dat m b x) -> Post tt m') ->
  (forall b x, {W b x} + {~ W b x}) ->
  pok (pseq t) m Post.
Proof.
  intros Ht HP Hdec. change (pseq t) with (ppar_for 0 1 1 (fun _ => t)).
  apply (pok_par_for 0 1 1 1 (fun _ => t) m (fun _ => W) (fun _ => Rd) (fun _ => Q)); try lia.
  - intros c _. exact Ht.
  - intros m' HL HV HF. destruct (HV 0 ltac:(lia)) as (ms & H1 & H2 & H3 & H4).
    apply (HP ms m'); auto.
    intros b x. destruct (Hdec b x) as [Hw|Hw]; [auto|]. rewrite H3, HF; auto.
Qed.

(** ** Finding a race *)

Section Find.

Context {V : Type}.

Inductive tsteps : thr V unit -> mem V -> thr V unit -> mem V -> Prop :=
| tsteps_refl t m : tsteps t m t m
| tsteps_cons t m t1 m1 t2 m2 : tstep t m t1 m1 -> tsteps t1 m1 t2 m2 -> tsteps t m t2 m2.

Lemma tsteps_psteps pre post t m t' m' : tsteps t m t' m' -> psteps (pre ++ t :: post, m) (pre ++ t' :: post, m').
Proof. induction 1; [constructor|]. econstructor; [constructor; eauto|auto]. Qed.

(** [m] without the content of one cell *)
Definition hide (b : buf) (x : Z) (m : mem V) : mem V :=
  Mem (live m) (fun b' x' => if buf_eqb b b' && (x =? x') then None else dat m b' x').

(** A thread that leaves a cell with a value although it starts with none writes it, and reads
    it no sooner. *)
Lemma stores_it (W Rd : region) b x (Q : unit -> mem V -> Prop) :
  (forall m2, Q tt m2 -> dat m2 b x <> None) ->
  forall t m m1, twp W Rd t Q m1 -> live m1 = live m -> dat m1 b x = None ->
    (forall b' x', b' <> b \/ x' <> x -> dat m1 b' x' = dat m b' x') ->
    exists t' m', tsteps t m t' m' /\ tnext t' = Some (true, b, x) /\ live m' = live m /\
      forall b' x', ~ W b' x' -> dat m' b' x' = dat m b' x'.
Proof.
  Transparent twp.
  intros HQ. induction t as [u|al b1 i k IH|b1 i v k IH|]; intros m m1 Ht HL HN HE; cbn in Ht.
  - destruct u. exfalso. eapply HQ; eauto.
  - destruct Ht as (HR & v & Hv & Ht).
    assert (Hd : b1 <> b \/ i <> x).
    { destruct (buf_eqb_spec b1 b) as [->|]; [|auto]. destruct (Z.eq_dec i x) as [->|]; [|auto].
      unfold load in Hv. rewrite HN in Hv. destruct (live m1 b); [|discriminate]. destruct (_ && _) in Hv; discriminate. }
    destruct (IH v m m1 Ht HL HN HE) as (t' & m' & H1 & H2 & H3 & H4).
    exists t', m'. split; [|auto]. econstructor; [|exact H1]. constructor.
    unfold load in *. rewrite HL, HE in Hv by auto. exact Hv.
  - destruct Ht as (HW & Hc & Ht).
    destruct (buf_eqb_spec b1 b) as [->|Nb].
    + destruct (Z.eq_dec i x) as [->|Nx].
      * exists (TStore b x v k), m. split; [constructor|]. split; [reflexivity|auto].
      * destruct (IH (upd m b i v) (upd m1 b i v) Ht HL) as (t' & m' & H1 & H2 & H3 & H4).
        -- rewrite dat_upd_other; auto.
        -- intros b' x' Hd. unfold upd. cbn. destruct (buf_eqb b b' && (i =? x')); auto.
        -- exists t', m'. split; [|split; [auto|split; [exact H3|]]].
           ++ econstructor; [|exact H1]. constructor. unfold can_store in *. now rewrite HL in Hc.
           ++ intros b' x' Hw. rewrite H4 by auto. apply dat_upd_other.
              destruct (buf_eqb_spec b' b) as [->|]; [|auto]. destruct (Z.eq_dec x' i) as [->|]; [contradiction|auto].
    + destruct (IH (upd m b1 i v) (upd m1 b1 i v) Ht HL) as (t' & m' & H1 & H2 & H3 & H4).
      * rewrite dat_upd_other; auto.
      * intros b' x' Hd. unfold upd. cbn. destruct (buf_eqb b1 b' && (i =? x')); auto.
      * exists t', m'. split; [|split; [auto|split; [exact H3|]]].
        -- econstructor; [|exact H1]. constructor. unfold can_store in *. now rewrite HL in Hc.
        -- intros b' x' Hw. rewrite H4 by auto. apply dat_upd_other.
           destruct (buf_eqb_spec b' b1) as [->|]; [|auto]. destruct (Z.eq_dec x' i) as [->|]; [contradiction|auto].
  - contradiction.
  Opaque twp.
Qed.

(** two threads that each write a cell race *)
Lemma both_store {R} (W Rd : region) b x t1 t2 ts (k : prog V R) m :
  twp W Rd t1 (fun _ m2 => dat m2 b x <> None) (hide b x m) ->
  (forall m', live m' = live m -> (forall b' x', ~ W b' x' -> dat m' b' x' = dat m b' x') ->
     twp W Rd t2 (fun _ m2 => dat m2 b x <> None) (hide b x m')) ->
  pexec (PPar (t1 :: t2 :: ts) k) m Undef.
Proof.
  intros H1 H2.
  assert (HH : forall m', live (hide b x m') = live m' /\ dat (hide b x m') b x = None /\
     forall b' x', b' <> b \/ x' <> x -> dat (hide b x m') b' x' = dat m' b' x').
  { intros m'. split; [reflexivity|]. split.
    - cbn. destruct (buf_eqb_spec b b); [|congruence]. now rewrite Z.eqb_refl.
    - intros b' x' Hd. cbn. destruct (buf_eqb_spec b b'); [|reflexivity]. destruct (Z.eqb_spec x x'); [|reflexivity].
      subst. tauto. }
  destruct (HH m) as (A1 & A2 & A3).
  destruct (stores_it W Rd b x _ (fun m2 H => H) t1 m _ H1 A1 A2 A3) as (t1' & m' & S1 & N1 & L1 & D1).
  destruct (HH m') as (B1 & B2 & B3).
  destruct (stores_it W Rd b x _ (fun m2 H => H) t2 m' _ (H2 m' L1 D1) B1 B2 B3) as (t2' & m'' & S2 & N2 & _).
  apply (PE_par_ub _ _ _ (t1' :: t2' :: ts, m'')).
  - eapply psteps_trans; [exact (tsteps_psteps [] (t2 :: ts) _ _ _ _ S1)|exact (tsteps_psteps [t1'] ts _ _ _ _ S2)].
  - right. exists [], t1', [], t2', ts. split; [reflexivity|]. exists true, true, b, x. auto.
Qed.

Lemma pfor_undef (I : mem V -> Prop) (f : Z -> unit -> prog V unit) lo hi step q m :
  0 < step -> 0 <= q -> lo + q * step < hi -> I m ->
  (forall i m', 0 <= i < q -> I m' -> pok (f (lo + i * step) tt) m' (fun _ m'' => I m'')) ->
  (forall m', I m' -> pexec (f (lo + q * step) tt) m' Undef) ->
  pexec (pfor lo hi step tt f) m Undef.
Proof.
  intros Hs Hq Hlt HI Hb Hu. unfold pfor. replace (0 <? step) with true by lia.
  assert (Hc : (Z.to_nat q < loop_count lo hi step)%nat).
  { unfold loop_count. apply Z2Nat.inj_lt; [lia|apply Z.div_pos; lia|].
    assert (q + 1 <= (hi - lo + step - 1) / step) by (apply Z.div_le_lower_bound; lia). lia. }
  revert Hc. generalize (loop_count lo hi step). intros n. clear Hlt.
  rewrite <- (Z2Nat.id q) in Hb, Hu by lia. revert n lo m HI Hb Hu. clear Hq.
  induction (Z.to_nat q) as [|q' IH]; intros n lo m HI Hb Hu Hc; (destruct n as [|n]; [lia|]); cbn [piter]; apply pexec_bind.
  - right. left. split; [auto|]. specialize (Hu m HI). now replace (lo + Z.of_nat 0 * step) with lo in Hu by (cbn; lia).
  - left. assert (H0 := Hb 0 m ltac:(lia) HI). replace (lo + 0 * step) with lo in H0 by lia.
    Transparent pok. destruct H0 as ((o & Ho) & H0). Opaque pok.
    destruct (H0 o Ho) as ([] & m' & -> & HI'). exists tt, m'. split; [auto|].
    apply IH; auto; [| |lia].
    + intros i m2 Hi H2. specialize (Hb (i + 1) m2 ltac:(lia) H2). now replace (lo + step + i * step) with (lo + (i + 1) * step) by ring.
    + intros m2 H2. specialize (Hu m2 H2).
      now replace (lo + step + Z.of_nat q' * step) with (lo + Z.of_nat (Datatypes.S q') * step) by lia.
Qed.

Lemma loop_count_two N nt : 0 < nt -> nt < N -> exists n, loop_count 0 N nt = Datatypes.S (Datatypes.S n).
Proof.
  intros H1 H2. unfold loop_count.
  assert (2 <= (N - 0 + nt - 1) / nt) by (apply Z.div_le_lower_bound; lia).
  exists (Z.to_nat ((N - 0 + nt - 1) / nt - 2)). lia.
Qed.

End Find.

Section Trans.

Variable S : scalar.
Notation T := (elt S).

(** ** Loops that fill parts of the result *)
Variables (db : buf) (K N : Z) (f : Z -> Z -> T).

(** [m'] is [m] with the cells of [box] set right *)
Definition painted (box : Z -> Z -> bool) (m m' : mem T) : Prop :=
  forall r c, 0 <= r < N -> 0 <= c < K ->
    dat m' db (r * K + c) = if box r c then Some (f c r) else dat m db (r * K + c).

Definition union (n : Z) (box : Z -> Z -> Z -> bool) (r c : Z) : bool := existsb (fun i => box i r c) (zrange 0 n).

Lemma union_true n box r c : union n box r c = true <-> exists i, 0 <= i < n /\ box i r c = true.
Proof.
  unfold union. rewrite existsb_exists. split; intros (i & Hi & H); exists i; rewrite in_zrange in *; split; auto; lia.
Qed.

Lemma union_snoc n box r c : 0 <= n -> union (n + 1) box r c = union n box r c || box n r c.
Proof.
  intros Hn. unfold union. rewrite zrange_snoc by auto. rewrite existsb_app. cbn. now rewrite orb_false_r.
Qed.

Lemma painted_ext box box' m m' :
  (forall r c, 0 <= r < N -> 0 <= c < K -> box r c = box' r c) -> painted box m m' -> painted box' m m'.
Proof. intros E H r c Hr Hc. rewrite <- E by auto. auto. Qed.

Lemma painted_trans b1 b2 m1 m2 m3 :
  painted b1 m1 m2 -> painted b2 m2 m3 -> painted (fun r c => b1 r c || b2 r c) m1 m3.
Proof.
  intros H1 H2 r c Hr Hc. rewrite (H2 r c Hr Hc). destruct (b2 r c); [now rewrite orb_true_r|].
  rewrite orb_false_r. auto.
Qed.

Lemma painted_none m : painted (fun _ _ => false) m m.
Proof. intros r c _ _. reflexivity. Qed.

(** [body i] fills [box i] *)
Lemma paint_loop (W Rd : region) (body : Z -> thr T unit) (box : Z -> Z -> Z -> bool) lo hi step n m :
  0 < step -> 0 <= n -> loop_count lo hi step = Z.to_nat n ->
  (forall i m1, 0 <= i < n -> live m1 = live m -> (forall b x, ~ W b x -> dat m1 b x = dat m b x) ->
     twp W Rd (body (lo + i * step)) (fun _ m2 => painted (box i) m1 m2) m1) ->
  twp W Rd (tfor_ lo hi step body) (fun _ m2 => painted (union n box) m m2) m.
Proof.
  intros Hs Hn Hc Hb. unfold tfor_.
  Transparent tfor.
  replace (tfor lo hi step tt (fun i _ => body i)) with (tfor lo (lo + n * step) step tt (fun i (_ : unit) => body i)).
  2:{ unfold tfor. replace (0 <? step) with true by lia. now rewrite loop_count_exact, Hc by lia. }
  Opaque tfor.
  eapply (twp_tfor W Rd (fun j (_ : unit) m2 => painted (union j box) m m2) _ lo _ step n); auto.
  - apply painted_none.
  - intros j _ m1 Hj HI HL HD. eapply twp_mono; [apply Hb; auto|].
    cbv beta. intros _ m2 H2. eapply painted_ext; [|exact (painted_trans _ _ _ _ _ HI H2)].
    intros r c _ _. cbv beta. rewrite union_snoc by lia. reflexivity.
Qed.

(** ** The parts *)

Variable (sb : buf) (m0 : mem T) (bs bd : binfo).
Hypothesis HLs : live m0 sb = Some bs.
Hypothesis HLd : live m0 db = Some bd.
Hypothesis Hne : sb <> db.
Hypothesis Hbs : K * N <= blen bs.
Hypothesis Hbd : N * K <= blen bd.
Hypothesis HS : holds m0 sb K N f.
Hypothesis HK : 0 <= K.
Hypothesis HN : 0 <= N.

Definition rd : region := fun b _ => b = sb.

Definition box (r0 r1 c0 c1 r c : Z) : bool := (r0 <=? r) && (r <? r1) && (c0 <=? c) && (c <? c1).

Lemma box_true r0 r1 c0 c1 r c : box r0 r1 c0 c1 r c = true <-> r0 <= r < r1 /\ c0 <= c < c1.
Proof. unfold box. rewrite !andb_true_iff, !Z.leb_le, !Z.ltb_lt. lia. Qed.

Definition base (m : mem T) : Prop := live m = live m0 /\ forall x, dat m sb x = dat m0 sb x.

Lemma src m r c : base m -> 0 <= r < N -> 0 <= c < K -> live m sb = Some bs /\ 0 <= c * N + r < blen bs /\ dat m sb (c * N + r) = Some (f c r).
Proof. intros (H1 & H2) Hr Hc. rewrite H1, H2. split; [auto|split; [nia|apply HS; auto]]. Qed.

Lemma cell_inj r c r' c' : 0 <= c < K -> 0 <= c' < K -> r * K + c = r' * K + c' -> r = r' /\ c = c'.
Proof. intros. assert (r = r') by nia. subst. lia. Qed.

Lemma mxn_spec (W : region) nn kk m n m1 :
  base m1 -> 0 <= nn -> 0 <= kk -> nn + m <= N -> kk + n <= K ->
  (forall b x, W b x -> b = db) ->
  (forall r c, nn <= r < nn + m -> kk <= c < kk + n -> W db (r * K + c)) ->
  twp W rd (transpose_mxn S (sb, 0 + (kk * N + nn)) (db, 0 + (nn * K + kk)) N K m n)
    (fun _ m2 => painted (box nn (nn + m) kk (kk + n)) m1 m2) m1.
Proof.
  intros HB Hn0 Hk0 Hm Hn HW1 HW2. unfold transpose_mxn.
  destruct (Z_le_gt_dec m 0) as [Hm0|Hm0].
  { unfold tfor_. rewrite tfor_empty by lia. apply twp_ret. intros r c Hr Hc.
    replace (box nn (nn + m) kk (kk + n) r c) with false; [auto|].
    symmetry. apply not_true_is_false. rewrite box_true. lia. }
  destruct (Z_le_gt_dec n 0) as [Hn1|Hn1].
  { eapply twp_mono.
    - apply (paint_loop W rd _ (fun _ _ _ => false) 0 m 1 m); try lia.
      + unfold loop_count. f_equal. rewrite Z.div_1_r. lia.
      + intros i m2 _ _ _. unfold tfor_. rewrite tfor_empty by lia. apply twp_ret. apply painted_none.
    - cbv beta. intros _ m2 H2. eapply painted_ext; [|exact H2]. intros r c Hr Hc.
      transitivity false; [|symmetry]; apply not_true_is_false; [rewrite union_true|rewrite box_true; lia].
      intros (? & _ & ?). discriminate. }
  eapply twp_mono.
  - apply (paint_loop W rd _ (fun i r c => box (nn + i) (nn + i + 1) kk (kk + n) r c) 0 m 1 m); try lia.
    + unfold loop_count. f_equal. rewrite Z.div_1_r. lia.
    + intros i m2 Hi HL2 HD2. replace (0 + i * 1) with i by lia.
      assert (HB2 : base m2).
      { destruct HB as (B1 & B2). split; [congruence|]. intros x. rewrite HD2; auto. intros Hx. apply HW1 in Hx. congruence. }
      eapply twp_mono.
      * apply (paint_loop W rd _ (fun j r c => box (nn + i) (nn + i + 1) (kk + j) (kk + j + 1) r c) 0 n 1 n); try lia.
        -- unfold loop_count. f_equal. rewrite Z.div_1_r. lia.
        -- intros j m3 Hj HL3 HD3. replace (0 + j * 1) with j by lia.
           assert (HB3 : base m3).
           { destruct HB2 as (B1 & B2). split; [congruence|]. intros x. rewrite HD3; auto. intros Hx. apply HW1 in Hx. congruence. }
           destruct (src m3 (nn + i) (kk + j) HB3 ltac:(lia) ltac:(lia)) as (S1 & S2 & S3).
           apply twp_bind. unfold pload, pstore. cbn [fst snd].
           replace (0 + (kk * N + nn) + (j * N + i)) with ((kk + j) * N + (nn + i)) by ring.
           replace (0 + (nn * K + kk) + (i * K + j)) with ((nn + i) * K + (kk + j)) by ring.
           eapply twp_load; eauto; [left; reflexivity|].
           eapply (twp_store _ _ _ _ _ _ _ bd).
           ++ apply HW2; lia.
           ++ destruct HB3 as (B1 & _). now rewrite B1.
           ++ nia.
           ++ intros r c Hr Hc. destruct (box (nn + i) (nn + i + 1) (kk + j) (kk + j + 1) r c) eqn:E.
              ** apply box_true in E. replace r with (nn + i) by lia. replace c with (kk + j) by lia. apply dat_upd_same.
              ** apply dat_upd_other. right. intros E'. apply cell_inj in E'; try lia.
                 destruct E' as (E1 & E2).
                 assert (box (nn + i) (nn + i + 1) (kk + j) (kk + j + 1) r c = true) by (apply box_true; lia). congruence.
      * cbv beta. intros _ m3 H3. eapply painted_ext; [|exact H3]. intros r c Hr Hc.
        apply Bool.eq_true_iff_eq. rewrite union_true, box_true. split.
        -- intros (j & Hj & E). apply box_true in E. lia.
        -- intros E. exists (c - kk). rewrite box_true. lia.
  - cbv beta. intros _ m3 H3. eapply painted_ext; [|exact H3]. intros r c Hr Hc.
    apply Bool.eq_true_iff_eq. rewrite union_true, box_true. split.
    + intros (j & Hj & E). apply box_true in E. lia.
    + intros E. exists (r - nn). rewrite box_true. lia.
Qed.

Lemma t8x8_spec (W : region) nn kk m1 :
  base m1 -> 0 <= nn -> 0 <= kk -> nn + 8 <= N -> kk + 8 <= K ->
  (forall b x, W b x -> b = db) ->
  (forall r c, nn <= r < nn + 8 -> kk <= c < kk + 8 -> W db (r * K + c)) ->
  twp W rd (transpose_8x8 S (sb, 0 + (kk * N + nn)) (db, 0 + (nn * K + kk)) N K)
    (fun _ m2 => painted (box nn (nn + 8) kk (kk + 8)) m1 m2) m1.
Proof.
  intros HB Hn0 Hk0 Hm Hn HW1 HW2. unfold transpose_8x8. apply twp_bind.
  eapply (twp_tfor1 W rd (fun j r m2 => m2 = m1 /\ forall j' e, 0 <= j' < j -> 0 <= e < 8 -> r j' e = f (kk + j') (nn + e))); try lia.
  - split; auto. intros; lia.
  - intros j r m2 Hj (-> & Hr) _ _. apply twp_bind.
    eapply twp_mono.
    + apply (load_vec_spec S W rd 1 (padd (sb, 0 + (kk * N + nn)) (j * N)) 8 (fun e => f (kk + j) (nn + e)) bs m1); cbn [padd fst snd]; auto; try nia.
      * destruct HB as (-> & _). auto.
      * intros e He. destruct (src m1 (nn + e) (kk + j) HB ltac:(lia) ltac:(lia)) as (S1 & S2 & S3).
        split; [left; reflexivity|]. rewrite <- S3. f_equal. ring.
    + cbv beta. intros v m2 (-> & Hv). apply twp_ret. split; [auto|]. intros j' e Hj' He.
      destruct (Z.eqb_spec j' j) as [->|]; [auto|]. apply Hr; lia.
  - cbv beta. intros r m2 (-> & Hr) _ _.
    eapply twp_mono.
    + apply (paint_loop W rd _ (fun i r c => box (nn + i) (nn + i + 1) kk (kk + 8) r c) 0 8 1 8); try lia.
      * reflexivity.
      * intros i m2 Hi HL2 HD2. replace (0 + i * 1) with i by lia.
        eapply twp_call.
        -- apply (store_vec_spec S (padd (db, 0 + (nn * K + kk)) (i * K)) 8 (network8 S r i) bd m2); cbn [padd fst snd]; try nia.
           destruct HB as (B1 & _). now rewrite HL2, B1.
        -- intros b x (-> & Hx). cbn [padd fst snd] in *.
           replace x with ((nn + i) * K + (x - (nn + i) * K)) by ring. apply HW2; lia.
        -- intros ? ? [].
        -- cbn [padd fst snd]. intros _ m3 H3 _ HF3. intros r' c Hr' Hc.
           destruct (box (nn + i) (nn + i + 1) kk (kk + 8) r' c) eqn:E.
           ++ apply box_true in E. replace r' with (nn + i) by lia.
              replace ((nn + i) * K + c) with (0 + (nn * K + kk) + i * K + (c - kk)) by ring.
              rewrite H3 by lia. rewrite network8_spec by lia. rewrite Hr by lia. f_equal. f_equal; ring.
           ++ apply HF3. intros (_ & Hx).
              assert (box (nn + i) (nn + i + 1) kk (kk + 8) r' c = true); [|congruence].
              apply box_true. assert (r' = nn + i) by nia. subst r'. nia.
    + cbv beta. intros _ m3 H3. eapply painted_ext; [|exact H3]. intros r' c Hr' Hc.
      apply Bool.eq_true_iff_eq. rewrite union_true, box_true. split.
      * intros (j & Hj & E). apply box_true in E. lia.
      * intros E. exists (r' - nn). rewrite box_true. lia.
Qed.

Lemma simple_spec (W : region) m1 :
  base m1 -> (forall b x, W b x -> b = db) ->
  (forall r c, 0 <= r < N -> 0 <= c < K -> W db (r * K + c)) ->
  twp W rd (tfor_ 0 N 1 (fun k => tfor_ 0 K 1 (fun m =>
      tbind (pload S (sb, 0) (m * N + k)) (fun v => pstore S (db, 0) (m + k * K) v))))
    (fun _ m2 => painted (box 0 N 0 K) m1 m2) m1.
Proof.
  intros HB HW1 HW2.
  eapply twp_mono.
  - apply (paint_loop W rd _ (fun i r c => box i (i + 1) 0 K r c) 0 N 1 N); try lia.
    + unfold loop_count. f_equal. rewrite Z.div_1_r. lia.
    + intros i m2 Hi HL2 HD2. replace (0 + i * 1) with i by lia.
      assert (HB2 : base m2).
      { destruct HB as (B1 & B2). split; [congruence|]. intros x. rewrite HD2; auto. intros Hx. apply HW1 in Hx. congruence. }
      eapply twp_mono.
      * apply (paint_loop W rd _ (fun j r c => box i (i + 1) j (j + 1) r c) 0 K 1 K); try lia.
        -- unfold loop_count. f_equal. rewrite Z.div_1_r. lia.
        -- intros j m3 Hj HL3 HD3. replace (0 + j * 1) with j by lia.
           assert (HB3 : base m3).
           { destruct HB2 as (B1 & B2). split; [congruence|]. intros x. rewrite HD3; auto. intros Hx. apply HW1 in Hx. congruence. }
           destruct (src m3 i j HB3 ltac:(lia) ltac:(lia)) as (S1 & S2 & S3).
           apply twp_bind. unfold pload, pstore. cbn [fst snd].
           replace (0 + (j * N + i)) with (j * N + i) by ring.
           replace (0 + (j + i * K)) with (i * K + j) by ring.
           eapply twp_load; eauto; [left; reflexivity|].
           eapply (twp_store _ _ _ _ _ _ _ bd).
           ++ apply HW2; lia.
           ++ destruct HB3 as (B1 & _). now rewrite B1.
           ++ nia.
           ++ intros r c Hr Hc. destruct (box i (i + 1) j (j + 1) r c) eqn:E.
              ** apply box_true in E. replace r with i by lia. replace c with j by lia. apply dat_upd_same.
              ** apply dat_upd_other. right. intros E'. apply cell_inj in E'; try lia.
                 destruct E' as (E1 & E2).
                 assert (box i (i + 1) j (j + 1) r c = true) by (apply box_true; lia). congruence.
      * cbv beta. intros _ m3 H3. eapply painted_ext; [|exact H3]. intros r c Hr Hc.
        apply Bool.eq_true_iff_eq. rewrite union_true, box_true. split.
        -- intros (j & Hj & E). apply box_true in E. lia.
        -- intros E. exists c. rewrite box_true. lia.
  - cbv beta. intros _ m3 H3. eapply painted_ext; [|exact H3]. intros r c Hr Hc.
    apply Bool.eq_true_iff_eq. rewrite union_true, box_true. split.
    + intros (j & Hj & E). apply box_true in E. lia.
    + intros E. exists r. rewrite box_true. lia.
Qed.

(** ** One iteration of the parallel loop *)

Definition edge (nn kk : Z) : bool := (N <? nn + 8) || (K <? kk + 8).

Definition tbox (nn kk : Z) : Z -> Z -> bool :=
  if edge nn kk then box nn N kk K else box nn (nn + 8) kk (kk + 8).

Lemma tile_spec (W : region) nn kk m1 :
  base m1 -> 0 <= nn -> 0 <= kk ->
  (forall b x, W b x -> b = db) ->
  (forall r c, tbox nn kk r c = true -> W db (r * K + c)) ->
  twp W rd (if (N <? nn + 8) || (K <? kk + 8)
            then transpose_mxn S (padd (sb, 0) (kk * N + nn)) (padd (db, 0) (nn * K + kk)) N K (N - nn) (K - kk)
            else transpose_8x8 S (padd (sb, 0) (kk * N + nn)) (padd (db, 0) (nn * K + kk)) N K)
    (fun _ m2 => painted (tbox nn kk) m1 m2) m1.
Proof.
  intros HB Hn0 Hk0 HW1 HW2. unfold tbox in *. fold (edge nn kk). unfold padd. cbn [fst snd].
  destruct (edge nn kk) eqn:E.
  - eapply twp_mono.
    + apply (mxn_spec W nn kk (N - nn) (K - kk)); auto; try lia.
      intros r c Hr Hc. apply HW2. apply box_true. lia.
    + cbv beta. intros _ m2 H. replace (nn + (N - nn)) with N in H by ring. now replace (kk + (K - kk)) with K in H by ring.
  - unfold edge in E. apply orb_false_iff in E. destruct E as (E1 & E2). apply Z.ltb_ge in E1, E2.
    apply t8x8_spec; auto. intros r c Hr Hc. apply HW2. now apply box_true.
Qed.

Definition cbox (kt nt k n : Z) (r c : Z) : bool :=
  union (nt / 8) (fun i r c => union (kt / 8) (fun j => tbox (n + i * 8) (k + j * 8)) r c) r c.

Lemma cols_spec (W : region) kt nt k n m1 :
  0 < kt -> (8 | kt) -> 0 < nt -> (8 | nt) -> 0 <= k -> 0 <= n -> base m1 ->
  (forall b x, W b x -> b = db) ->
  (forall r c, cbox kt nt k n r c = true -> W db (r * K + c)) ->
  twp W rd (transpose_cols S (sb, 0) (db, 0) K N kt nt k n) (fun _ m2 => painted (cbox kt nt k n) m1 m2) m1.
Proof.
  intros Hkt [a ->] Hnt [b ->] Hk Hn HB HW1 HW2. unfold cbox in *. rewrite !Z.div_mul in * by lia.
  unfold transpose_cols.
  apply (paint_loop W rd _ _ n (n + b * 8) 8 b); try lia.
  { apply loop_count_exact; lia. }
  intros i m2 Hi HL2 HD2.
  assert (HB2 : base m2).
  { destruct HB as (B1 & B2). split; [congruence|]. intros x. rewrite HD2; auto. intros Hx. apply HW1 in Hx. congruence. }
  apply (paint_loop W rd _ (fun j => tbox (n + i * 8) (k + j * 8)) k (k + a * 8) 8 a); try lia.
  { apply loop_count_exact; lia. }
  intros j m3 Hj HL3 HD3.
  assert (HB3 : base m3).
  { destruct HB2 as (B1 & B2). split; [congruence|]. intros x. rewrite HD3; auto. intros Hx. apply HW1 in Hx. congruence. }
  apply tile_spec; auto; try lia.
  intros r c E. apply HW2. apply union_true. exists i. split; [auto|]. apply union_true. eauto.
Qed.

(** ** The whole matrix *)

Lemma tile8_pos t : -8 < t -> 0 < tile8 t /\ (8 | tile8 t).
Proof.
  intros Ht. unfold tile8. destruct (Z.eqb_spec (Z.quot t 8 * 8) 0) as [E|E].
  - split; [lia|exists 1; lia].
  - split; [|now exists (Z.quot t 8)].
    assert (~ t < 0); [|pose proof (Z.quot_pos t 8); lia].
    intros H. pose proof (Z.quot_small_iff t 8 ltac:(lia)) as Hq. apply E. rewrite (proj2 Hq) by lia. lia.
Qed.

Lemma ceil_bounds a b : 0 < b -> 0 <= a -> 0 <= ceil_div a b /\ a <= ceil_div a b * b < a + b.
Proof.
  intros Hb Ha. unfold ceil_div. pose proof (Z.div_mod (a + b - 1) b ltac:(lia)). pose proof (Z.mod_pos_bound (a + b - 1) b Hb).
  split; [apply Z.div_pos; lia|nia].
Qed.

Lemma loop_count_ceil a b : 0 < b -> 0 <= a -> loop_count 0 a b = loop_count 0 (0 + ceil_div a b * b) b.
Proof.
  intros Hb Ha. rewrite loop_count_exact by (auto; apply ceil_bounds; auto).
  unfold loop_count, ceil_div. f_equal. f_equal. lia.
Qed.

Section Whole.

Variables kt nt : Z.
Hypothesis Hkt : 0 < kt.
Hypothesis Hnt : 0 < nt.
Hypothesis Hkt8 : (8 | kt).
Hypothesis Hnt8 : (8 | nt).
(** the condition under which no two threads write the same element of the block of columns at [k] *)
Definition one (k : Z) : Prop := k + kt <= K \/ (8 | K) \/ N <= nt.

Lemma tbox_rows k n i j r c :
  one k -> (kt | k) -> 0 <= n < N -> (nt | n) -> 0 <= i < nt / 8 -> 0 <= j < kt / 8 -> 0 <= c < K ->
  tbox (n + i * 8) (k + j * 8) r c = true -> n <= r < n + nt /\ r < N.
Proof.
  intros Hone Dk Hn Dn Hi Hj Hc E.
  destruct Hnt8 as (b & Eb). destruct Hkt8 as (a & Ea).
  assert (Hi' : 0 <= i < b) by (rewrite Eb, Z.div_mul in Hi; lia).
  assert (D8 : (8 | k + j * 8)).
  { apply Z.divide_add_r; [apply (Z.divide_trans _ kt); [exact Hkt8|exact Dk]|exists j; ring]. }
  unfold tbox in E. destruct (edge (n + i * 8) (k + j * 8)) eqn:Ee.
  - apply box_true in E. unfold edge in Ee. apply orb_true_iff in Ee. rewrite !Z.ltb_lt in Ee.
    destruct Ee as [Ee|Ee]; [lia|].
    destruct Hone as [Hk|[H8|H1]].
    + exfalso. assert (j < a) by (rewrite Ea, Z.div_mul in Hj; lia). lia.
    + exfalso. destruct H8 as (x & Ex). destruct D8 as (y & Ey). rewrite Ex, Ey in *. lia.
    + assert (n = 0). { destruct Dn as (y & Ey). rewrite Ey in *. assert (y = 0) by nia. subst y. lia. } lia.
  - apply box_true in E. unfold edge in Ee. apply orb_false_iff in Ee. rewrite !Z.ltb_ge in Ee. lia.
Qed.

Lemma cbox_rows k n r c :
  one k -> (kt | k) -> 0 <= n < N -> (nt | n) -> 0 <= c < K -> cbox kt nt k n r c = true -> n <= r < n + nt /\ r < N.
Proof.
  intros Hone Dk Hn Dn Hc E. unfold cbox in E. apply union_true in E. destruct E as (i & Hi & E).
  apply union_true in E. destruct E as (j & Hj & E). eapply tbox_rows; eauto.
Qed.

Lemma tbox_in nn kk r c : tbox nn kk r c = true -> nn <= r < N /\ kk <= c < K.
Proof.
  unfold tbox. destruct (edge nn kk) eqn:Ee; intros E; apply box_true in E; [lia|].
  unfold edge in Ee. apply orb_false_iff in Ee. rewrite !Z.ltb_ge in Ee. lia.
Qed.

Lemma cbox_in k n r c : 0 <= k -> 0 <= n -> cbox kt nt k n r c = true -> n <= r < N /\ k <= c < K.
Proof.
  intros Hk Hn E. unfold cbox in E. apply union_true in E. destruct E as (i & Hi & E).
  apply union_true in E. destruct E as (j & Hj & E). apply tbox_in in E. lia.
Qed.

(** every element of the tile at (n,k) is covered *)
Lemma cbox_cover k n r c :
  n <= r < n + nt -> r < N -> k <= c < k + kt -> c < K -> cbox kt nt k n r c = true.
Proof.
  intros Hr HrN Hc HcK. destruct Hnt8 as (b & Eb). destruct Hkt8 as (a & Ea).
  unfold cbox. apply union_true. exists ((r - n) / 8). rewrite Eb, Z.div_mul by lia.
  pose proof (Z.div_mod (r - n) 8 ltac:(lia)). pose proof (Z.mod_pos_bound (r - n) 8 ltac:(lia)).
  pose proof (Z.div_mod (c - k) 8 ltac:(lia)). pose proof (Z.mod_pos_bound (c - k) 8 ltac:(lia)).
  split; [lia|]. apply union_true. exists ((c - k) / 8). rewrite Ea, Z.div_mul by lia.
  split; [lia|]. unfold tbox. destruct (edge _ _); apply box_true; lia.
Qed.

Definition Wc (c : Z) : region := fun b x => b = db /\ 0 <= x < N * K /\ c * nt * K <= x < (c + 1) * nt * K.

Definition okm (m : mem T) : Prop :=
  live m = live m0 /\ forall b x, ~ (b = db /\ 0 <= x < N * K) -> dat m b x = dat m0 b x.

Lemma okm_base m : okm m -> base m.
Proof. intros (H1 & H2). split; [auto|]. intros x. apply H2. intros (E & _). congruence. Qed.

Definition pbox k r c := cbox kt nt k ((r / nt) * nt) r c.

Lemma region_spec k m1 :
  one k -> 0 <= k -> (kt | k) -> okm m1 ->
  pok (ppar_for 0 N nt (transpose_cols S (sb, 0) (db, 0) K N kt nt k)) m1
    (fun _ m2 => okm m2 /\ painted (pbox k) m1 m2).
Proof.
  intros Hone Hk Dk HM. pose proof (ceil_bounds N nt Hnt HN) as Hq. set (q := ceil_div N nt) in *.
  replace (ppar_for 0 N nt (transpose_cols S (sb, 0) (db, 0) K N kt nt k))
    with (ppar_for 0 (0 + q * nt) nt (transpose_cols S (sb, 0) (db, 0) K N kt nt k)).
  2:{ unfold ppar_for, q. rewrite <- (loop_count_ceil N nt Hnt HN). now replace (0 <? nt) with true by lia. }
  eapply (pok_par_for 0 (0 + q * nt) nt q _ m1 Wc (fun _ => rd) (fun i m2 => painted (cbox kt nt k (i * nt)) m1 m2)); auto; try lia.
  - intros i Hi. rewrite Z.add_0_l.
    assert (Hin : 0 <= i * nt < N) by (assert (i * nt <= (q - 1) * nt) by (apply Z.mul_le_mono_nonneg_r; lia); nia).
    apply cols_spec; auto; try nia.
    + now apply okm_base.
    + intros b x (E & _). auto.
    + intros r c E.
      pose proof (cbox_in k (i * nt) r c Hk ltac:(lia) E) as (H1 & H2).
      pose proof (cbox_rows k (i * nt) r c Hone Dk Hin ltac:(now exists i) ltac:(lia) E) as (H3 & H4).
      split; [auto|]. split; nia.
  - intros i j b x Hi Hj Hij (-> & Hx & H1) [(_ & _ & H2)|H2].
    + assert (Hnk : 0 <= nt * K) by nia. nia.
    + unfold rd in H2. congruence.
  - intros m2 HL2 HV HF. destruct HM as (HM1 & HM2). split.
    + split; [congruence|]. intros b x Hx. rewrite <- HM2 by auto. apply HF.
      intros i Hi (-> & H1 & _). auto.
    + intros r c Hr Hc. unfold pbox.
      pose proof (Z.div_mod r nt ltac:(lia)). pose proof (Z.mod_pos_bound r nt ltac:(lia)).
      assert (Hi : 0 <= r / nt < q) by (split; [apply Z.div_pos; lia|nia]).
      destruct (HV _ Hi) as (ms & HP & _ & _ & HW).
      rewrite HW; [apply HP; auto|]. split; [auto|]. split; nia.
Qed.

Lemma whole_spec m1 :
  (8 | K) \/ N <= nt -> okm m1 ->
  pok (pfor_ 0 K kt (fun k => ppar_for 0 N nt (transpose_cols S (sb, 0) (db, 0) K N kt nt k))) m1
    (fun _ m2 => okm m2 /\ holds m2 db N K (fun r c => f c r)).
Proof.
  intros Hone HM. pose proof (ceil_bounds K kt Hkt HK) as Hq. set (q := ceil_div K kt) in *.
  unfold pfor_.
  set (g := fun (k : Z) (_ : unit) => ppar_for 0 N nt (transpose_cols S (sb, 0) (db, 0) K N kt nt k)).
  replace (pfor 0 K kt tt g) with (pfor 0 (0 + q * kt) kt tt g).
  2:{ unfold pfor, q. rewrite <- (loop_count_ceil K kt Hkt HK). now replace (0 <? kt) with true by lia. }
  eapply (pok_pfor (fun j (_ : unit) m2 => okm m2 /\ painted (union j (fun i => pbox (i * kt))) m1 m2) g 0 _ kt q); auto; try lia.
  - split; [auto|]. apply painted_none.
  - intros i s1 m2 Hi (HI1 & HI2). rewrite Z.add_0_l.
    eapply pok_mono; [apply (region_spec (i * kt) m2); auto; [now right|nia|now exists i]|].
    cbv beta. intros _ m3 (H1 & H2). split; [auto|].
    eapply painted_ext; [|exact (painted_trans _ _ _ _ _ HI2 H2)].
    intros r c _ _. cbv beta. rewrite union_snoc by lia. reflexivity.
  - cbv beta. intros _ m2 (H1 & H2). split; [auto|].
    intros r c Hr Hc. rewrite H2 by auto.
    replace (union q (fun i => pbox (i * kt)) r c) with true; [auto|].
    symmetry. apply union_true.
    pose proof (Z.div_mod c kt ltac:(lia)). pose proof (Z.mod_pos_bound c kt ltac:(lia)).
    pose proof (Z.div_mod r nt ltac:(lia)). pose proof (Z.mod_pos_bound r nt ltac:(lia)).
    exists (c / kt). split; [split; [apply Z.div_pos; lia|nia]|].
    unfold pbox. apply cbox_cover; lia.
Qed.

(** with one thread, overlapping writes are harmless: no condition on K and N *)
Lemma seq_region_spec k m1 :
  0 <= k -> okm m1 ->
  pok (pseq (tfor_ 0 N nt (transpose_cols S (sb, 0) (db, 0) K N kt nt k))) m1
    (fun _ m2 => okm m2 /\ painted (union (ceil_div N nt) (fun i => cbox kt nt k (i * nt))) m1 m2).
Proof.
  intros Hk HM. pose proof (ceil_bounds N nt Hnt HN) as Hq. set (q := ceil_div N nt) in *.
  apply (pok_seq (fun b x => b = db /\ 0 <= x < N * K) rd _ m1
    (fun m2 => painted (union q (fun i => cbox kt nt k (i * nt))) m1 m2)).
  - apply (paint_loop (fun b x => b = db /\ 0 <= x < N * K) rd _ (fun i => cbox kt nt k (i * nt)) 0 N nt q); try lia.
    + rewrite (loop_count_ceil N nt Hnt HN). apply loop_count_exact; auto. apply Hq.
    + intros i m2 Hi HL2 HD2. rewrite Z.add_0_l.
      apply cols_spec; auto; try nia.
      * apply okm_base. destruct HM as (HM1 & HM2). split; [congruence|]. intros b x Hx. rewrite HD2; auto.
      * intros b x (E & _). auto.
      * intros r c E. pose proof (cbox_in k (i * nt) r c Hk ltac:(nia) E) as (H1 & H2).
        assert (0 <= i * nt) by nia. split; [auto|nia].
  - cbv beta. intros ms m2 HP _ HL2 HE HF2. split.
    + destruct HM as (HM1 & HM2). split; [congruence|]. intros b x Hx. rewrite HF2; auto.
    + intros r c Hr Hc. rewrite HE. auto.
  - intros b x. destruct (buf_eqb_spec b db) as [Eb|Nb]; [|right; tauto].
    destruct (Z_le_dec 0 x); [|right; tauto]. destruct (Z_lt_dec x (N * K)); [left; auto|right; tauto].
Qed.

Lemma seq_whole_spec m1 :
  okm m1 ->
  pok (pfor_ 0 K kt (fun k => pseq (tfor_ 0 N nt (transpose_cols S (sb, 0) (db, 0) K N kt nt k)))) m1
    (fun _ m2 => okm m2 /\ holds m2 db N K (fun r c => f c r)).
Proof.
  intros HM. pose proof (ceil_bounds K kt Hkt HK) as Hq. set (q := ceil_div K kt) in *.
  pose proof (ceil_bounds N nt Hnt HN) as Hq'.
  unfold pfor_.
  set (g := fun (k : Z) (_ : unit) => pseq (tfor_ 0 N nt (transpose_cols S (sb, 0) (db, 0) K N kt nt k))).
  replace (pfor 0 K kt tt g) with (pfor 0 (0 + q * kt) kt tt g).
  2:{ unfold pfor, q. rewrite <- (loop_count_ceil K kt Hkt HK). now replace (0 <? kt) with true by lia. }
  eapply (pok_pfor (fun j (_ : unit) m2 => okm m2 /\
     painted (union j (fun i => union (ceil_div N nt) (fun i' => cbox kt nt (i * kt) (i' * nt)))) m1 m2) g 0 _ kt q); auto; try lia.
  - split; [auto|]. apply painted_none.
  - intros i s1 m2 Hi (HI1 & HI2). rewrite Z.add_0_l.
    eapply pok_mono; [apply (seq_region_spec (i * kt) m2); auto; nia|].
    cbv beta. intros _ m3 (H1 & H2). split; [auto|].
    eapply painted_ext; [|exact (painted_trans _ _ _ _ _ HI2 H2)].
    intros r c _ _. cbv beta. rewrite union_snoc by lia. reflexivity.
  - cbv beta. intros _ m2 (H1 & H2). split; [auto|].
    intros r c Hr Hc. rewrite H2 by auto.
    match goal with |- (if ?b then _ else _) = _ => replace b with true; [auto|] end.
    symmetry. apply union_true.
    pose proof (Z.div_mod c kt ltac:(lia)). pose proof (Z.mod_pos_bound c kt ltac:(lia)).
    pose proof (Z.div_mod r nt ltac:(lia)). pose proof (Z.mod_pos_bound r nt ltac:(lia)).
    exists (c / kt). split; [split; [apply Z.div_pos; lia|nia]|].
    apply union_true. exists (r / nt). split; [split; [apply Z.div_pos; lia|nia]|].
    apply cbox_cover; lia.
Qed.

(** otherwise the first two threads of the last block of columns write the same element *)
Lemma race_spec m1 :
  ~ (8 | K) -> nt < N -> okm m1 ->
  pexec (pfor_ 0 K kt (fun k => ppar_for 0 N nt (transpose_cols S (sb, 0) (db, 0) K N kt nt k))) m1 Undef.
Proof.
  intros H8 HNt HM.
  set (e := 8 * (K / 8)). set (q := e / kt). set (k := q * kt).
  pose proof (Z.div_mod K 8 ltac:(lia)) as DK. pose proof (Z.mod_pos_bound K 8 ltac:(lia)) as MK.
  assert (He : 0 <= e < K).
  { split; [unfold e; assert (0 <= K / 8) by (apply Z.div_pos; lia); lia|].
    assert (K mod 8 <> 0); [|unfold e; lia]. intros E. apply H8. apply Z.mod_divide; [lia|auto]. }
  pose proof (Z.div_mod e kt ltac:(lia)) as De. pose proof (Z.mod_pos_bound e kt ltac:(lia)) as Me.
  assert (Hq0 : 0 <= q) by (apply Z.div_pos; lia). fold q in De.
  assert (Hk : k <= e < k + kt) by (unfold k; lia).
  unfold pfor_.
  apply (pfor_undef (fun m2 => okm m2) _ 0 K kt q); auto; try (unfold k in *; lia).
  - intros i m2 Hi HM2. rewrite Z.add_0_l. eapply pok_mono.
    + apply (region_spec (i * kt) m2); auto; [left; unfold k in *; nia|nia|now exists i].
    + cbv beta. tauto.
  - intros m2 HM2. rewrite Z.add_0_l. fold k.
    unfold ppar_for. replace (0 <? nt) with true by lia.
    destruct (loop_count_two N nt Hnt HNt) as (n & ->). cbn [zseq map]. rewrite Z.add_0_l.
    assert (HW : forall m3, base m3 -> forall n0, 0 <= n0 ->
       cbox kt nt k n0 nt e = true ->
       twp (fun b _ => b = db) rd (transpose_cols S (sb, 0) (db, 0) K N kt nt k n0)
         (fun _ m4 => dat m4 db (nt * K + e) <> None) m3).
    { intros m3 HB3 n0 Hn0 E. eapply twp_mono; [apply (cols_spec (fun b _ => b = db) kt nt k n0 m3); auto; lia|].
      cbv beta. intros _ m4 HP. rewrite HP by lia. rewrite E. discriminate. }
    eapply (both_store (fun b _ => b = db) rd db (nt * K + e)).
    + apply HW; [split|lia|].
      * destruct HM2 as (HL & _). exact HL.
      * intros x. cbn. destruct (buf_eqb_spec db sb); [congruence|]. cbn. destruct HM2 as (_ & HD). apply HD.
        intros (E & _). congruence.
      * unfold cbox. destruct Hnt8 as (b & Eb). destruct Hkt8 as (a & Ea).
        apply union_true. exists 0. rewrite Eb, Z.div_mul by lia. split; [lia|].
        apply union_true. exists ((e - k) / 8). rewrite Ea, Z.div_mul by lia.
        assert (Ek : k + (e - k) / 8 * 8 = e).
        { assert ((8 | e - k)). { apply Z.divide_sub_r; [exists (K / 8); unfold e; ring|].
            unfold k. rewrite Ea. exists (q * a). ring. }
          destruct H as (y & Ey). rewrite Ey, Z.div_mul by lia. lia. }
        split.
        -- split; [apply Z.div_pos; lia|]. apply Z.div_lt_upper_bound; lia.
        -- rewrite Ek. unfold tbox. replace (edge (0 + 0 * 8) e) with true.
           ++ apply box_true. lia.
           ++ symmetry. unfold edge. apply orb_true_iff. right. apply Z.ltb_lt. unfold e. lia.
    + intros m3 HL3 HD3. apply HW; [split|lia|].
      * cbn. destruct HM2 as (HL & _). congruence.
      * intros x. cbn. destruct (buf_eqb_spec db sb); [congruence|]. cbn. rewrite HD3 by congruence.
        destruct HM2 as (_ & HD). apply HD. intros (E & _). congruence.
      * apply cbox_cover; lia.
Qed.

End Whole.

End Trans.

(** ** The public functions *)

Section Pub.

Variable S : scalar.
Variables (K N Kt Nt : Z) (f : Z -> Z -> elt S) (m : mem (elt S)).
Hypothesis HK : 0 <= K.
Hypothesis HN : 0 <= N.
Hypothesis HA : at_least m BufA (K * N).
Hypothesis HH : holds m BufA K N f.
Hypothesis HB : at_least m BufB (N * K).

Lemma tile8_eq (t : Z) : -8 < t -> tile8 t = 8 \/ tile8 t = 8 * (t / 8).
Proof.
  intros Ht. unfold tile8. destruct (Z.eqb_spec (Z.quot t 8 * 8) 0) as [E|E]; [auto|].
  destruct (Z_lt_ge_dec t 0) as [Hn|Hn].
  - exfalso. apply E. pose proof (Z.quot_small_iff t 8 ltac:(lia)) as Hq. rewrite (proj2 Hq) by lia. lia.
  - rewrite Z.quot_div_nonneg by lia. lia.
Qed.

Lemma tile8_ge (t : Z) : -8 < t -> 8 <= tile8 t /\ 8 * (t / 8) <= tile8 t.
Proof.
  intros Ht. destruct (tile8_pos t Ht) as (H1 & (a & H2)). split; [lia|].
  unfold tile8. destruct (Z_lt_ge_dec t 0) as [Hn|Hn].
  - assert (t / 8 < 0) by (apply Z.div_lt_upper_bound; lia). fold (tile8 t). lia.
  - rewrite Z.quot_div_nonneg by lia. destruct (Z.eqb_spec (t / 8 * 8) 0); lia.
Qed.

Lemma transpose_mat_ok :
  -8 < Kt -> -8 < Nt -> (8 | K) \/ N <= 8 \/ N <= 8 * (Nt / 8) ->
  always (transpose_mat S (BufA, 0) (BufB, 0) K N Kt Nt) m (fun _ m' =>
    holds m' BufB N K (fun r c => f c r) /\
    (forall b, live m' b = live m b) /\
    (forall b i, ~ (b = BufB /\ 0 <= i < N * K) -> dat m' b i = dat m b i)).
Proof.
  intros H1 H2 H3. destruct HA as (bs & A1 & A2). destruct HB as (bd & B1 & B2).
  destruct (tile8_pos Kt H1) as (T1 & T2). destruct (tile8_pos Nt H2) as (T3 & T4).
  pose proof (tile8_ge Nt H2).
  apply pok_always. unfold transpose_mat.
  eapply pok_mono.
  - apply (whole_spec S BufB K N f BufA m bs bd A1 B1 ltac:(discriminate) A2 B2 HH HK HN (tile8 Kt) (tile8 Nt)); auto.
    + destruct H3 as [H3|H3]; [now left|right; lia].
    + split; auto.
  - cbv beta. intros _ m' ((HL & HD) & HP). split; [auto|]. split; [congruence|auto].
Qed.

Lemma transpose_mat_1thread_ok :
  -8 < Kt -> -8 < Nt ->
  always (transpose_mat_1thread S (BufA, 0) (BufB, 0) K N Kt Nt) m (fun _ m' =>
    holds m' BufB N K (fun r c => f c r) /\
    (forall b, live m' b = live m b) /\
    (forall b i, ~ (b = BufB /\ 0 <= i < N * K) -> dat m' b i = dat m b i)).
Proof.
  intros H1 H2. destruct HA as (bs & A1 & A2). destruct HB as (bd & B1 & B2).
  destruct (tile8_pos Kt H1) as (T1 & T2). destruct (tile8_pos Nt H2) as (T3 & T4).
  apply pok_always. unfold transpose_mat_1thread.
  eapply pok_mono.
  - apply (seq_whole_spec S BufB K N f BufA m bs bd A1 B1 ltac:(discriminate) A2 B2 HH HK HN (tile8 Kt) (tile8 Nt)); auto.
    split; auto.
  - cbv beta. intros _ m' ((HL & HD) & HP). split; [auto|]. split; [congruence|auto].
Qed.

Lemma transpose_mat_race :
  -8 < Kt -> -8 < Nt -> ~ (8 | K) -> 8 < N -> 8 * (Nt / 8) < N ->
  pexec (transpose_mat S (BufA, 0) (BufB, 0) K N Kt Nt) m Undef.
Proof.
  intros H1 H2 H3 H4 H5. destruct HA as (bs & A1 & A2). destruct HB as (bd & B1 & B2).
  destruct (tile8_pos Kt H1) as (T1 & T2). destruct (tile8_pos Nt H2) as (T3 & T4).
  pose proof (tile8_eq Nt H2). unfold transpose_mat.
  apply (race_spec S BufB K N f BufA m bs bd A1 B1 ltac:(discriminate) A2 B2 HH HK HN (tile8 Kt) (tile8 Nt)); auto; [lia|].
  split; auto.
Qed.

End Pub.

Lemma range_dec (db : buf) (n : Z) (b : buf) (x : Z) : {b = db /\ 0 <= x < n} + {~ (b = db /\ 0 <= x < n)}.
Proof.
  destruct (buf_eqb_spec b db) as [Eb|Nb]; [|right; tauto].
  destruct (Z_le_dec 0 x); [|right; tauto]. destruct (Z_lt_dec x n); [left; auto|right; tauto].
Qed.

Lemma transpose_ok S M K (f : Z -> Z -> elt S) m :
  0 <= M -> 0 <= K -> at_least m BufA (M * K) -> holds m BufA M K f -> at_least m BufB (K * M) ->
  always (transpose S (BufB, 0) (BufA, 0) M K) m (fun _ m' =>
    holds m' BufB K M (fun r c => f c r) /\
    (forall b, live m' b = live m b) /\
    (forall b i, ~ (b = BufB /\ 0 <= i < K * M) -> dat m' b i = dat m b i)).
Proof.
  intros HM HK (bs & A1 & A2) HH (bd & B1 & B2). apply pok_always. unfold transpose.
  eapply (pok_seq (fun b x => b = BufB /\ 0 <= x < K * M) (rd BufA)).
  - apply (simple_spec S BufB M K f BufA m bs bd A1 B1 ltac:(discriminate) A2 B2 HH HM HK (fun b x => b = BufB /\ 0 <= x < K * M) m).
    + split; auto.
    + intros b x (E & _). auto.
    + intros r c Hr Hc. split; [auto|nia].
  - cbv beta. intros ms m' HP _ HL HE HF. split; [|split; [congruence|auto]].
    intros r c Hr Hc. rewrite HE, HP by auto.
    replace (box 0 K 0 M r c) with true; [auto|]. symmetry. apply box_true. lia.
  - intros b x. apply range_dec.
Qed.

(** the 8 x 8 tile by itself, with any leading dimensions *)
Definition tile_cells (ob ldb : Z) : region := fun b x => b = BufB /\ exists i j, 0 <= i < 8 /\ 0 <= j < 8 /\ x = ob + i * ldb + j.

Lemma transpose_8x8_ok S lda ldb oa ob (f : Z -> Z -> elt S) m :
  0 <= oa -> 0 <= ob -> 0 <= lda -> 8 <= ldb ->
  at_least m BufA (oa + 7 * lda + 8) -> at_least m BufB (ob + 7 * ldb + 8) ->
  (forall i j, 0 <= i < 8 -> 0 <= j < 8 -> dat m BufA (oa + i * lda + j) = Some (f i j)) ->
  always (pseq (transpose_8x8 S (BufA, oa) (BufB, ob) lda ldb)) m (fun _ m' =>
    (forall i j, 0 <= i < 8 -> 0 <= j < 8 -> dat m' BufB (ob + i * ldb + j) = Some (f j i)) /\
    (forall b, live m' b = live m b) /\
    (forall b x, ~ tile_cells ob ldb b x -> dat m' b x = dat m b x)).
Proof.
  intros Ha Hb Hla Hlb (bs & A1 & A2) (bd & B1 & B2) HH. apply pok_always.
  eapply (pok_seq (tile_cells ob ldb) (fun b _ => b = BufA) _ m
    (fun m' => forall i j, 0 <= i < 8 -> 0 <= j < 8 -> dat m' BufB (ob + i * ldb + j) = Some (f j i))).
  - unfold transpose_8x8. apply twp_bind.
    eapply (twp_tfor1 _ _ (fun j r m2 => m2 = m /\ forall j' e, 0 <= j' < j -> 0 <= e < 8 -> r j' e = f j' e)); try lia.
    + split; auto. intros; lia.
    + intros j r m2 Hj (-> & Hr) _ _. apply twp_bind.
      eapply twp_mono.
      * apply (load_vec_spec S (tile_cells ob ldb) (fun b _ => b = BufA) 1 (padd (BufA, oa) (j * lda)) 8 (fun e => f j e) bs m); cbn [padd fst snd]; auto; try nia.
      * cbv beta. intros v m2 (-> & Hv). apply twp_ret. split; [auto|]. intros j' e Hj' He.
        destruct (Z.eqb_spec j' j) as [->|]; [auto|]. apply Hr; lia.
    + cbv beta. intros r m2 (-> & Hr) _ _.
      unfold tfor_.
      eapply (twp_tfor1 _ _ (fun i (_ : unit) m2 => forall i' j, 0 <= i' < i -> 0 <= j < 8 -> dat m2 BufB (ob + i' * ldb + j) = Some (f j i'))); try lia.
      * intros i s1 m2 Hi HI HL2 HD2.
        eapply twp_call.
        -- apply (store_vec_spec S (padd (BufB, ob) (i * ldb)) 8 (network8 S r i) bd m2); cbn [padd fst snd]; try nia.
           now rewrite HL2.
        -- intros b x (-> & Hx). cbn [padd fst snd] in *. split; [auto|]. exists i, (x - (ob + i * ldb)). lia.
        -- intros ? ? [].
        -- cbn [padd fst snd]. intros _ m3 H3 _ HF3. intros i' j Hi' Hj.
           destruct (Z.eq_dec i' i) as [->|].
           ++ rewrite H3 by lia. now rewrite network8_spec, Hr by lia.
           ++ rewrite HF3; [apply HI; lia|]. intros (_ & Hx). assert (i' < i) by lia. nia.
      * cbv beta. auto.
  - cbv beta. intros ms m' HP _ HL HE HF. split; [|split; [congruence|auto]].
    intros i j Hi Hj. rewrite HE. auto.
  - intros b x. destruct (buf_eqb_spec b BufB) as [->|Nb].
    + pose proof (Z.div_mod (x - ob) ldb ltac:(lia)) as D. pose proof (Z.mod_pos_bound (x - ob) ldb ltac:(lia)) as B.
      destruct (Z_le_dec 0 ((x - ob) / ldb)) as [H1|H1]; [destruct (Z_lt_dec ((x - ob) / ldb) 8) as [H2|H2];
        [destruct (Z_lt_dec ((x - ob) mod ldb) 8) as [H3|H3]|]|].
      * left. split; [auto|]. exists ((x - ob) / ldb), ((x - ob) mod ldb). lia.
      * right. intros (_ & i & j & Hi & Hj & E).
        assert (i = (x - ob) / ldb) by nia. subst i. lia.
      * right. intros (_ & i & j & Hi & Hj & E).
        assert (i = (x - ob) / ldb) by nia. lia.
      * right. intros (_ & i & j & Hi & Hj & E).
        assert (i = (x - ob) / ldb) by nia. lia.
    + right. intros (E & _). auto.
Qed.
