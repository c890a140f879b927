(** * The code python/kernel_gen.py prints does what the kernels of ModelKernel do. *)

From Coq Require Import ZArith List Bool Lia FunctionalExtensionality.
From Verif Require Import Lang Lang_facts Spec ModelSizing ModelKernel Kernel_facts SpecTop ModelGen.
Import ListNotations.
Open Scope Z_scope.
Open Scope thr_scope.

Local Transparent tfor.

(** ** Threads making the same accesses *)

Section Sim.

Context {V : Type}.

Fixpoint tsim {X Y} (R : X -> Y -> Prop) (t : thr V X) (u : thr V Y) : Prop :=
  match t, u with
  | TRet x, TRet y => R x y
  | TLoad al b i k, TLoad al' b' i' k' => al = al' /\ b = b' /\ i = i' /\ forall v, tsim R (k v) (k' v)
  | TStore b i v k, TStore b' i' v' k' => b = b' /\ i = i' /\ v = v' /\ tsim R k k'
  | TFail, TFail => True
  | _, _ => False
  end.

Lemma tsim_bind {X Y X' Y'} (R : X -> Y -> Prop) (R' : X' -> Y' -> Prop) t : forall u f g,
  tsim R t u -> (forall x y, R x y -> tsim R' (f x) (g y)) -> tsim R' (tbind t f) (tbind u g).
Proof.
  induction t as [x|al b i k IH|b i v k IH|]; intros [y|al' b' i' k'|b' i' v' k'|] f g; cbn [tsim tbind]; try easy; auto.
  - intros (-> & -> & -> & H) HR. repeat split; auto.
  - intros (-> & -> & -> & H) HR. repeat split; auto.
Qed.

Lemma tsim_mono {X Y} (R R' : X -> Y -> Prop) t : forall u,
  (forall x y, R x y -> R' x y) -> tsim R t u -> tsim R' t u.
Proof.
  induction t as [x|al b i k IH|b i v k IH|]; intros [y|al' b' i' k'|b' i' v' k'|] HR; cbn [tsim]; try easy; auto.
  - intros (-> & -> & -> & H). repeat split; auto.
  - intros (-> & -> & -> & H). repeat split; auto.
Qed.

Lemma tsim_eq {X} (t : thr V X) : forall u, tsim eq t u -> t = u.
Proof.
  induction t as [x|al b i k IH|b i v k IH|]; intros [y|al' b' i' k'|b' i' v' k'|]; cbn [tsim]; try easy.
  - now intros ->.
  - intros (-> & -> & -> & H). f_equal. apply functional_extensionality. auto.
  - intros (-> & -> & -> & H). f_equal. auto.
Qed.

Lemma tbind_assoc {X Y Z'} (t : thr V X) (f : X -> thr V Y) (g : Y -> thr V Z') :
  tbind (tbind t f) g = tbind t (fun x => tbind (f x) g).
Proof.
  induction t as [x|al b i k IH|b i v k IH|]; cbn [tbind]; auto.
  - f_equal. apply functional_extensionality. auto.
  - now rewrite IH.
Qed.

Lemma tbind_ret {X} (t : thr V X) : tbind t TRet = t.
Proof.
  induction t as [x|al b i k IH|b i v k IH|]; cbn [tbind]; auto.
  - f_equal. apply functional_extensionality. auto.
  - now rewrite IH.
Qed.

Lemma titer_add {X} (f : Z -> X -> thr V X) a b : forall z s,
  titer (a + b) z 1 f s = tbind (titer a z 1 f s) (fun s' => titer b (z + Z.of_nat a) 1 f s').
Proof.
  induction a as [|a IH]; intros z s.
  - cbn. now replace (z + 0) with z by lia.
  - cbn [titer Nat.add]. rewrite tbind_assoc. f_equal. apply functional_extensionality. intros s'.
    rewrite IH. f_equal. apply functional_extensionality. intros s''. f_equal. lia.
Qed.

Lemma titer_snoc {X} (f : Z -> X -> thr V X) a z s :
  titer (Datatypes.S a) z 1 f s = tbind (titer a z 1 f s) (fun s' => f (z + Z.of_nat a) s').
Proof.
  replace (Datatypes.S a) with (a + 1)%nat by lia. rewrite titer_add. f_equal. apply functional_extensionality. intros s'.
  cbn [titer]. now rewrite tbind_ret.
Qed.

Lemma tsim_titer {X Y} (rel : nat -> X -> Y -> Prop) f g z z' n x y :
  (forall j x y, (j < n)%nat -> rel j x y -> tsim (rel (Datatypes.S j)) (f (z + Z.of_nat j) x) (g (z' + Z.of_nat j) y)) ->
  rel O x y -> tsim (rel n) (titer n z 1 f x) (titer n z' 1 g y).
Proof.
  intros H H0. induction n as [|n IH]; [exact H0|].
  rewrite !titer_snoc. eapply tsim_bind; [apply IH; intros; apply H; auto|]. intros; apply H; auto.
Qed.

Lemma tsim_chunks {X Y} (rel : nat -> X -> Y -> Prop) f g wn n x y :
  (forall j x y, (j < n)%nat -> rel j x y ->
     tsim (rel (Datatypes.S j)) (titer wn (Z.of_nat j * Z.of_nat wn) 1 f x) (g (Z.of_nat j) y)) ->
  rel O x y -> tsim (rel n) (titer (n * wn) 0 1 f x) (titer n 0 1 g y).
Proof.
  intros H H0. induction n as [|n IH]; [exact H0|].
  replace (Datatypes.S n * wn)%nat with (n * wn + wn)%nat by lia. rewrite titer_add, titer_snoc.
  eapply tsim_bind; [apply IH; intros; apply H; auto|]. cbn beta. intros a b HR.
  replace (0 + Z.of_nat (n * wn)) with (Z.of_nat n * Z.of_nat wn) by lia.
  apply H; auto.
Qed.

End Sim.

Lemma count1 lo hi : loop_count lo hi 1 = Z.to_nat (hi - lo).
Proof. unfold loop_count. rewrite Z.div_1_r. f_equal. lia. Qed.

Lemma tfor1 {V X} lo hi (s : X) (f : Z -> X -> thr V X) : tfor lo hi 1 s f = titer (Z.to_nat (hi - lo)) lo 1 f s.
Proof. unfold tfor. cbn [Z.ltb Z.compare]. now rewrite count1. Qed.

Lemma py_range1 lo hi : py_range lo hi 1 = zseq (Z.to_nat (hi - lo)) lo 1.
Proof. unfold py_range. now rewrite count1. Qed.

Lemma head_range {X} (f : Z -> X) q : 0 < q -> f 0 :: map f (py_range 1 q 1) = map f (zseq (Z.to_nat q) 0 1).
Proof.
  intros. rewrite py_range1. replace (Z.to_nat q) with (Datatypes.S (Z.to_nat (q - 1))) by lia. reflexivity.
Qed.

(** ** Generated code *)

Section Gen.

Variable S : scalar.
Notation T := (elt S).
Variables (t : target) (s : kernel_src) (C : ptr) (n : Z).

Lemma vrun_app l1 l2 st : vrun S t s C n (l1 ++ l2) st = tbind (vrun S t s C n l1 st) (vrun S t s C n l2).
Proof.
  revert st; induction l1 as [|i l1 IH]; intros st; [reflexivity|]. cbn [vrun app]. rewrite tbind_assoc. f_equal.
  apply functional_extensionality. auto.
Qed.

Lemma vrun_map h q z st :
  vrun S t s C n (map h (zseq q z 1)) st = titer q z 1 (fun i st => vstep S t s C n (h i) st) st.
Proof.
  revert z st; induction q as [|q IH]; intros z st; [reflexivity|]. cbn [vrun map zseq titer]. f_equal.
  apply functional_extensionality. auto.
Qed.

Lemma vrun_flat h q z st :
  vrun S t s C n (flat_map h (zseq q z 1)) st = titer q z 1 (fun i st => vrun S t s C n (h i) st) st.
Proof.
  revert z st; induction q as [|q IH]; intros z st; [reflexivity|]. cbn [flat_map zseq titer]. rewrite vrun_app. f_equal.
  apply functional_extensionality. auto.
Qed.

Lemma width_pos : 0 < width t.
Proof. destruct t; reflexivity. Qed.

(** A vector load is a stretch of a longer load. *)
Lemma load_chunk al p i (f : Z -> T) : 0 < al -> (al | width t) -> 0 <= i ->
  tsim (fun f' v => (forall e, 0 <= e < width t -> v e = f' (i * width t + e)) /\ (forall e, e < i * width t -> f' e = f e))
    (titer (Z.to_nat (width t)) (i * width t) 1 (fun j f =>
       let+ v := tload_al (if Z.rem j al =? 0 then al else 1) (fst p) (snd p + j) in
       TRet (fun e => if e =? j then v else f e)) f)
    (load_vec S al (padd p (i * width t)) (width t)).
Proof.
  intros Hal Hd Hi. pose proof width_pos as Hw. unfold load_vec. rewrite tfor1.
  replace (width t - 0) with (width t) by lia.
  eapply tsim_mono; [|apply (tsim_titer (fun j f' v =>
     (forall e, 0 <= e < Z.of_nat j -> v e = f' (i * width t + e)) /\ (forall e, e < i * width t -> f' e = f e)))].
  - cbn beta. intros x y [H1 H2]. split; [intros e He; apply H1; lia|auto].
  - cbn beta. intros j x y Hj [H1 H2]. cbn [tsim tload_al tbind padd fst snd].
    assert (Ea : Z.rem (i * width t + Z.of_nat j) al = Z.rem (0 + Z.of_nat j) al).
    { destruct Hd as [d Hd]. rewrite !Z.rem_mod_nonneg by lia. rewrite Hd.
      replace (i * (d * al) + Z.of_nat j) with (0 + Z.of_nat j + (i * d) * al) by lia. now rewrite Z_mod_plus_full. }
    rewrite Ea. split; [auto|split; [auto|split; [lia|]]]. intros v. split.
    + intros e He. destruct (Z.eqb_spec e (0 + Z.of_nat j)) as [->|Hn].
      * replace (i * width t + (0 + Z.of_nat j) =? i * width t + Z.of_nat j) with true by (symmetry; apply Z.eqb_eq; lia). auto.
      * replace (i * width t + e =? i * width t + Z.of_nat j) with false by (symmetry; apply Z.eqb_neq; lia). apply H1. lia.
    + intros e He. replace (e =? i * width t + Z.of_nat j) with false by (symmetry; apply Z.eqb_neq; lia). auto.
  - split; [intros e He; lia|auto].
Qed.

(** Loading a long stretch register by register. *)
Lemma load_regs al p q (put : vstate S -> Z -> (Z -> T) -> vstate S) (get : vstate S -> Z -> option (Z -> T)) instr st
      (P : vstate S -> Prop) :
  0 < al -> (al | width t) -> 0 <= q ->
  (forall st i, P st -> 0 <= i < q ->
     vstep S t s C n (instr i) st = tbind (load_vec S al (padd p (i * width t)) (width t)) (fun v => TRet (put st i v))) ->
  (forall st i v, P st -> P (put st i v)) ->
  (forall st i v, get (put st i v) i = Some v) ->
  (forall st i v r, r <> i -> get (put st i v) r = get st r) ->
  P st ->
  tsim (fun f st' => P st' /\ forall r, 0 <= r < q -> exists v, get st' r = Some v /\
          forall e, 0 <= e < width t -> v e = f (r * width t + e))
    (load_vec S al p (q * width t))
    (vrun S t s C n (map instr (zseq (Z.to_nat q) 0 1)) st).
Proof.
  intros Hal Hd Hq Hstep HP Hg1 Hg2 HPst. pose proof width_pos as Hw.
  rewrite vrun_map. unfold load_vec at 1. rewrite tfor1.
  replace (Z.to_nat (q * width t - 0)) with (Z.to_nat q * Z.to_nat (width t))%nat by (rewrite Z.sub_0_r, Z2Nat.inj_mul by lia; reflexivity).
  eapply tsim_mono; [|apply (tsim_chunks (fun j f st' => P st' /\
     forall r, 0 <= r < Z.of_nat j -> exists v, get st' r = Some v /\ forall e, 0 <= e < width t -> v e = f (r * width t + e)))].
  - cbn beta. intros x y [H1 H2]. split; [auto|]. intros r Hr. apply H2. lia.
  - cbn beta. intros j x y Hj [H1 H2]. rewrite Hstep by (auto; lia).
    rewrite <- (tbind_ret (titer _ _ _ _ _)).
    replace (Z.of_nat j * Z.of_nat (Z.to_nat (width t))) with (Z.of_nat j * width t) by lia.
    eapply tsim_bind; [apply load_chunk; auto; lia|]. cbn beta. intros f' v [G1 G2]. cbn [tsim].
    split; [auto|]. intros r Hr. destruct (Z.eq_dec r (Z.of_nat j)) as [->|Hn].
    + exists v. split; auto.
    + destruct (H2 r) as (v' & E1 & E2); [lia|]. exists v'. split; [rewrite Hg2; auto|]. intros e He. rewrite G2, E2; auto.
      nia.
  - split; [auto|]. intros r Hr. lia.
Qed.

End Gen.

Section Kern.

Variable S : scalar.
Notation T := (elt S).
Variables (t : target) (ar : arch) (m q : Z).
Hypothesis Hal : lanes ar = b_align t.
Hypothesis Hm : 0 < m.
Hypothesis Hq : 0 < q.
Hypothesis Hf : forall a b c, lane_fma S t a b c = fma S a b c.

Notation w := (width t).
Notation s := (gen_kernel t m (q * w)).

Lemma nq : q * w / w = q.
Proof. apply Z.div_mul. pose proof (width_pos t). lia. Qed.

Lemma mq : m * (q * w) / w = m * q.
Proof. rewrite Z.mul_assoc. apply Z.div_mul. pose proof (width_pos t). lia. Qed.

Lemma db : decl_b s = q.
Proof. cbn. apply nq. Qed.

Lemma dc : decl_c s = m * q.
Proof. cbn. now rewrite nq. Qed.

Lemma al_pos : 0 < b_align t /\ (b_align t | w).
Proof. destruct t; cbn; (split; [lia|]); [exists 1|exists 4]; reflexivity. Qed.

(** local variables of the generated code against those of the modelled kernel *)
Definition inv (x : ptr * ptr * (Z -> T)) (st : vstate S) : Prop :=
  v_A S st = fst (fst x) /\ v_B S st = snd (fst x) /\
  forall r, 0 <= r < m * q -> exists v, v_c S st r = Some v /\ forall e, 0 <= e < w -> v e = snd x (r * w + e).

Lemma load_C A B C n :
  tsim (fun c st => inv (A, B, c) st) (load_vec S 1 C (m * (q * w)))
    (vrun S t s C n (gen_C_load t m (q * w)) (VState S A B None (fun _ => None) (fun _ => None))).
Proof.
  unfold gen_C_load. rewrite (head_range (fun i => VLoadC i (i * w))) by (rewrite mq; nia). rewrite mq, Z.mul_assoc.
  eapply tsim_mono; [|apply (load_regs S t s C n 1 C (m * q)
     (fun st i v => VState S (v_A S st) (v_B S st) (v_a S st) (v_b S st) (upd (v_c S st) i (Some v)))
     (fun st i => v_c S st i) (fun i => VLoadC i (i * w)) _ (fun st => v_A S st = A /\ v_B S st = B))].
  - cbn beta. intros c st [[H1 H2] H3]. split; [auto|split; [auto|]]. exact H3.
  - lia.
  - apply Z.divide_1_l.
  - nia.
  - intros st i _ Hi. unfold vstep. rewrite dc.
    now replace ((0 <=? i) && (i <? m * q)) with true by (symmetry; apply andb_true_iff; split; [apply Z.leb_le|apply Z.ltb_lt]; lia).
  - intros st i v H. exact H.
  - intros. cbn. unfold upd. now rewrite Z.eqb_refl.
  - intros st i v r Hr. cbn. unfold upd. now replace (r =? i) with false by (symmetry; apply Z.eqb_neq; auto).
  - auto.
Qed.

(** one row of fused multiply-adds *)
Lemma fma_row C n i a (b : Z -> T) (c : Z -> T) st : 0 <= i < m ->
  v_a S st = Some a ->
  (forall j, 0 <= j < q -> exists v, v_b S st (j + 1) = Some v /\ forall e, 0 <= e < w -> v e = b (j * w + e)) ->
  (forall r, 0 <= r < m * q -> exists v, v_c S st r = Some v /\ forall e, 0 <= e < w -> v e = c (r * w + e)) ->
  exists st', vrun S t s C n (map (fun j => VFma (i * q + j) (j + 1)) (zseq (Z.to_nat q) 0 1)) st = TRet st' /\
    v_A S st' = v_A S st /\ v_B S st' = v_B S st /\ v_b S st' = v_b S st /\
    forall r, 0 <= r < m * q -> exists v, v_c S st' r = Some v /\ forall e, 0 <= e < w ->
      v e = if (i * q <=? r) && (r <? (i + 1) * q) then fma S a (b ((r - i * q) * w + e)) (c (r * w + e)) else c (r * w + e).
Proof.
  intros Hi Ha Hb Hc. rewrite vrun_map.
  assert (G : forall g, (g <= Z.to_nat q)%nat -> exists st',
    titer g 0 1 (fun j st => vstep S t s C n (VFma (i * q + j) (j + 1)) st) st = TRet st' /\
    v_A S st' = v_A S st /\ v_B S st' = v_B S st /\ v_b S st' = v_b S st /\ v_a S st' = v_a S st /\
    forall r, 0 <= r < m * q -> exists v, v_c S st' r = Some v /\ forall e, 0 <= e < w ->
      v e = if (i * q <=? r) && (r <? i * q + Z.of_nat g) then fma S a (b ((r - i * q) * w + e)) (c (r * w + e)) else c (r * w + e)).
  { induction g as [|g IH]; intros Hg.
    - exists st. repeat split; auto. intros r Hr. destruct (Hc r Hr) as (v & E1 & E2). exists v. split; [auto|].
      intros e He. replace ((i * q <=? r) && (r <? i * q + Z.of_nat 0)) with false by (symmetry; apply andb_false_iff; destruct (Z.leb_spec (i * q) r); [right; apply Z.ltb_ge|left]; lia).
      auto.
    - destruct IH as (st1 & E & A1 & B1 & D1 & F1 & C1); [lia|]. rewrite titer_snoc, E. cbn [tbind].
      set (j := 0 + Z.of_nat g) in *. assert (Hj : 0 <= j < q) by lia.
      assert (Hr : 0 <= i * q + j < m * q) by nia.
      destruct (Hb j Hj) as (bv & Eb1 & Eb2). destruct (C1 (i * q + j) Hr) as (cv & Ec1 & Ec2).
      exists (VState S (v_A S st1) (v_B S st1) (v_a S st1) (v_b S st1)
                (upd (v_c S st1) (i * q + j) (Some (fun e => lane_fma S t a (bv e) (cv e))))).
      split.
      + unfold vstep. rewrite dc, db.
        replace ((0 <=? i * q + j) && (i * q + j <? m * q)) with true by (symmetry; apply andb_true_iff; split; [apply Z.leb_le|apply Z.ltb_lt]; lia).
        replace ((1 <=? j + 1) && (j + 1 <=? q)) with true by (symmetry; apply andb_true_iff; split; apply Z.leb_le; lia).
        cbn [andb]. rewrite F1, Ha, D1, Eb1, Ec1. reflexivity.
      + cbn [v_A v_B v_a v_b v_c]. repeat split; auto. intros r Hr'. unfold upd. destruct (Z.eqb_spec r (i * q + j)) as [->|Hn].
        * eexists. split; [reflexivity|]. cbn beta. intros e He. rewrite Hf, Eb2, Ec2 by auto.
          replace ((i * q <=? i * q + j) && (i * q + j <? i * q + Z.of_nat g)) with false by (symmetry; apply andb_false_iff; right; apply Z.ltb_ge; lia).
          replace ((i * q <=? i * q + j) && (i * q + j <? i * q + Z.of_nat (Datatypes.S g))) with true by (symmetry; apply andb_true_iff; split; [apply Z.leb_le|apply Z.ltb_lt]; lia).
          now replace (i * q + j - i * q) with j by lia.
        * destruct (C1 r Hr') as (v & E1 & E2). exists v. split; [auto|]. intros e He. rewrite E2 by auto.
          now replace (r <? i * q + Z.of_nat (Datatypes.S g)) with (r <? i * q + Z.of_nat g)
            by (destruct (Z.ltb_spec r (i * q + Z.of_nat g)), (Z.ltb_spec r (i * q + Z.of_nat (Datatypes.S g))); auto; lia). }
  destruct (G (Z.to_nat q) (le_n _)) as (st' & E & A1 & B1 & D1 & _ & C1). exists st'. repeat split; auto.
  intros r Hr. destruct (C1 r Hr) as (v & E1 & E2). exists v. split; [auto|]. intros e He. rewrite E2 by auto.
  now replace (i * q + Z.of_nat (Z.to_nat q)) with ((i + 1) * q) by lia.
Qed.

Lemma inner_sim C n x st : inv x st ->
  tsim inv (inner S ar m (q * w) n x) (vrun S t s C n (gen_inner_kernel t m (q * w)) st).
Proof.
  destruct x as [[A B] c]. intros (HA & HB & HC). cbn [fst snd] in *. pose proof (width_pos t) as Hw. destruct al_pos as [Ha1 Ha2].
  unfold gen_inner_kernel. cbv zeta. rewrite nq.
  rewrite (app_comm_cons (map (fun i => VLoadB (i + 1) (i * w)) (py_range 1 q 1)) _ (VLoadB 1 0)).
  rewrite (head_range (fun i => VLoadB (i + 1) (i * w))) by auto.
  rewrite vrun_app. unfold inner. rewrite Hal.
  eapply tsim_bind.
  { apply (load_regs S t s C n (b_align t) B q
     (fun st i v => VState S (v_A S st) (v_B S st) (v_a S st) (upd (v_b S st) (i + 1) (Some v)) (v_c S st))
     (fun st i => v_b S st (i + 1)) (fun i => VLoadB (i + 1) (i * w)) st
     (fun st' => v_A S st' = A /\ v_B S st' = B /\ v_c S st' = v_c S st)); auto.
    - lia.
    - intros st0 i (P1 & P2 & P3) Hi. unfold vstep. rewrite db, P2.
      now replace ((1 <=? i + 1) && (i + 1 <=? q)) with true by (symmetry; apply andb_true_iff; split; apply Z.leb_le; lia).
    - intros. cbn. unfold upd. now rewrite Z.eqb_refl.
    - intros st0 i v r Hr. cbn. unfold upd. now replace (r + 1 =? i + 1) with false by (symmetry; apply Z.eqb_neq; lia). }
  cbn beta. intros b st1 ((P1 & P2 & P3) & Pb).
  rewrite vrun_app, (py_range1 0 m), vrun_flat, tfor1. rewrite Z.sub_0_r.
  eapply tsim_bind.
  { apply (tsim_titer (fun i ac st' => v_A S st' = fst ac /\ v_B S st' = B /\ v_b S st' = v_b S st1 /\
      forall r, 0 <= r < m * q -> exists v, v_c S st' r = Some v /\ forall e, 0 <= e < w -> v e = snd ac (r * w + e))).
    - intros i [a0 c0] st' Hi (R1 & R2 & R3 & R4). cbn [fst snd] in *. cbn [vrun vstep]. rewrite tbind_assoc, R1.
      cbn [tload tbind tsim]. repeat split; auto. intros v. rewrite py_range1, Z.sub_0_r.
      destruct (fma_row C n (0 + Z.of_nat i) v b c0 (VState S (padd a0 1) (v_B S st') (Some v) (v_b S st') (v_c S st')))
        as (st2 & E & A1 & B1 & D1 & C1); [lia|reflexivity|cbn; now rewrite R3|exact R4|].
      rewrite E. cbn [tsim fst snd]. cbn [v_A v_B v_b] in A1, B1, D1. repeat split; [auto|congruence|congruence|].
      intros r Hr. destruct (C1 r Hr) as (u & E1 & E2). exists u. split; [auto|]. intros e He. rewrite E2 by auto.
      set (i' := 0 + Z.of_nat i) in *.
      destruct (Z.leb_spec (i' * q) r) as [L1|L1], (Z.ltb_spec r ((i' + 1) * q)) as [L2|L2]; cbn [andb].
      + replace (i' * (q * w) <=? r * w + e) with true by (symmetry; apply Z.leb_le; nia).
        replace (r * w + e <? (i' + 1) * (q * w)) with true by (symmetry; apply Z.ltb_lt; nia). cbn [andb].
        f_equal. f_equal. lia.
      + replace (r * w + e <? (i' + 1) * (q * w)) with false by (symmetry; apply Z.ltb_ge; nia). now rewrite andb_false_r.
      + replace (i' * (q * w) <=? r * w + e) with false by (symmetry; apply Z.leb_gt; nia). reflexivity.
      + replace (i' * (q * w) <=? r * w + e) with false by (symmetry; apply Z.leb_gt; nia). reflexivity.
    - cbn [fst snd]. repeat split; auto. intros r Hr. rewrite P3. auto. }
  cbn beta. intros [a' c'] st2 (R1 & R2 & R3 & R4). cbn [vrun vstep tbind tsim fst snd] in *.
  split; [auto|split; [cbn; now rewrite R2|exact R4]].
Qed.

Lemma unrolled_sim C n x st : inv x st ->
  tsim inv (let+ x := inner S ar m (q * w) n x in let+ x := inner S ar m (q * w) n x in
            let+ x := inner S ar m (q * w) n x in inner S ar m (q * w) n x)
    (vrun S t s C n (src_unrolled s) st).
Proof.
  intros H. cbn [gen_kernel src_unrolled]. change (py_range 1 4 1) with [1; 2; 3]. cbn [map concat]. rewrite app_nil_r, !vrun_app.
  eapply tsim_bind; [apply inner_sim, H|]. intros x1 st1 H1. rewrite vrun_app.
  eapply tsim_bind; [apply inner_sim, H1|]. intros x2 st2 H2. rewrite vrun_app.
  eapply tsim_bind; [apply inner_sim, H2|]. intros x3 st3 H3. apply inner_sim, H3.
Qed.

Lemma tsim_iter {V X Y} (R : X -> Y -> Prop) f g cnt : forall z step x y,
  (forall z x y, R x y -> @tsim V X Y R (f z x) (g z y)) -> R x y ->
  tsim R (titer cnt z step f x) (titer cnt z step g y).
Proof.
  induction cnt as [|cnt IH]; intros z step x y H HR; [exact HR|]. cbn [titer]. eapply tsim_bind; [apply H, HR|].
  intros; apply IH; auto.
Qed.

Lemma tsim_for {V X Y} (R : X -> Y -> Prop) f g lo hi step x y :
  (forall z x y, R x y -> @tsim V X Y R (f z x) (g z y)) -> R x y ->
  tsim R (tfor lo hi step x f) (tfor lo hi step y g).
Proof.
  intros H HR. unfold tfor. destruct (0 <? step); [apply tsim_iter; auto|]. destruct (lo <? hi); [exact I|exact HR].
Qed.

Lemma store_C C n x st : inv x st ->
  tsim (fun _ _ => True) (store_vec S C (m * (q * w)) (snd x)) (vrun S t s C n (src_store s) st).
Proof.
  intros (_ & _ & HC). pose proof (width_pos t) as Hw. cbn [gen_kernel src_store]. unfold gen_C_store.
  rewrite (head_range (fun i => VStoreC (i * w) i)) by (rewrite mq; nia). rewrite mq, Z.mul_assoc, vrun_map.
  unfold store_vec, tfor_. rewrite tfor1.
  assert (Hmq : 0 <= m * q) by nia. rewrite Z.sub_0_r, Z2Nat.inj_mul by lia.
  eapply tsim_mono; [|apply (tsim_chunks (fun j u st' => st' = st))]; [auto| |auto].
  intros j u st' Hj ->. destruct (HC (Z.of_nat j)) as (v & E1 & E2); [lia|].
  unfold vstep. rewrite dc.
  assert (Eb : (0 <=? Z.of_nat j) && (Z.of_nat j <? m * q) = true) by (apply andb_true_iff; split; [apply Z.leb_le|apply Z.ltb_lt]; lia).
  rewrite Eb, E1. rewrite <- (tbind_ret (titer _ _ _ _ _)).
  eapply tsim_bind with (R := fun _ _ => True); [|intros; exact eq_refl].
  unfold store_vec, tfor_. rewrite tfor1, Z.sub_0_r.
  replace (Z.of_nat j * Z.of_nat (Z.to_nat w)) with (Z.of_nat j * w) by lia.
  apply (tsim_titer (fun _ _ _ => True)); [|auto]. intros i x' y' Hi _. cbn [tsim tstore padd fst snd].
  repeat split; [lia|]. rewrite E2 by lia. f_equal. 
Qed.

Theorem generated_sim A B C mm n k : run_kernel S t s A B C mm n k = ukernel S ar m (q * w) A B C mm n k.
Proof.
  symmetry. apply tsim_eq. unfold run_kernel, ukernel.
  eapply tsim_bind; [apply load_C|]. cbn beta. intros c st H. cbv zeta.
  eapply tsim_bind; [apply tsim_for; [|exact H]; intros; apply unrolled_sim; auto|]. cbn beta. intros x1 st1 H1.
  eapply tsim_bind; [apply tsim_for; [|exact H1]; intros; apply inner_sim; auto|]. cbn beta. intros x2 st2 H2.
  rewrite <- (tbind_ret (store_vec _ _ _ _)).
  eapply tsim_bind; [apply store_C, H2|]. intros [] ? _. reflexivity.
Qed.

End Kern.

(** ** The generated files *)

Lemma lookup_in (G : Z -> Z -> kernel_src) a b : forall l,
  (forall i j s, In ((i, j), s) l -> s = G i j) -> (exists s, In ((a, b), s) l) -> lookup l (a, b) = Some (G a b).
Proof.
  induction l as [|[[i j] s] l IH]; intros HG [s0 H0]; [destruct H0|]. cbn [lookup fst snd].
  destruct ((i =? a) && (j =? b)) eqn:E.
  - apply andb_true_iff in E. rewrite !Z.eqb_eq in E. destruct E as [-> ->]. f_equal. apply HG. now left.
  - apply IH; [intros; apply HG; now right|]. destruct H0 as [H0|H0]; [|eauto].
    injection H0 as -> -> ->. rewrite !Z.eqb_refl in E. discriminate.
Qed.

Lemma entry_at t ml nl i j :
  map_entry (gen_header t ml nl) i j =
  if (0 <=? i) && (i <? h_rows (gen_header t ml nl)) && (0 <=? j) && (j <? h_cols (gen_header t ml nl))
  then Some (start_m t + i * fact_m t, start_n t + j * fact_n t) else None.
Proof.
  unfold map_entry. destruct ((0 <=? i) && _ && _ && _) eqn:E; [|reflexivity].
  rewrite !andb_true_iff, !Z.leb_le, !Z.ltb_lt in E. destruct E as [[[E1 E2] E3] E4].
  cbn [gen_header h_rows h_cols h_map] in *. unfold py_range in *. rewrite zseq_length in E2, E4.
  rewrite nth_error_map, zseq_nth by lia. cbn [option_map]. rewrite nth_error_map, zseq_nth by lia. cbn [option_map].
  now rewrite !Z2Nat.id by lia.
Qed.

Lemma defined_at t ml nl i j :
  0 <= i < h_rows (gen_header t ml nl) -> 0 <= j < h_cols (gen_header t ml nl) ->
  lookup (gen_file t ml nl) (start_m t + i * fact_m t, start_n t + j * fact_n t) =
  Some (gen_kernel t (start_m t + i * fact_m t) (start_n t + j * fact_n t)).
Proof.
  intros Hi Hj. apply (lookup_in (gen_kernel t)).
  - intros a b s H. unfold gen_file in H. apply in_flat_map in H. destruct H as (x & _ & H). apply in_map_iff in H.
    destruct H as (y & E & _). now inversion E.
  - exists (gen_kernel t (start_m t + i * fact_m t) (start_n t + j * fact_n t)).
    cbn [gen_header h_rows h_cols] in *. unfold py_range in *. rewrite zseq_length in Hi, Hj.
    unfold gen_file. apply in_flat_map. exists (start_m t + i * fact_m t). split.
    + apply (nth_error_In _ (Z.to_nat i)). unfold py_range. rewrite zseq_nth by lia. now rewrite Z2Nat.id by lia.
    + apply in_map_iff. exists (start_n t + j * fact_n t). split; [reflexivity|].
      apply (nth_error_In _ (Z.to_nat j)). unfold py_range. rewrite zseq_nth by lia. now rewrite Z2Nat.id by lia.
Qed.
