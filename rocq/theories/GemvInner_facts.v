(** * The row-major kernel of the matrix-vector example. *)

From Coq Require Import ZArith List Bool Lia.
From Verif Require Import Lang Lang_facts Spec SpecTop SpecSmall SpecTouch SpecGemvInner Witness ModelSizing ModelKernel
     Kernel_facts Mult_facts Exec Exec_facts Touch_facts TouchOut_facts ModelGemvInner.
Import ListNotations.
Open Scope Z_scope.

Lemma nsum_add f n m : nsum f (n + m) = nsum f n + nsum (fun j => f (Z.of_nat n + j)) m.
Proof.
  induction m as [|m IH]; cbn [nsum].
  - rewrite Nat.add_0_r. lia.
  - rewrite Nat.add_succ_r. cbn [nsum]. rewrite IH, Nat2Z.inj_add. lia.
Qed.

Lemma zsum_add f n m : 0 <= n -> 0 <= m -> zsum f (n + m) = zsum f n + zsum (fun j => f (n + j)) m.
Proof. intros. unfold zsum. rewrite Z2Nat.inj_add by lia. rewrite nsum_add, Z2Nat.id by lia. reflexivity. Qed.

Lemma zsum_1 f n : 0 <= n -> zsum f (n + 1) = zsum f n + f n.
Proof. intros. rewrite zsum_add by lia. change (zsum (fun j => f (n + j)) 1) with (0 + f (n + 0)). rewrite Z.add_0_r. lia. Qed.

Lemma zsum_ext f g n : (forall j, 0 <= j < n -> f j = g j) -> zsum f n = zsum g n.
Proof.
  intros H. unfold zsum. assert (E : forall q, (q <= Z.to_nat n)%nat -> nsum f q = nsum g q); [|auto].
  induction q as [|q IH]; cbn [nsum]; intros Hq; [auto|]. rewrite IH by lia. rewrite H by lia. reflexivity.
Qed.

Lemma zsum_0 f : zsum f 0 = 0.
Proof. reflexivity. Qed.

Lemma lanes_zsum c : lanes_sum Zs Z.add c = zsum c 8.
Proof. cbv [lanes_sum zseq fold_left zsum nsum Z.to_nat Pos.to_nat Pos.iter_op Init.Nat.add Z.add Pos.add Pos.succ Z.of_nat Pos.of_succ_nat]. fold Z.add. lia. Qed.

Lemma load_cells (W Rd : region) b o n (v : Z -> Z) m : 0 < n -> (forall j, Rd b j) ->
  (forall j, 0 <= j < n -> cell m b (o + j) (v j)) ->
  twp W Rd (load_vec Zs 1 (b, o) n) (fun f m' => m' = m /\ forall j, 0 <= j < n -> f j = v j) m.
Proof.
  intros Hn HR H. destruct (H 0 ltac:(lia)) as (bi & L & B0 & _). destruct (H (n - 1) ltac:(lia)) as (bi' & L' & B1 & _).
  rewrite L in L'. injection L' as <-.
  eapply (load_vec_spec Zs W Rd 1 (b, o) n v bi m); cbn [fst snd]; auto; try lia.
  intros j Hj. split; [auto|]. destruct (H j Hj) as (? & _ & _ & D). exact D.
Qed.

Lemma pass_sum (c a b : Z -> Z) :
  zsum (fun e => fold_left (fun v i => fma Zs (a (8 * i + e)) (b (8 * i + e)) v) (zseq 8 0 1) (c e)) 8 =
  zsum c 8 + zsum (fun j => a j * b j) 64.
Proof.
  assert (E : zsum (fun j => a j * b j) 64 = zsum (fun i => zsum (fun e => a (8 * i + e) * b (8 * i + e)) 8) 8).
  { change 64 with (8 * 8).
    assert (H : forall q, 0 <= q -> zsum (fun j => a j * b j) (8 * q) = zsum (fun i => zsum (fun e => a (8 * i + e) * b (8 * i + e)) 8) q).
    { apply natlike_ind; [reflexivity|]. intros q Hq IH. unfold Z.succ. rewrite zsum_1 by lia.
      replace (8 * (q + 1)) with (8 * q + 8) by lia. rewrite zsum_add by lia. now rewrite IH. }
    apply H. lia. }
  rewrite E. clear E. unfold zsum. change (Z.to_nat 8) with 8%nat.
  cbn [nsum zseq fold_left fma Zs].
  repeat match goal with |- context [8 * ?i + ?e] => let v := eval vm_compute in (8 * i + e) in change (8 * i + e) with v end.
  lia.
Qed.

Section Run.

Variables (u K : Z) (A : Z -> Z -> Z) (B C : Z -> Z).
Hypothesis Hu : 0 < u.

Notation k := (64 * u).

(** what row r adds *)
Definition row_adds (r : Z) : Z := zsum (fun j => A r j * B (j mod 64)) k.

Definition rd : region := fun b _ => b = BufA \/ b = BufB \/ b = BufC.

Definition st_ok (mm : Z) (st : ptr * (Z -> Z) * (Z -> option Z)) : Prop :=
  let '(p, c, ans) := st in
  p = (BufA, mm * K) /\ zsum c 8 = zsum C 8 + zsum row_adds mm /\
  forall i, 0 <= i < mm -> ans i = Some (zsum C 8 + zsum row_adds (i + 1)).

Lemma row_spec (b : Z -> Z) mm st m : 0 <= mm < 8 ->
  (forall j, 0 <= j < 64 -> b j = B j) ->
  row_stored m BufA 0 K 8 k A -> st_ok mm st ->
  twp rnone rd (inner_row Zs Z.add b k K mm st) (fun st' m' => m' = m /\ st_ok (mm + 1) st') m.
Proof.
  intros Hm Hb HA Hst. unfold inner_row. apply twp_bind.
  apply (twp_tfor rnone rd (fun q st' m' => m' = m /\
    let '(p, c, ans) := st' in
    p = (BufA, mm * K + 64 * q) /\
    zsum c 8 = zsum C 8 + zsum row_adds mm + zsum (fun j => A mm j * B (j mod 64)) (64 * q) /\
    (forall i, 0 <= i < mm -> ans i = Some (zsum C 8 + zsum row_adds (i + 1))) /\
    (0 < q -> ans mm = Some (zsum c 8))) _ 0 k 64 u); try lia.
  - split; auto. destruct st as [[p c] ans]. destruct Hst as (-> & Hc & Ha). rewrite Z.mul_0_r, zsum_0, !Z.add_0_r.
    repeat split; auto. lia.
  - intros q [[p c] ans] m' Hq (-> & -> & Hc & Ha & _) _ _. unfold inner_pass. apply twp_bind.
    eapply twp_mono; [apply (load_cells rnone rd BufA (mm * K + 64 * q) 64 (fun j => A mm (64 * q + j)))|]; auto; try lia.
    { intros j. left. reflexivity. }
    { intros j Hj. replace (mm * K + 64 * q + j) with (0 + mm * K + (64 * q + j)) by lia. apply HA; lia. }
    intros a m' (-> & Hl). destruct (Z.ltb_spec mm 8); [|lia]. apply twp_ret. split; auto. split.
    { unfold padd. cbn [fst snd]. f_equal. lia. }
    assert (E : zsum (fun e => fold_left (fun v i => fma Zs (a (8 * i + e)) (b (8 * i + e)) v) (zseq 8 0 1) (c e)) 8 =
      zsum C 8 + zsum row_adds mm + zsum (fun j => A mm j * B (j mod 64)) (64 * (q + 1))).
    { rewrite pass_sum, Hc. replace (64 * (q + 1)) with (64 * q + 64) by lia. rewrite zsum_add by lia.
      rewrite <- !Z.add_assoc. do 3 f_equal. apply zsum_ext. intros j Hj. rewrite Hl, Hb by lia.
      replace ((64 * q + j) mod 64) with j; auto. rewrite Z.add_comm, Z.mul_comm, Z.mod_add, Z.mod_small; lia. }
    split; [exact E|]. split.
    { intros i Hi. destruct (Z.eqb_spec i mm); [lia|]. auto. }
    intros _. rewrite Z.eqb_refl. exact (f_equal Some (lanes_zsum _)).
  - intros [[p c] ans] m' (-> & -> & Hc & Ha & Hn) _ _. apply twp_ret. split; auto. cbn [fst snd]. unfold st_ok. split.
    { unfold padd. cbn [fst snd]. f_equal. lia. }
    fold (row_adds mm) in Hc. rewrite zsum_1 by lia. split; [lia|].
    intros i Hi. destruct (Z.eq_dec i mm) as [->|]; [|apply Ha; lia]. rewrite Hn by lia. rewrite zsum_1 by lia. f_equal. lia.
Qed.

Lemma inner_leaves m : inner_operands m k K A B C ->
  leaves_in_C (ppar_for 0 1 1 (fun _ => cake_sgemv_haswell_inner_1x64x1 Zs Z.add (BufA, 0) (BufB, 0) (BufC, 0) 8 k K)) m
    (fun i => zsum C 8 + zsum row_adds (i + 1)).
Proof.
  intros (HA & HB & HC). apply pok_always.
  eapply (pok_par_for 0 1 1 1 _ m (fun _ => rng BufC 0 8) (fun _ => rd)
     (fun _ m' => forall e, 0 <= e < 8 -> dat m' BufC e = Some (zsum C 8 + zsum row_adds (e + 1)))); try lia.
  - intros q Hq. unfold cake_sgemv_haswell_inner_1x64x1.
    apply twp_bind. eapply twp_mono; [apply (load_cells _ rd BufC 0 8 C)|]; try lia; auto.
    { intros j. right. right. reflexivity. }
    intros c m' (-> & Hc).
    apply twp_bind. eapply twp_mono; [apply (load_cells _ rd BufB 0 64 B)|]; try lia; auto.
    { intros j. right. left. reflexivity. }
    intros b m' (-> & Hb).
    apply twp_bind.
    apply (twp_tfor1 _ _ (fun mm st m' => m' = m /\ st_ok mm st)); try lia.
    + split; auto. unfold st_ok. split; [reflexivity|]. rewrite zsum_0, Z.add_0_r. split; [now apply zsum_ext|]. lia.
    + intros mm st m' Hmm (-> & Hst) _ _. eapply twp_weaken; [now apply row_spec|intros ? ? []|auto].
    + intros [[p c'] ans] m' (-> & _ & _ & Ha) _ _. cbn [fst snd].
      assert (E : forallb (fun i => match ans i with Some _ => true | None => false end) (zseq 8 0 1) = true).
      { cbn [zseq forallb Z.add Pos.add Pos.succ]. rewrite !Ha by lia. reflexivity. }
      match goal with |- context [if ?t then _ else _] => change t with (forallb (fun i => match ans i with Some _ => true | None => false end) (zseq 8 0 1)) end.
      rewrite E. destruct (HC 0 ltac:(lia)) as (bc & L & _). destruct (HC 7 ltac:(lia)) as (bc' & L' & ? & _).
      rewrite L in L'. injection L' as <-.
      eapply twp_weaken; [eapply twp_mono; [apply (store_vec_spec Zs (BufC, 0) 8 _ bc); cbn; auto; lia|]|auto|intros ? ? []].
      cbn [fst snd]. intros [] m' Hm e He. specialize (Hm e He). rewrite Ha in Hm by auto. exact Hm.
  - intros m' HL HQ HF. destruct (HQ 0 ltac:(lia)) as (ms & Q1 & _ & _ & Q2). split; auto. split.
    + intros i Hi. rewrite Q2 by (split; auto). auto.
    + intros b i Hn. apply HF. intros c Hc (-> & Hi). auto.
Qed.

End Run.

(** ** Undefined calls *)

Section Undefined.

Variables (S : scalar) (add : elt S -> elt S -> elt S).

(** A ninth row is stored outside of ans.vals. *)
Lemma inner_nine A B C m k K : 8 < m -> 0 < k ->
  touches BufA (-1) (cake_sgemv_haswell_inner_1x64x1 S add A B C m k K).
Proof.
  intros Hm Hk. unfold cake_sgemv_haswell_inner_1x64x1.
  apply touches_bind_r. intros c. apply touches_bind_r. intros b. apply touches_bind_l.
  apply (touches_tfor1 _ _ _ _ _ _ 8); [lia|]. intros st. unfold inner_row. apply touches_bind_l.
  apply (touches_tfor _ _ _ _ _ _ _ 0); try lia. intros [[p c'] ans]. unfold inner_pass.
  apply touches_bind_r. intros a. cbn. exact I.
Qed.

Local Transparent tfor.

Lemma rets_titer_in {R} (Q : R -> Prop) step (f : Z -> R -> thr (elt S) R) n : forall z s, Q s ->
  (forall j s, 0 <= j < Z.of_nat n -> Q s -> rets Q (f (z + j * step) s)) -> rets Q (titer n z step f s).
Proof.
  induction n as [|n IH]; intros z s H Hf; cbn [titer]; [exact H|].
  apply rets_bind. eapply rets_mono; [replace z with (z + 0 * step) by lia; apply Hf; auto; lia|].
  intros r Hr. apply IH; auto. intros j s' Hj Hs'. replace (z + step + j * step) with (z + (j + 1) * step) by lia.
  apply Hf; auto. lia.
Qed.

Lemma rets_tfor {R} (Q : R -> Prop) lo hi step (s : R) (f : Z -> R -> thr (elt S) R) : 0 < step ->
  Q s -> (forall z s, lo <= z < hi -> Q s -> rets Q (f z s)) -> rets Q (tfor lo hi step s f).
Proof.
  intros Hs H Hf. unfold tfor. destruct (Z.ltb_spec 0 step); [|lia].
  apply rets_titer_in; auto. intros j s' Hj Hs'. apply Hf; auto. unfold loop_count in Hj.
  assert (E : j + 1 <= (hi - lo + step - 1) / step) by lia.
  pose proof (Z.mul_div_le (hi - lo + step - 1) step Hs). nia.
Qed.

(** With fewer than eight rows, or nothing to sum, ans.vals[7] is never assigned. *)
Lemma inner_unset A B C m k K : m < 8 \/ k <= 0 ->
  touches BufA (-1) (cake_sgemv_haswell_inner_1x64x1 S add A B C m k K).
Proof.
  intros Hm. unfold cake_sgemv_haswell_inner_1x64x1.
  apply touches_bind_r. intros c. apply touches_bind_r. intros b.
  apply (touches_bind_post _ _ (fun st => snd st 7 = None)).
  - apply rets_tfor; [lia|reflexivity|]. intros mm st Hmm Hst. unfold inner_row. apply rets_bind.
    apply rets_mono with (Q := fun st => snd st 7 = None); [|auto].
    apply rets_tfor; [lia|exact Hst|]. intros kk [[p c'] ans] Hk Ha. cbn [snd] in Ha. unfold inner_pass. apply rets_bind.
    eapply rets_mono; [apply rets_any|]. intros a _. destruct (mm <? 8); cbn [rets snd]; [|exact I].
    destruct (Z.eqb_spec 7 mm); [exfalso; lia|exact Ha].
  - intros st Hst.
    replace (forallb _ _) with false; [cbn; exact I|]. symmetry.
    cbn [zseq forallb Z.add Pos.add Pos.succ]. rewrite Hst. now rewrite !andb_false_r.
Qed.

Lemma inner_undefined m k K mem0 : ~ (m = 8 /\ 0 < k) ->
  always_undefined (ppar_for 0 1 1 (fun _ => cake_sgemv_haswell_inner_1x64x1 S add (BufA, 0) (BufB, 0) (BufC, 0) m k K)) mem0.
Proof.
  intros Hn.
  assert (T : touches BufA (-1) (cake_sgemv_haswell_inner_1x64x1 S add (BufA, 0) (BufB, 0) (BufC, 0) m k K)).
  { destruct (Z_lt_le_dec 0 k); [|apply inner_unset; lia].
    destruct (Z_lt_le_dec m 8); [apply inner_unset; lia|]. apply inner_nine; lia. }
  apply (pout_exec BufA (-1)).
  - apply (pout_ppar1 _ _ _ _ _ 0); [lia|exact T].
  - unfold outside. destruct (live mem0 BufA); auto. lia.
Qed.

End Undefined.

(** ** When the product is right *)

Local Opaque zsum.

Lemma row_adds_64 (A : Z -> Z -> Z) (B : Z -> Z) r : zsum (fun j => A r j * B (j mod 64)) 64 = zsum (fun j => A r j * B j) 64.
Proof. apply zsum_ext. intros j Hj. now rewrite Z.mod_small. Qed.

Lemma leaves_unique {R} (P : prog Z R) m D D' : leaves_in_C P m D -> leaves_in_C P m D' ->
  forall i, 0 <= i < 8 -> D i = D' i.
Proof.
  intros [[o H1] H2] [_ H4] i Hi. destruct (H2 o H1) as (r & m' & -> & _ & E1 & _).
  destruct (H4 _ H1) as (r' & m'' & [= <- <-] & _ & E2 & _). specialize (E1 i Hi). specialize (E2 i Hi). congruence.
Qed.

Lemma leaves_ext {R} (P : prog Z R) m D D' : leaves_in_C P m D -> (forall i, 0 <= i < 8 -> D i = D' i) -> leaves_in_C P m D'.
Proof.
  intros [H1 H2] H. split; auto. intros o Ho. destruct (H2 o Ho) as (r & m' & -> & L & E1 & E2).
  exists r, m'. repeat split; auto. intros i Hi. rewrite <- H by auto. auto.
Qed.

Lemma inner_64 K A B C m : inner_operands m 64 K A B C ->
  leaves_in_C (ppar_for 0 1 1 (fun _ => cake_sgemv_haswell_inner_1x64x1 Zs Z.add (BufA, 0) (BufB, 0) (BufC, 0) 8 64 K)) m
    (fun i => zsum C 8 + zsum (fun r => zsum (fun j => A r j * B j) 64) (i + 1)).
Proof.
  intros H. pose proof (inner_leaves 1 K A B C ltac:(lia) m) as L. unfold row_adds in L. change (64 * 1) with 64 in L.
  eapply leaves_ext; [exact (L H)|]. intros i Hi. cbn beta. apply f_equal. apply zsum_ext.
  intros r Hr. apply (row_adds_64 A B r).
Qed.

Lemma inner_right_iff K A B C m : inner_operands m 64 K A B C ->
  leaves_in_C (ppar_for 0 1 1 (fun _ => cake_sgemv_haswell_inner_1x64x1 Zs Z.add (BufA, 0) (BufB, 0) (BufC, 0) 8 64 K)) m
    (fun i => C i + zsum (fun j => A i j * B j) 64) <->
  forall i, 0 <= i < 8 -> zsum C 8 + zsum (fun r => zsum (fun j => A r j * B j) 64) i = C i.
Proof.
  intros H. pose proof (inner_64 K A B C m H) as H64. split.
  - intros HR i Hi. pose proof (leaves_unique _ _ _ _ H64 HR i Hi) as E. cbn beta in E. rewrite zsum_1 in E by lia. lia.
  - intros HC. eapply leaves_ext; [exact H64|]. intros i Hi. cbn beta. rewrite zsum_1 by lia. pose proof (HC i Hi). lia.
Qed.

Lemma zsum_zero f n : (forall j, 0 <= j < n -> f j = 0) -> zsum f n = 0.
Proof.
  Local Transparent zsum.
  intros H. rewrite (zsum_ext f (fun _ => 0)) by exact H. unfold zsum. induction (Z.to_nat n); cbn [nsum]; lia.
Qed.

Local Opaque zsum.

Lemma inner_from_zero K A B C m : inner_operands m 64 K A B C -> (forall i, 0 <= i < 8 -> C i = 0) ->
  leaves_in_C (ppar_for 0 1 1 (fun _ => cake_sgemv_haswell_inner_1x64x1 Zs Z.add (BufA, 0) (BufB, 0) (BufC, 0) 8 64 K)) m
    (fun i => zsum (fun j => A i j * B j) 64) <->
  forall i, 0 <= i < 7 -> zsum (fun j => A i j * B j) 64 = 0.
Proof.
  intros H H0. assert (Z8 : zsum C 8 = 0) by now apply zsum_zero.
  transitivity (leaves_in_C (ppar_for 0 1 1 (fun _ => cake_sgemv_haswell_inner_1x64x1 Zs Z.add (BufA, 0) (BufB, 0) (BufC, 0) 8 64 K)) m
    (fun i => C i + zsum (fun j => A i j * B j) 64)).
  { split; intros HL; (eapply leaves_ext; [exact HL|]); intros i Hi; cbn beta; rewrite (H0 i Hi); lia. }
  rewrite (inner_right_iff K A B C m H), Z8. split.
  - intros HC i Hi. pose proof (HC i ltac:(lia)) as E1. pose proof (HC (i + 1) ltac:(lia)) as E2.
    rewrite zsum_1 in E2 by lia. rewrite H0 in E1, E2 by lia. lia.
  - intros HC i Hi. rewrite H0 by auto. rewrite zsum_zero; auto. intros j Hj. apply HC. lia.
Qed.
