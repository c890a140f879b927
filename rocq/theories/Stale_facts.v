(** * Which cells the kernels and the unpacking leave alone, in every finished execution. *)

From Coq Require Import ZArith List Bool Lia.
From Verif Require Import Lang Lang_facts ModelSizing ModelKernel ModelPack ModelSched ModelTop Keep_facts.
Import ListNotations.
Open Scope Z_scope.

Section Stale.

Variable S : scalar.
Notation T := (elt S).
Variable I : cellinv T.

(** Anything may be stored in [b]. *)
Definition anything (b : buf) : Prop := forall i v, I b i (Some v).

(** ** Packing into such an object *)

Lemma keep_copy0 pad dst i src j (Q : unit -> Prop) : anything (fst dst) -> Q tt -> tkeep I (copy0 S pad dst i src j) Q.
Proof.
  intros H HQ. unfold copy0, pstore, pload. destruct pad.
  - now apply tkeep_store.
  - apply tkeep_bind, tkeep_load1. intros v _. now apply tkeep_store.
Qed.

Lemma keep_seq2 {R R'} (t : thr T R) (t' : thr T R') Q : tkeep I t (fun _ => True) -> tkeep I t' Q -> tkeep I (tbind t (fun _ => t')) Q.
Proof. intros H H'. apply tkeep_bind. eapply tkeep_mono; [|exact H]. auto. Qed.

Lemma keep_tt {R} (t : thr T R) : tkeep I t (fun _ => True) -> tkeep I (tbind t (fun _ => TRet tt)) (fun _ => True).
Proof. intros H. apply keep_seq2; [exact H|exact Logic.I]. Qed.

Ltac packing := repeat first
  [ apply keep_tt | apply tkeep_any; intros | apply keep_seq2 | apply keep_copy0; [assumption|exact Logic.I] | exact Logic.I ].

Lemma keep_pack_ob_A A A_p M K m1 m2 mc kc m_r : anything (fst A_p) ->
  tkeep I (pack_ob_A_single_buf S A A_p M K m1 m2 mc kc m_r) (fun _ => True).
Proof. intros H. unfold pack_ob_A_single_buf. packing. Qed.

Lemma keep_pack_ob_B B B_p K N n1 kc nc n_r pad : anything (fst B_p) ->
  tkeep I (pack_ob_B_single_buf S B B_p K N n1 kc nc n_r pad) (fun _ => True).
Proof. intros H. unfold pack_ob_B_single_buf. packing. Qed.

Lemma keep_pack_B_nr B B_p N kc n_r : anything (fst B_p) -> tkeep I (pack_B_nr_x_kc S B B_p N kc n_r) (fun _ => True).
Proof. intros H. unfold pack_B_nr_x_kc. packing. Qed.

Lemma keep_pack_A_mr A A_p K kc m_r : anything (fst A_p) -> tkeep I (pack_A_mr_x_kc S A A_p K kc m_r) (fun _ => True).
Proof. intros H. unfold pack_A_mr_x_kc. packing. Qed.

Lemma keep_memset0 p n : (forall i, 0 <= i < n -> I (fst p) (snd p + i) (Some (zero S))) -> tkeep I (memset0 S p n) (fun _ => True).
Proof. intros H. unfold memset0, tfor_. apply tkeep_any. intros i _ Hi. apply tkeep_store; auto. Qed.

Ltac packp := repeat first
  [ apply pkeep_bind | apply pkeep_any; [intros|] | apply pkeep_par; [intros|]
  | apply pkeep_ret | exact Logic.I | (intros; exact Logic.I)
  | apply keep_pack_ob_A; assumption | apply keep_pack_ob_B; assumption
  | apply keep_pack_B_nr; assumption | apply keep_pack_A_mr; assumption ].

Lemma keep_packB_main g B B_p K N x n_r n1 ind1 nt : anything (fst B_p) ->
  pkeep I (packB_main S g B B_p K N x n_r n1 ind1 nt) (fun _ => True).
Proof. intros H. unfold packB_main, packB_elt. apply pkeep_par; [intros; packing|exact Logic.I]. Qed.

Lemma keep_packB_tail g B B_p K N x n_r n1 ind1 nt : anything (fst B_p) ->
  pkeep I (packB_tail S g B B_p K N x n_r n1 ind1 nt) (fun _ => True).
Proof. intros H. unfold packB_tail, packB_elt. apply pkeep_par; [intros; packing|exact Logic.I]. Qed.

Lemma pkeep_seq2 {R R'} (p : prog T R) (p' : prog T R') Q : pkeep I p (fun _ => True) -> pkeep I p' Q -> pkeep I (pbind p (fun _ => p')) Q.
Proof. intros H H'. apply pkeep_bind. eapply pkeep_mono; [|exact H]. auto. Qed.

Lemma keep_pack_A A A_p M K p x c s : anything (fst A_p) -> pkeep I (pack_A S A A_p M K p x c s) (fun _ => True).
Proof.
  intros H. unfold pack_A. destruct s; try exact Logic.I; cbv beta delta
    [pack_A_single_buf_k_first pack_A_single_buf_m_first pack_A_single_buf_n_first]; cbv zeta; packp.
Qed.

Lemma keep_pack_B B B_p K N p x c s : anything (fst B_p) -> pkeep I (pack_B S B B_p K N p x c s) (fun _ => True).
Proof.
  intros H. unfold pack_B. destruct s; try exact Logic.I; cbv beta delta [pack_B_k_first pack_B_m_first pack_B_n_first]; cbv zeta.
  all: try solve [packp].
  destruct (_ || _); [exact Logic.I|]. apply pkeep_bind. apply pkeep_any.
  - intros. apply pkeep_seq2; [now apply keep_packB_main|]. destruct (truthy _); [|exact Logic.I].
    apply pkeep_seq2; [now apply keep_packB_tail|exact Logic.I].
  - intros. destruct (truthy (n_c1 x)); [|exact Logic.I]. apply pkeep_seq2; [now apply keep_packB_main|].
    destruct (truthy _); [now apply keep_packB_tail|exact Logic.I].
Qed.

(** ** Kernels *)

Lemma keep_load_vec al p n (Q : (Z -> T) -> Prop) : (forall f, Q f) -> tkeep I (load_vec S al p n) Q.
Proof.
  intros HQ. unfold load_vec. eapply tkeep_mono; [intros; apply HQ|]. apply tkeep_any. intros j f _.
  apply tkeep_bind, tkeep_load. intros. exact Logic.I.
Qed.

Lemma keep_inner ar kmr knr n st : tkeep I (inner S ar kmr knr n st) (fun _ => True).
Proof.
  destruct st as [[A B] c]. unfold inner. apply tkeep_bind, keep_load_vec. intros b. apply tkeep_bind.
  eapply tkeep_mono; [intros; exact Logic.I|]. apply tkeep_any. intros. apply tkeep_bind, tkeep_load1. intros. exact Logic.I.
Qed.

Lemma keep_ukernel ar kmr knr A B C m n k :
  (forall e v, 0 <= e < kmr * knr -> I (fst C) (snd C + e) (Some v)) -> tkeep I (ukernel S ar kmr knr A B C m n k) (fun _ => True).
Proof.
  intros H. unfold ukernel. apply tkeep_bind, keep_load_vec. intros c.
  apply tkeep_bind. eapply tkeep_mono; cycle 1.
  - apply tkeep_any. intros i st _. do 3 (apply tkeep_bind; eapply tkeep_mono; [|apply keep_inner]; intros).
    apply keep_inner.
  - intros st _. apply tkeep_bind. eapply tkeep_mono; cycle 1.
    + apply tkeep_any. intros. apply keep_inner.
    + intros st' _. unfold store_vec, tfor_. apply tkeep_any. intros j _ Hj. apply tkeep_store; [now apply H|exact Logic.I].
Qed.

(** Kernel [kern] stores in the first [kk] elements of the tile of C it is given. *)
Definition within (kk : Z) (kern : ptr -> ptr -> ptr -> Z -> Z -> Z -> thr T unit) : Prop :=
  forall A B C m n k, (forall e v, 0 <= e < kk -> I (fst C) (snd C + e) (Some v)) -> tkeep I (kern A B C m n k) (fun _ => True).

Lemma within_min ar : within (MR_MIN ar * NR_MIN ar) (cake_sgemm_ukernel S ar).
Proof. intros A B C m n k H. unfold cake_sgemm_ukernel. now apply keep_ukernel. Qed.

Lemma within_map ar i j : within ((MR_MIN ar + i * MR_FACT ar) * (NR_MIN ar + j * NR_FACT ar)) (kernel_map S ar i j).
Proof. intros A B C m n k H. unfold kernel_map. destruct (_ && _); [now apply keep_ukernel|exact Logic.I]. Qed.

Lemma keep_tiles kk kern Ap Bp Cp mt nt kt m_r n_r : within kk kern ->
  (forall a b e v, 0 <= a < Z.quot nt n_r -> 0 <= b < Z.quot mt m_r -> 0 <= e < kk ->
     I (fst Cp) (snd Cp + (a * mt * n_r + b * m_r * n_r) + e) (Some v)) ->
  tkeep I (tile_loops S kern Ap Bp Cp mt nt kt m_r n_r) (fun _ => True).
Proof.
  intros HK H. unfold tile_loops, tfor_. apply tkeep_any. intros a _ Ha. apply tkeep_any. intros b _ Hb.
  apply HK. intros e v He. cbn [padd fst snd]. auto.
Qed.

(** ** Unpacking: the cell of tile (a, b), row i, column j, of a block with [rows] tiles per
    column of tiles *)
Lemma keep_unpack C C_p M N m1 n1 m2 mc nc m_r n_r : 0 < m_r -> 0 < n_r ->
  (forall a b i j v, 0 <= a -> a * n_r < nc -> 0 <= b -> b * m_r < mc -> 0 <= i < m_r -> 0 <= j < n_r ->
     n1 + a * n_r + j < N -> m1 + m2 + b * m_r + i < M ->
     I (fst C_p) (snd C_p + (((a * Z.of_nat (loop_count 0 mc m_r) + b) * m_r + i) * n_r + j)) (Some v) ->
     I (fst C) (snd C + (a * n_r + b * m_r * N + i * N + j)) (Some v)) ->
  tkeep I (unpack_ob_C_single_buf S C C_p M N m1 n1 m2 mc nc m_r n_r) (fun _ => True).
Proof.
  intros Hm Hn H. unfold unpack_ob_C_single_buf. set (R := Z.of_nat (loop_count 0 mc m_r)) in *.
  assert (Lr : Z.of_nat (loop_count 0 m_r 1) = m_r).
  { unfold loop_count. replace (m_r - 0 + 1 - 1) with m_r by lia. rewrite Z.div_1_r. lia. }
  assert (Lc : Z.of_nat (loop_count 0 n_r 1) = n_r).
  { unfold loop_count. replace (n_r - 0 + 1 - 1) with n_r by lia. rewrite Z.div_1_r. lia. }
  apply keep_tt.
  apply (tkeep_tfor I _ (fun a ind => ind = a * R * m_r * n_r)); [lia|lia| |auto].
  intros a ind Ha Ha' Hind. rewrite Z.add_0_l in *.
  apply (tkeep_tfor I _ (fun b ind => ind = (a * R + b) * m_r * n_r)); [lia|lia| |].
  2:{ intros s' ->. fold R. ring. }
  intros b ind2 Hb Hb' Hind2. rewrite Z.add_0_l in *.
  apply (tkeep_tfor I _ (fun i ind => ind = ((a * R + b) * m_r + i) * n_r)); [lia|lia| |].
  2:{ intros s' ->. rewrite Lr. ring. }
  intros i ind3 Hi Hi' Hind3. replace (0 + i * 1) with i in * by lia.
  apply (tkeep_tfor I _ (fun j ind => ind = ((a * R + b) * m_r + i) * n_r + j)); [lia|lia| |].
  2:{ intros s' ->. rewrite Lc. ring. }
  intros j ind4 Hj Hj' Hind4. replace (0 + j * 1) with j in * by lia.
  apply keep_seq2; [|apply tkeep_ret; lia].
  destruct ((n1 + a * n_r + j <? N) && (m1 + m2 + b * m_r + i <? M)) eqn:G; [|exact Logic.I].
  apply andb_prop in G. destruct G as (G1 & G2). apply Z.ltb_lt in G1, G2.
  unfold pload, pstore. apply tkeep_bind, tkeep_load1. intros v Hv. apply tkeep_store; [|exact Logic.I].
  subst ind4. apply (H a b i j v); auto; lia.
Qed.

End Stale.
