(** * Every finished call of a multiplication function. *)

From Coq Require Import ZArith List Bool Lia.
From Verif Require Import Lang Lang_facts Spec SpecTop SpecEvery ModelSizing ModelTop Footprint_facts Every_facts
     Det_facts Mult_facts NfOver_facts Grid_call_facts Small2d_facts SpecOnline ModelPack ModelSched SpecTouch.
Open Scope Z_scope.

Lemma every_frame S oc R (call : prog (elt S) R) : gemm_call S oc R call ->
  forall l, pfr Wlib call l (fun _ l' => kept oc l l').
Proof.
  intros [] l; [apply sgemm_frame|apply grid_frame|apply small_frame|apply online_frame|apply test_frame].
Qed.

Lemma every_inputs S oc R (call : prog (elt S) R) : gemm_call S oc R call ->
  forall m r m', pexec call m (Done r m') ->
  (forall i, dat m' BufA i = dat m BufA i) /\ (forall i, dat m' BufB i = dat m BufB i) /\
  (forall b i, ~ own b -> b <> BufC -> dat m' b i = dat m b i).
Proof.
  intros Hc m r m' Hx. destruct (frame_end S call oc m r m' (every_frame S oc R call Hc) Hx) as (A & _).
  split; [intros i; apply A; [exact (fun f => f)|discriminate]|split; [intros i; apply A; [exact (fun f => f)|discriminate]|exact A]].
Qed.

Lemma every_live S c R (call : prog (elt S) R) : gemm_call S (Some c) R call ->
  forall m r m', pexec call m (Done r m') -> forall b, live m' b = live m b.
Proof.
  intros Hc m r m' Hx. destruct (frame_end S call (Some c) m r m' (every_frame S _ R call Hc) Hx) as (_ & _ & A). exact A.
Qed.

Lemma every_null S R (call : prog (elt S) R) : gemm_call S None R call ->
  forall m r m', pexec call m (Done r m') ->
  live m (BufX 1) = None /\ live m' (BufX 1) <> None /\ forall b, b <> BufX 1 -> live m' b = live m b.
Proof.
  intros Hc m r m' Hx. destruct (frame_end S call None m r m' (every_frame S _ R call Hc) Hx) as (_ & A & B).
  split; [apply A; reflexivity|split; [rewrite B; cbn; discriminate|]]. intros b Hb. rewrite B.
  destruct (buf_eqb_spec cbuf b) as [E|E]; [exfalso; apply Hb; symmetry; exact E|reflexivity].
Qed.

Lemma every_det S oc R (call : prog (elt S) R) : gemm_call S oc R call ->
  forall m, ~ pexec call m Undef ->
  forall o1 o2, pexec call m o1 -> pexec call m o2 ->
  (exists r m1 m2, o1 = Done r m1 /\ o2 = Done r m2 /\ same_mem m1 m2) \/ (o1 = Exited /\ o2 = Exited).
Proof.
  intros _ m Hu o1 o2 H1 H2. pose proof (no_ub_deterministic call m o1 o2 Hu H1 H2) as E.
  destruct o1 as [r1 m1| |], o2 as [r2 m2| |]; try contradiction; [left|right; auto].
  destruct E as (-> & E). exists r2, m1, m2. auto.
Qed.

Lemma M_beta_det S F ar q (nz : elt S -> bool) M N K p c alpha beta mcu kcu ncu t :
  legal F ar MKN c M N K p mcu kcu ncu -> nz beta = true -> tail_ok c K p mcu kcu ncu t ->
  forall A B C0 m0, caller m0 M N K A B -> B_rim m0 N K (nr c) t -> holds m0 BufC M N C0 ->
  forall o1 o2,
  pexec (cake_sgemm S F ar q nz M N K p (Some c) false false alpha beta MKN mcu kcu ncu) m0 o1 ->
  pexec (cake_sgemm S F ar q nz M N K p (Some c) false false alpha beta MKN mcu kcu ncu) m0 o2 ->
  exists r m1 m2, o1 = Done r m1 /\ o2 = Done r m2 /\ same_mem m1 m2.
Proof.
  intros L Hb Ht A B C0 m0 Hc Hr HC. destruct (M_first_plus S F ar q nz M N K p c alpha beta mcu kcu ncu t L Hb Ht) as (ord & c' & _ & _ & G).
  exact (always_det _ _ _ (G A B C0 m0 Hc Hr HC)).
Qed.

Lemma N_beta_det S F ar q (nz : elt S -> bool) M N K p c alpha beta mcu kcu ncu x c1 :
  legal F ar NKM c M N K p mcu kcu ncu -> nz beta = true ->
  init_block_dims F M N K p c NKM mcu kcu ncu = CRet (x, c1) ->
  n_first_C_fits M N p (mr c) (nr c) (m_c x) (n_c x) ->
  forall A B C0 m0, caller m0 M N K A B -> holds m0 BufC M N C0 -> B_rim m0 N K (nr c) (k_tail K p (k_c x)) ->
  forall o1 o2,
  pexec (cake_sgemm S F ar q nz M N K p (Some c) false false alpha beta NKM mcu kcu ncu) m0 o1 ->
  pexec (cake_sgemm S F ar q nz M N K p (Some c) false false alpha beta NKM mcu kcu ncu) m0 o2 ->
  exists r m1 m2, o1 = Done r m1 /\ o2 = Done r m2 /\ same_mem m1 m2.
Proof.
  intros L Hb Hi Hf A B C0 m0 Hc HC Hr. destruct (nf_plus_ok S F ar q nz M N K p c alpha beta mcu kcu ncu x c1 L Hb Hi Hf) as (ord & _ & G).
  exact (always_det _ _ _ (G A B C0 m0 Hc HC Hr)).
Qed.

Lemma small_grid_det S F ar q rows M N K p pn c : legal_small F ar rows c M N K p pn ->
  forall A B m0, caller m0 M N K A B -> A_rim m0 M K (mr c) -> B_rim m0 N K (nr c) 0 ->
  forall o1 o2,
  pexec (cake_sgemm_2d_small S F ar q rows M N K p (Some c)) m0 o1 ->
  pexec (cake_sgemm_2d_small S F ar q rows M N K p (Some c)) m0 o2 ->
  exists r m1 m2, o1 = Done r m1 /\ o2 = Done r m2 /\ same_mem m1 m2.
Proof.
  intros L A B m0 Hc HA HB. eapply always_det. eapply small_product; eauto.
Qed.
