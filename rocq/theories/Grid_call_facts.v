(** * Consequences for cake_sgemm_2d and the choice of its grid. *)

From Coq Require Import ZArith List Bool Lia Permutation Znumtheory.
From Verif Require Import Lang Lang_facts Spec SpecTop SpecOnline ModelSizing ModelKernel ModelPack ModelSched ModelTop
     Kernel_facts Sizing_facts Init_facts CallAll_facts Exec Exec_facts Misc_facts Mult_facts
     Grid2_facts Grid_tab_facts Top2d_facts Online_facts Witness Witness_facts Refute_facts.
Import ListNotations.
Open Scope Z_scope.

Section Grid.

Variable S : scalar.
Notation T := (elt S).
Variables (F : fpenv) (ar : arch) (q : cntx) (rows M N K p : Z) (c : cntx) (mcu kcu ncu : Z).
Hypothesis L : legal_2d F ar rows c M N K p mcu kcu ncu.

Lemma g2d_product :
  exists ord, orders K ord /\
    forall A B m0, caller m0 M N K A B -> A_rim m0 M K (mr c) -> B_rim m0 N K (nr c) 0 ->
      always (cake_sgemm_2d S F ar q rows M N K p (Some c) mcu kcu ncu) m0
        (fun _ m' => holds m' BufC M N (product S A B ord) /\ only_C_changed m0 m' M N).
Proof. exact (ok_2d S F ar q rows M N K p (Some c) c mcu kcu ncu eq_refl L). Qed.

Lemma g2d_product_null : c = q ->
  exists ord, orders K ord /\
    forall A B m0, caller m0 M N K A B -> A_rim m0 M K (mr c) -> B_rim m0 N K (nr c) 0 ->
      always (cake_sgemm_2d S F ar q rows M N K p None mcu kcu ncu) m0
        (fun _ m' => holds m' BufC M N (product S A B ord) /\
           (forall i, dat m' BufA i = dat m0 BufA i) /\ (forall i, dat m' BufB i = dat m0 BufB i)).
Proof.
  intros Eq. destruct (ok_2d S F ar q rows M N K p None c mcu kcu ncu Eq L) as (ord & H1 & H3).
  exists ord. split; [auto|]. intros A B m0 Hc RA RB.
  eapply always_mono; [exact (H3 A B m0 Hc RA RB)|]. cbv beta. intros r m' (E & (G & D)).
  destruct Hc as ((ba & A1 & _) & _ & (bb & B1 & _) & _).
  split; [exact E|split].
  - intros i. rewrite D; [reflexivity| |intros (? & _); discriminate]. cbn [start]. rewrite Frame_facts.live_alloc. cbn. congruence.
  - intros i. rewrite D; [reflexivity| |intros (? & _); discriminate]. cbn [start]. rewrite Frame_facts.live_alloc. cbn. congruence.
Qed.

Lemma g2d_det A B m0 : caller m0 M N K A B -> A_rim m0 M K (mr c) -> B_rim m0 N K (nr c) 0 ->
  forall o1 o2, pexec (cake_sgemm_2d S F ar q rows M N K p (Some c) mcu kcu ncu) m0 o1 ->
    pexec (cake_sgemm_2d S F ar q rows M N K p (Some c) mcu kcu ncu) m0 o2 ->
  exists m1 m2, o1 = Done tt m1 /\ o2 = Done tt m2 /\ same_mem m1 m2.
Proof.
  intros Hc RA RB. destruct g2d_product as (ord & _ & G).
  intros o1 o2 E1 E2.
  assert (G' : always (cake_sgemm_2d S F ar q rows M N K p (Some c) mcu kcu ncu) m0
     (fun r m' => r = tt /\ holds m' BufC M N (product S A B ord) /\ only_C_changed m0 m' M N)).
  { eapply always_mono; [exact (G A B m0 Hc RA RB)|]. cbv beta. intros [] m' H. auto. }
  destruct (always_det _ _ _ G' o1 o2 E1 E2) as ([] & m1 & m2 & H). eauto.
Qed.

Lemma g2d_safe A B m0 : caller m0 M N K A B ->
  (mr c | M) \/ A_rim m0 M K (mr c) -> (nr c | N) \/ B_rim m0 N K (nr c) 0 ->
  (exists o, pexec (cake_sgemm_2d S F ar q rows M N K p (Some c) mcu kcu ncu) m0 o) /\
  forall o, pexec (cake_sgemm_2d S F ar q rows M N K p (Some c) mcu kcu ncu) m0 o -> exists m', o = Done tt m'.
Proof.
  intros Hc RA RB. destruct (legal_2d_dims _ _ _ _ _ _ _ _ _ _ _ L) as (Hm & Hn & _).
  assert (RA' : A_rim m0 M K (mr c)) by (destruct RA; auto using A_rim_vacuous).
  assert (RB' : B_rim m0 N K (nr c) 0) by (destruct RB; auto using w_rim).
  destruct g2d_product as (ord & _ & G). destruct (G A B m0 Hc RA' RB') as (G1 & G2). split; [exact G1|].
  intros o Ho. destruct (G2 o Ho) as ([] & m' & E & _). eauto.
Qed.

End Grid.

(** ** The choice of the grid *)

Lemma grid_found F M N p cores rows :
  0 < M -> 0 < p -> 0 <= fp_pn F p N M -> forall v, grid_dims_2d F M N p cores rows = CRet v ->
  1 <= v <= p /\ (v | p) /\
  ((aim F M N p | p) -> v = aim F M N p) /\
  (~ (aim F M N p | p) -> 2 <= v /\ forall d, (d | p) -> 2 <= d -> Z.abs (v - aim F M N p) <= Z.abs (d - aim F M N p)).
Proof.
  intros HM Hp Hf v Ev. destruct (grid_def F M N p cores rows ltac:(lia) Hp Hf) as (_ & H).
  rewrite (want_aim F M N p Hp Hf) in H. exact (H v Ev).
Qed.

Lemma grid_defined F M N p cores rows :
  0 < M -> 0 < p -> 0 <= fp_pn F p N M ->
  (exists v, grid_dims_2d F M N p cores rows = CRet v) <-> grid_exists F M N p cores rows.
Proof.
  intros HM Hp Hf. destruct (grid_def F M N p cores rows ltac:(lia) Hp Hf) as (H & _).
  rewrite (want_aim F M N p Hp Hf) in H. rewrite H. unfold grid_exists. tauto.
Qed.

Lemma grid_no_exit F M N p cores rows : grid_dims_2d F M N p cores rows <> CExit.
Proof.
  assert (T : forall a b c d, grid_tab a b c d <> CExit).
  { intros. unfold grid_tab. destruct (_ && _ && _ && _); discriminate. }
  assert (U : forall n i, scan_up cores rows p n i <> CExit).
  { induction n; intros i; cbn [scan_up]; [discriminate|]. destruct (grid_tab cores rows p i) as [[]| |] eqn:E; cbn; try discriminate; auto.
    intros _; eapply T; eauto. }
  assert (D : forall n i, scan_down cores rows p n i <> CExit).
  { induction n; intros i; cbn [scan_down]; [discriminate|]. destruct (grid_tab cores rows p i) as [[]| |] eqn:E; cbn; try discriminate; auto.
    intros _; eapply T; eauto. }
  unfold grid_dims_2d. destruct (M =? 0); [discriminate|].
  set (pn2 := if p <? _ then p else _).
  destruct (grid_tab cores rows p (pn2 - 1)) as [[]| |] eqn:E; cbn [cbind]; try discriminate.
  2:{ intros _. eapply T; eauto. }
  destruct (scan_up _ _ _ _ _) as [h| |] eqn:E1; cbn [cbind]; try discriminate.
  2:{ intros _. eapply U; eauto. }
  destruct (scan_down _ _ _ _ _) as [l| |] eqn:E2; cbn [cbind]; try discriminate.
  2:{ intros _. eapply D; eauto. }
  destruct h, l; discriminate.
Qed.

(** a prime number of cores has no grid but 1 x p and p x 1 *)
Lemma grid_prime_undef F M N p cores rows :
  0 < M -> prime p -> 2 <= fp_pn F p N M < p -> grid_dims_2d F M N p cores rows = CUB.
Proof.
  intros HM Hp Hf. pose proof (prime_ge_2 p Hp).
  pose proof (grid_defined F M N p cores rows HM ltac:(lia) ltac:(lia)) as G.
  destruct (grid_dims_2d F M N p cores rows) as [v| |] eqn:E; [exfalso|reflexivity|now apply grid_no_exit in E].
  destruct (proj1 G (ex_intro _ v eq_refl)) as (_ & _ & H1). unfold aim in H1.
  replace (Z.max 1 (Z.min p (fp_pn F p N M))) with (fp_pn F p N M) in H1 by lia.
  assert (X : forall d, 2 <= d < p -> ~ (d | p)).
  { intros d Hd Hx. destruct (prime_divisors p Hp d Hx) as [Y|[Y|[Y|Y]]]; lia. }
  destruct H1 as [H1|(d & Hd & H1)]; [apply (X (fp_pn F p N M)); auto|apply (X d); auto; lia].
Qed.

Lemma grid_beyond_undef F M N p cores rows :
  0 < M -> 0 < p -> 0 <= fp_pn F p N M -> cores < p -> grid_dims_2d F M N p cores rows = CUB.
Proof.
  intros HM Hp Hf Hc. pose proof (grid_defined F M N p cores rows HM Hp Hf) as G.
  destruct (grid_dims_2d F M N p cores rows) as [v| |] eqn:E; [exfalso|reflexivity|now apply grid_no_exit in E].
  destruct (proj1 G (ex_intro _ v eq_refl)) as (H & _). lia.
Qed.

(** ** Witnesses *)

(** round(sqrt(p*N/M)) computed exactly *)
Definition wFr : fpenv :=
  FP (fp_mcL2 wF) (fp_mcL3 wF) (fp_mul wF) (fp_mkn wF) (fp_nkm wF) (fp_mc2d wF) (fp_kcmax wF)
     (fun p N M => (Z.sqrt (4 * p * N / M) + 1) / 2).

Lemma w_legal_2d M N K p k : 0 < M -> 0 < N -> 0 <= K -> 0 < k ->
  grid_exists wFr M N p 4 4 -> 0 < p -> legal_2d wFr haswell 4 wctx M N K p 6 k 16.
Proof.
  intros. unfold legal_2d. repeat split; auto; try apply w_arch; try apply H3.
  left. cbn. repeat split; try lia. exists 1. reflexivity.
Qed.

Definition w2d (M N K p : Z) : prog Z unit := cake_sgemm_2d Zs wFr haswell wctx 4 M N K p (Some wctx) 6 1 16.

Lemma g2d_unsafe :
  (exists M N K A B m0, legal_2d wFr haswell 4 wctx M N K 1 6 1 16 /\ caller m0 M N K A B /\ (nr wctx | N) /\
     pexec (w2d M N K 1) m0 Undef) /\
  (exists M N K A B m0, legal_2d wFr haswell 4 wctx M N K 1 6 1 16 /\ caller m0 M N K A B /\ (mr wctx | M) /\
     pexec (w2d M N K 1) m0 Undef).
Proof.
  assert (G : forall M N, grid_exists wFr M N 1 4 4 <-> 0 <= fp_pn wFr 1 N M).
  { intros M N. unfold grid_exists, aim. split; [tauto|]. intros H. split; [lia|split; [auto|]].
    left. replace (Z.max 1 (Z.min 1 (fp_pn wFr 1 N M))) with 1 by lia. apply Z.divide_refl. }
  split.
  - exists 1, 16, 1. do 2 eexists. exists (wmem 1 16 1).
    split; [apply w_legal_2d; try lia; apply G; cbn; lia|split; [apply w_caller|split; [exists 1; reflexivity|]]].
    apply (refute_by_undef _ (wmem 1 16 1) (fun _ _ => True)). vm_compute; reflexivity.
  - exists 6, 17, 1. do 2 eexists. exists (wmem 6 17 1).
    split; [apply w_legal_2d; try lia; apply G; cbn; lia|split; [apply w_caller|split; [exists 1; reflexivity|]]].
    apply (refute_by_undef _ (wmem 6 17 1) (fun _ _ => True)). vm_compute; reflexivity.
Qed.

(** a square matrix on three cores *)
Lemma g2d_three_cores :
  exists M N K A B m0, caller m0 M N K A B /\ (mr wctx | M) /\ (nr wctx | N) /\ M = N /\ 3 < ncores wctx /\
    pexec (w2d M N K 3) m0 Undef.
Proof.
  exists 48, 48, 1. do 2 eexists. exists (wmem 48 48 1).
  split; [apply w_caller|split; [exists 8; reflexivity|split; [exists 3; reflexivity|split; [reflexivity|split; [reflexivity|]]]]].
  apply (refute_by_undef _ (wmem 48 48 1) (fun _ _ => True)). vm_compute; reflexivity.
Qed.
