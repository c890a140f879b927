(** * The other entry points on floats: accuracy and exact integers. *)

From Coq Require Import ZArith Reals List Bool Lia Lra.
From Flocq Require Import Core BinarySingleNaN.
From Verif Require Import Lang Spec SpecTop SpecOnline SpecTile SpecTol SpecSingle ModelSizing ModelIEEE ModelSingle ModelTop
     Kernel_facts Lang_facts Mult_facts Single_facts SingleTop_facts Online_facts Grid_call_facts Small2d_facts Machine_facts Tol_facts.
Open Scope Z_scope.

(** what a call that leaves the product behind leaves behind on floats *)
Lemma product_all_accurate A B M N K ord i j : 0 <= K -> orders K ord -> all_finite M K A -> all_finite K N B ->
  0 <= i < M -> 0 <= j < N -> no_overflow K (mass A B K i j) ->
  finite (product Single A B ord i j) /\
  accurate K (product Single A B ord i j) (exact A B K i j) (mass A B K i j).
Proof.
  intros HK Ho HA HB Hi Hj Hn.
  assert (finite (product Single A B ord i j)) by (eapply product_finite; eauto).
  split; [auto|]. eapply product_accurate; eauto.
Qed.

Lemma zrange_orders K : orders K (fun _ _ => zrange 0 K).
Proof. intros i j. apply Permutation.Permutation_refl. Qed.

Section Calls.
Variables (F : fpenv) (ar : arch) (q : cntx) (M N K p : Z) (c : cntx) (A B : Z -> Z -> single) (m0 : mem single).
Hypotheses (Hc : caller m0 M N K A B) (HAr : A_rim m0 M K (mr c)) (HBr : B_rim m0 N K (nr c) 0).

Definition good (m' : mem single) : Prop :=
  exists C, holds m' BufC M N C /\ forall i j, 0 <= i < M -> 0 <= j < N ->
    finite (C i j) /\ accurate K (C i j) (exact A B K i j) (mass A B K i j).
Definition goodZ (a b : Z -> Z -> Z) (m' : mem single) : Prop :=
  exists C, holds m' BufC M N C /\ forall i j, 0 <= i < M -> 0 <= j < N -> is_int (C i j) (exactZ a b K i j).

Section Acc.
Hypotheses (HA : all_finite M K A) (HB : all_finite K N B)
  (Hn : forall i j, 0 <= i < M -> 0 <= j < N -> no_overflow K (mass A B K i j)).

Lemma prod_good ord m' : 0 <= K -> orders K ord -> holds m' BufC M N (product Single A B ord) -> good m'.
Proof.
  intros HK Ho H. eexists. split; [exact H|]. intros i j Hi Hj.
  eapply product_all_accurate; eauto.
Qed.

Lemma online_accurate so mcu kcu ncu :
  legal F ar KMN c M N K p mcu kcu ncu -> (so = true -> one_thread M N K p (mr c)) ->
  always (cake_sgemm_online Single so F ar q M N K p (Some c) mcu kcu ncu) m0 (fun _ m' => good m').
Proof.
  intros L Hs. destruct (online_product Single so F ar q M N K p c mcu kcu ncu L Hs) as (ord & c' & H1 & _ & H3).
  eapply always_mono; [apply (H3 A B m0 Hc HAr HBr)|]. cbv beta. intros r m' (_ & E & _).
  apply (prod_good ord); auto. destruct L as (_ & _ & _ & _ & ? & _). auto.
Qed.

Lemma g2d_accurate rows mcu kcu ncu :
  legal_2d F ar rows c M N K p mcu kcu ncu ->
  always (cake_sgemm_2d Single F ar q rows M N K p (Some c) mcu kcu ncu) m0 (fun _ m' => good m').
Proof.
  intros L. destruct (g2d_product Single F ar q rows M N K p c mcu kcu ncu L) as (ord & H1 & H3).
  eapply always_mono; [apply (H3 A B m0 Hc HAr HBr)|]. cbv beta. intros r m' (E & _).
  apply (prod_good ord); auto. destruct L as (_ & _ & _ & _ & ? & _). auto.
Qed.

Lemma small_accurate rows pn :
  legal_small F ar rows c M N K p pn ->
  always (cake_sgemm_2d_small Single F ar q rows M N K p (Some c)) m0 (fun _ m' => good m').
Proof.
  intros L. pose proof (small_product Single F ar q rows M N K p pn c L A B m0 Hc HAr HBr) as H3.
  eapply always_mono; [exact H3|]. cbv beta. intros r m' (E & _).
  eapply prod_good; [|apply zrange_orders|exact E]. destruct L as (_ & _ & _ & _ & ? & _). auto.
Qed.
End Acc.

Section Int.
Variables (a b : Z -> Z -> Z).
Hypotheses (HA : forall i k, 0 <= i < M -> 0 <= k < K -> is_int (A i k) (a i k))
  (HB : forall k j, 0 <= k < K -> 0 <= j < N -> is_int (B k j) (b k j))
  (Hn : forall i j, 0 <= i < M -> 0 <= j < N -> massZ a b K i j <= 2 ^ 24).

Lemma prod_goodZ ord m' : 0 <= K -> orders K ord -> holds m' BufC M N (product Single A B ord) -> goodZ a b m'.
Proof.
  intros HK Ho H. eexists. split; [exact H|]. intros i j Hi Hj. eapply product_int; eauto.
Qed.

Lemma online_int so mcu kcu ncu :
  legal F ar KMN c M N K p mcu kcu ncu -> (so = true -> one_thread M N K p (mr c)) ->
  always (cake_sgemm_online Single so F ar q M N K p (Some c) mcu kcu ncu) m0 (fun _ m' => goodZ a b m').
Proof.
  intros L Hs. destruct (online_product Single so F ar q M N K p c mcu kcu ncu L Hs) as (ord & c' & H1 & _ & H3).
  eapply always_mono; [apply (H3 A B m0 Hc HAr HBr)|]. cbv beta. intros r m' (_ & E & _).
  apply (prod_goodZ ord); auto. destruct L as (_ & _ & _ & _ & ? & _). auto.
Qed.

Lemma g2d_int rows mcu kcu ncu :
  legal_2d F ar rows c M N K p mcu kcu ncu ->
  always (cake_sgemm_2d Single F ar q rows M N K p (Some c) mcu kcu ncu) m0 (fun _ m' => goodZ a b m').
Proof.
  intros L. destruct (g2d_product Single F ar q rows M N K p c mcu kcu ncu L) as (ord & H1 & H3).
  eapply always_mono; [apply (H3 A B m0 Hc HAr HBr)|]. cbv beta. intros r m' (E & _).
  apply (prod_goodZ ord); auto. destruct L as (_ & _ & _ & _ & ? & _). auto.
Qed.

Lemma small_int rows pn :
  legal_small F ar rows c M N K p pn ->
  always (cake_sgemm_2d_small Single F ar q rows M N K p (Some c)) m0 (fun _ m' => goodZ a b m').
Proof.
  intros L. pose proof (small_product Single F ar q rows M N K p pn c L A B m0 Hc HAr HBr) as H3.
  eapply always_mono; [exact H3|]. cbv beta. intros r m' (E & _).
  eapply prod_goodZ; [|apply zrange_orders|exact E]. destruct L as (_ & _ & _ & _ & ? & _). auto.
Qed.
End Int.
End Calls.

(** ** An even number of cores on a real machine *)

Lemma grid_exists_even F M N p cores rows :
  0 < p -> Z.even p = true -> p <= cores < p + rows -> 0 <= fp_pn F p N M -> grid_exists F M N p cores rows.
Proof.
  intros Hp He Hr Hn. split; [auto|split; [auto|]]. apply Z.even_spec in He. destruct He as (h & ->).
  assert (Ha : 1 <= aim F M N (2 * h)) by (unfold aim; lia).
  destruct (Z.eq_dec (aim F M N (2 * h)) 1) as [-> |H1]; [left; apply Z.divide_1_l|].
  destruct (Z.eq_dec (aim F M N (2 * h)) 2) as [-> |H2]; [left; exists h; lia|].
  right. exists 2. split; [lia|]. exists h. lia.
Qed.

Lemma legal_2d_machine ar c rows M N K p :
  arch_ok ar -> ctx_min ar c -> machine c ->
  bytes (mr c) 1 (nr c) <= L1 c -> 4 * (mr c * mr c + mr c * nr c + mr c * mr c) <= L2 c ->
  0 < M < 2 ^ 31 -> 0 < N < 2 ^ 31 -> 0 <= K -> 0 < p -> Z.even p = true -> p <= ncores c < p + rows ->
  legal_2d ieee ar rows c M N K p 0 0 0.
Proof.
  intros Har Hc Hma H1 H2 HM HN HK Hp He Hr.
  split; [auto|]. split; [auto|]. do 4 (split; [lia|]). split.
  - assert (p <= 2 ^ 10) by (destruct Hma as (_ & _ & ? & _); lia).
    apply grid_exists_even; auto. destruct (grid_about p N M) as (? & _); try lia. nia.
  - apply ieee_2d_tiles; auto.
Qed.

Lemma g2d_product_machine (S : scalar) ar q c rows M N K p :
  arch_ok ar -> ctx_min ar c -> machine c ->
  bytes (mr c) 1 (nr c) <= L1 c -> 4 * (mr c * mr c + mr c * nr c + mr c * mr c) <= L2 c ->
  0 < M < 2 ^ 31 -> 0 < N < 2 ^ 31 -> 0 <= K -> 0 < p -> Z.even p = true -> p <= ncores c < p + rows ->
  exists ord, orders K ord /\
    forall A B m0, caller m0 M N K A B -> A_rim m0 M K (mr c) -> B_rim m0 N K (nr c) 0 ->
      always (cake_sgemm_2d S ieee ar q rows M N K p (Some c) 0 0 0) m0
        (fun _ m' => holds m' BufC M N (product S A B ord) /\ only_C_changed m0 m' M N).
Proof. intros. apply g2d_product. now apply legal_2d_machine. Qed.
