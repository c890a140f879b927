(** * Accuracy of C + A*B on floats. *)

From Coq Require Import ZArith Reals List Bool Lia Lra Permutation.
From Flocq Require Import Core BinarySingleNaN.
From Verif Require Import Lang Spec SpecTop SpecTouch SpecSingle ModelSizing ModelIEEE ModelSingle ModelTop
     Double_facts IEEE32_facts Lang_facts Kernel_facts CallAll_facts Mult_facts NfOver_facts Trans_facts Util_facts Single_facts SingleTop_facts.
Open Scope Z_scope.

Section Plus.
Variables (A B C0 : Z -> Z -> single) (M N K : Z).
Hypothesis HK : 0 <= K.
Hypothesis HA : all_finite M K A.
Hypothesis HB : all_finite K N B.
Hypothesis HC : all_finite M N C0.

Lemma plus_start i j : (Rabs (val (C0 i j) - val (C0 i j)) <= (gg 0 - 1) * Rabs (val (C0 i j)) + INR 0 * gg 0 * eta)%R.
Proof. replace (val (C0 i j) - val (C0 i j))%R with 0%R by ring. rewrite Rabs_R0. change (INR 0) with 0%R. change (gg 0) with 1%R. lra. Qed.

Lemma plus_fin ord i j : orders K ord -> 0 <= i < M -> 0 <= j < N ->
  no_overflow K (Rabs (val (C0 i j)) + mass A B K i j) -> finite (product_plus Single A B C0 ord i j).
Proof.
  intros Ho Hi Hj Hn. destruct (ord_facts K _ HK (Ho i j)) as (E1 & _ & E3).
  unfold product_plus. apply (dot_fma_finite _ _ (ord i j) (C0 i j) (val (C0 i j)) (Rabs (val (C0 i j))) 0).
  - now apply (ops_finite A B M N K).
  - now apply HC.
  - apply Rle_refl.
  - apply plus_start.
  - rewrite E3, bpow128. change (0 + length (ord i j))%nat with (length (ord i j)). rewrite E1.
    rewrite INR_IZR_INZ, Z2Nat.id by auto. exact Hn.
Qed.

Lemma plus_acc ord i j : orders K ord -> 0 <= i < M -> 0 <= j < N ->
  finite (product_plus Single A B C0 ord i j) ->
  accurate K (product_plus Single A B C0 ord i j) (val (C0 i j) + exact A B K i j) (Rabs (val (C0 i j)) + mass A B K i j).
Proof.
  intros Ho Hi Hj Hf. destruct (ord_facts K _ HK (Ho i j)) as (E1 & _ & E3).
  unfold product_plus in *.
  pose proof (dot_fma (A i) (fun k => B k j) (ord i j) (C0 i j) (val (C0 i j)) (Rabs (val (C0 i j))) 0
     (ops_finite A B M N K HK HA HB _ i j (Ho i j) Hi Hj)) as X.
  cbv zeta in X. rewrite !E3 in X. change (0 + length (ord i j))%nat with (length (ord i j)) in X. rewrite E1 in X.
  rewrite (INR_IZR_INZ (Z.to_nat K)), Z2Nat.id in X by auto. apply X; [apply Rle_refl|apply plus_start|exact Hf].
Qed.
End Plus.

Lemma plus_int A B C0 a b c0 M N K ord i j : 0 <= K -> orders K ord -> 0 <= i < M -> 0 <= j < N ->
  (forall i k, 0 <= i < M -> 0 <= k < K -> is_int (A i k) (a i k)) ->
  (forall k j, 0 <= k < K -> 0 <= j < N -> is_int (B k j) (b k j)) ->
  is_int (C0 i j) (c0 i j) -> Z.abs (c0 i j) + massZ a b K i j <= 2 ^ 24 ->
  is_int (product_plus Single A B C0 ord i j) (c0 i j + exactZ a b K i j).
Proof.
  intros HK Ho Hi Hj HA HB HC H. unfold product_plus, exactZ, massZ in *.
  rewrite <- (fold_perm (fun k => a i k * b k j) _ _ (Ho i j)).
  rewrite <- (fold_perm (fun k => Z.abs (a i k * b k j)) _ _ (Ho i j)) in H.
  apply (dot_int (A i) (fun k => B k j) (a i) (fun k => b k j) (ord i j) (C0 i j) (c0 i j) (Z.abs (c0 i j))); auto; try lia.
  intros k Hk. apply (Permutation_in _ (Ho i j)), in_zrange in Hk. split; [apply HA|apply HB]; lia.
Qed.

(** An accumulating call: what M-first and N-first leave (C15, C16) *)
Definition accumulates (P : prog single cntx) (m0 : mem single) (M N K : Z) (A B C0 : Z -> Z -> single) : Prop :=
  exists ord, orders K ord /\ always P m0 (fun _ m' => holds m' BufC M N (product_plus Single A B C0 ord)).

Lemma acc_accurate P m0 M N K A B C0 : accumulates P m0 M N K A B C0 -> 0 <= K ->
  all_finite M K A -> all_finite K N B -> all_finite M N C0 ->
  (forall i j, 0 <= i < M -> 0 <= j < N -> no_overflow K (Rabs (val (C0 i j)) + mass A B K i j)) ->
  always P m0 (fun _ m' => exists C, holds m' BufC M N C /\ forall i j, 0 <= i < M -> 0 <= j < N ->
    finite (C i j) /\ accurate K (C i j) (val (C0 i j) + exact A B K i j) (Rabs (val (C0 i j)) + mass A B K i j)).
Proof.
  intros (ord & Ho & G) HK HA HB HC Hn. eapply always_mono; [exact G|]. cbv beta. intros r m' H.
  exists (product_plus Single A B C0 ord). split; [exact H|]. intros i j Hi Hj.
  assert (Hf : finite (product_plus Single A B C0 ord i j)) by (apply (plus_fin A B C0 M N K HK HA HB HC ord i j Ho Hi Hj), Hn; auto).
  split; [exact Hf|]. now apply (plus_acc A B C0 M N K HK HA HB ord i j Ho Hi Hj).
Qed.

Lemma acc_int P m0 M N K A B C0 a b c0 : accumulates P m0 M N K A B C0 -> 0 <= K ->
  (forall i k, 0 <= i < M -> 0 <= k < K -> is_int (A i k) (a i k)) ->
  (forall k j, 0 <= k < K -> 0 <= j < N -> is_int (B k j) (b k j)) ->
  (forall i j, 0 <= i < M -> 0 <= j < N -> is_int (C0 i j) (c0 i j)) ->
  (forall i j, 0 <= i < M -> 0 <= j < N -> Z.abs (c0 i j) + massZ a b K i j <= 2 ^ 24) ->
  always P m0 (fun _ m' => exists C, holds m' BufC M N C /\
    forall i j, 0 <= i < M -> 0 <= j < N -> is_int (C i j) (c0 i j + exactZ a b K i j)).
Proof.
  intros (ord & Ho & G) HK HA HB HC Hn. eapply always_mono; [exact G|]. cbv beta. intros r m' H.
  exists (product_plus Single A B C0 ord). split; [exact H|]. intros i j Hi Hj. eapply plus_int; eauto.
Qed.

Lemma M_accumulates F ar q (nz : single -> bool) M N K p c alpha beta mcu kcu ncu t A B C0 m0 :
  legal F ar MKN c M N K p mcu kcu ncu -> nz beta = true -> tail_ok c K p mcu kcu ncu t ->
  caller m0 M N K A B -> B_rim m0 N K (nr c) t -> holds m0 BufC M N C0 ->
  accumulates (cake_sgemm Single F ar q nz M N K p (Some c) false false alpha beta MKN mcu kcu ncu) m0 M N K A B C0.
Proof.
  intros L Hb Ht Hc Hr HC. destruct (M_first_plus Single F ar q nz M N K p c alpha beta mcu kcu ncu t L Hb Ht) as (ord & c' & Ho & _ & G).
  exists ord. split; [exact Ho|]. eapply always_mono; [exact (G A B C0 m0 Hc Hr HC)|]. cbv beta. tauto.
Qed.

Lemma N_accumulates F ar q (nz : single -> bool) M N K p c alpha beta mcu kcu ncu x c1 A B C0 m0 :
  legal F ar NKM c M N K p mcu kcu ncu -> nz beta = true ->
  init_block_dims F M N K p c NKM mcu kcu ncu = CRet (x, c1) ->
  n_first_C_fits M N p (mr c) (nr c) (m_c x) (n_c x) ->
  caller m0 M N K A B -> B_rim m0 N K (nr c) (k_tail K p (k_c x)) -> holds m0 BufC M N C0 ->
  accumulates (cake_sgemm Single F ar q nz M N K p (Some c) false false alpha beta NKM mcu kcu ncu) m0 M N K A B C0.
Proof.
  intros L Hb Hi Hf Hc Hr HC.
  destruct (nf_plus_ok Single F ar q nz M N K p c alpha beta mcu kcu ncu x c1 L Hb Hi Hf) as (ord & Ho & G).
  exists ord. split; [exact Ho|]. eapply always_mono; [exact (G A B C0 m0 Hc HC Hr)|]. cbv beta. tauto.
Qed.
