(** * What alpha and beta do. *)

From Coq Require Import ZArith List Bool Lia Permutation.
From Verif Require Import Lang Lang_facts Spec SpecTop ModelSizing ModelTop CallAll_facts Mult_facts.
Open Scope Z_scope.

Section A.
Variable S : scalar.
Notation T := (elt S).
Variables add mul : T -> T -> T.
Hypothesis Hs : sums S add mul.
Hypothesis H0 : forall a, add (zero S) a = a.

Lemma dot_from a b l : forall acc, dot S a b l acc = add (dot S a b l (zero S)) acc.
Proof.
  destruct Hs as (H1 & H2 & H3). unfold dot. induction l as [|k l IH]; intros acc; cbn.
  - now rewrite H0.
  - rewrite IH, (IH (fma S _ _ (zero S))), !H1, <- !H3. f_equal. f_equal. now rewrite H0.
Qed.

Lemma product_plus_matmul A B C0 K ord i j : orders K ord ->
  product_plus S A B C0 ord i j = add (matmul S add mul A B K i j) (C0 i j).
Proof.
  intros Ho. unfold product_plus. rewrite dot_from. f_equal.
  rewrite (dot_perm S add mul _ _ _ _ Hs (Ho i j)). now apply dot_matmul.
Qed.

(** what a call leaves in C *)
Lemma beta_result F ar q nz M N K p c al be s mcu kcu ncu t A B C0 m0 :
  legal F ar s c M N K p mcu kcu ncu -> s = KMN \/ s = MKN \/ nz be = false -> tail_ok c K p mcu kcu ncu t ->
  caller m0 M N K A B -> (s <> KMN -> B_rim m0 N K (nr c) t) -> holds m0 BufC M N C0 ->
  always (cake_sgemm S F ar q nz M N K p (Some c) false false al be s mcu kcu ncu) m0
    (fun _ m' => holds m' BufC M N (fun i j =>
       let ab := matmul S add mul A B K i j in
       match s with KMN => ab | _ => if nz be then add ab (C0 i j) else ab end) /\ only_C_changed m0 m' M N).
Proof.
  intros L Hk Ht Hc Hr HC. destruct (nz be) eqn:Enz; [destruct s eqn:Es|].
  - destruct (K_first_ok S F ar q nz M N K p c al be KMN mcu kcu ncu L eq_refl) as (ord & c' & H1 & _ & H3).
    eapply always_mono; [apply (H3 A B m0 Hc)|]. cbv beta. intros r m' (_ & E & O). split; [|exact O].
    intros i j Hi Hj. rewrite (E i j Hi Hj). f_equal. now apply product_matmul.
  - destruct (plus_ok S F ar q nz M N K p c al be MKN mcu kcu ncu L t Enz ltac:(auto) ltac:(discriminate) Ht) as (ord & c' & H1 & _ & H3).
    eapply always_mono; [apply (H3 A B C0 m0 Hc (Hr ltac:(discriminate)) HC)|]. cbv beta. intros r m' (_ & E & O). split; [|exact O].
    intros i j Hi Hj. rewrite (E i j Hi Hj). f_equal. now apply product_plus_matmul.
  - exfalso. intuition discriminate.
  - exfalso. intuition discriminate.
  - destruct (plain_ok S F ar q nz M N K p c al be s mcu kcu ncu L (Some c) t eq_refl (or_intror Enz) Ht) as (ord & c' & H1 & _ & H3).
    eapply always_mono; [apply (H3 A B m0 Hc Hr)|]. cbv beta. intros r m' (_ & E & O). split; [|exact O].
    intros i j Hi Hj. rewrite (E i j Hi Hj). f_equal. rewrite product_matmul with (K := K) (add := add) (mul := mul) by auto.
    destruct s; reflexivity.
Qed.

Lemma alpha_beta_iff F ar q nz M N K p c al be s mcu kcu ncu t A B C0 m0 :
  legal F ar s c M N K p mcu kcu ncu -> s = KMN \/ s = MKN \/ nz be = false -> tail_ok c K p mcu kcu ncu t ->
  caller m0 M N K A B -> (s <> KMN -> B_rim m0 N K (nr c) t) -> holds m0 BufC M N C0 ->
  let ab i j := matmul S add mul A B K i j in
  (always (cake_sgemm S F ar q nz M N K p (Some c) false false al be s mcu kcu ncu) m0
     (fun _ m' => holds m' BufC M N (fun i j => add (mul al (ab i j)) (mul be (C0 i j)))) <->
   forall i j, 0 <= i < M -> 0 <= j < N -> add (mul al (ab i j)) (mul be (C0 i j)) =
     match s with KMN => ab i j | _ => if nz be then add (ab i j) (C0 i j) else ab i j end).
Proof.
  intros L Hk Ht Hc Hr HC ab.
  pose proof (beta_result F ar q nz M N K p c al be s mcu kcu ncu t A B C0 m0 L Hk Ht Hc Hr HC) as R. cbv zeta in R. fold ab in R.
  split.
  - intros (_ & H) i j Hi Hj. destruct R as ((o & Ho) & R). destruct (H o Ho) as (r & m' & Eo & E1).
    destruct (R o Ho) as (r2 & m2 & Eo2 & E2 & _). rewrite Eo in Eo2. injection Eo2 as -> ->.
    pose proof (E1 i j Hi Hj) as X. rewrite (E2 i j Hi Hj) in X. injection X as X. symmetry. exact X.
  - intros H. eapply always_mono; [exact R|]. cbv beta. intros r m' (E & _) i j Hi Hj. rewrite (E i j Hi Hj). f_equal.
    symmetry. now apply H.
Qed.

End A.
