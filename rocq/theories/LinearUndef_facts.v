(** * The PyTorch layer when a product does not fit. *)

From Coq Require Import ZArith List Bool Lia.
From Verif Require Import Lang Lang_facts Spec SpecTop SpecTouch ModelSizing ModelKernel ModelPack ModelSched ModelTop ModelUtil ModelLinear
     SpecLinear Exec Exec_facts Frame_facts Misc_facts Mult_facts Linear_facts.
Import ListNotations.
Open Scope Z_scope.

Section Undef.

Variable S : scalar.
Notation T := (elt S).
Variable add : T -> T -> T.

Lemma undef_intro {R} (P : prog T R) m : (forall o, pexec P m o -> o = Undef) -> always_undefined P m.
Proof. intros H. split; auto. pose proof (pseqexec_sound P m) as Hs. now rewrite <- (H _ Hs). Qed.

Lemma pu_bind {R R'} (P : prog T R) (f : R -> prog T R') m Q :
  pok P m Q -> (forall r m', Q r m' -> always_undefined (f r) m') -> always_undefined (pbind P f) m.
Proof.
  intros (_ & HP) Hf. apply undef_intro. intros o Ho. apply pexec_bind in Ho.
  destruct Ho as [(r & m1 & H1 & H2)|[(-> & H)|(_ & H)]].
  - destruct (HP _ H1) as (r' & m' & E & HQ). injection E as <- <-. now apply (proj2 (Hf _ _ HQ)).
  - reflexivity.
  - destruct (HP _ H) as (r' & m' & E & _). discriminate.
Qed.

Lemma pu_bind_l {R R'} (P : prog T R) (f : R -> prog T R') m : always_undefined P m -> always_undefined (pbind P f) m.
Proof.
  intros (_ & HP). apply undef_intro. intros o Ho. apply pexec_bind in Ho.
  destruct Ho as [(r & m1 & H1 & H2)|[(-> & H)|(_ & H)]]; [|reflexivity|]; apply HP in H || apply HP in H1; discriminate.
Qed.

Lemma pu_lift {R R'} (v : R) c (f : R -> prog T R') m : c = CRet v -> always_undefined (f v) m ->
  always_undefined (pbind (lift S c) f) m.
Proof. intros -> H. exact H. Qed.

Lemma pbind_assoc {R R' R''} (P : prog T R) (f : R -> prog T R') (g : R' -> prog T R'') :
  pbind (pbind P f) g = pbind P (fun r => pbind (f r) g).
Proof. Transparent pbind. induction P; cbn [pbind]; congruence || auto. Opaque pbind. Qed.

Lemma pbind_ret {R R'} (r : R) (f : R -> prog T R') : pbind (PRet r) f = f r.
Proof. reflexivity. Qed.

Lemma pu_alloc {R} b n al init (f : unit -> prog T R) m : 0 <= n -> live m b = None ->
  always_undefined (f tt) (do_alloc m b n al init) -> always_undefined (pbind (palloc b n al init) f) m.
Proof.
  intros Hn HL H. apply (pu_bind _ _ _ (fun _ m' => m' = do_alloc m b n al init)).
  - apply pok_alloc; auto.
  - intros [] m' ->. exact H.
Qed.

Lemma ops_pu {R} (a b : tensor S) M N K m (A B : Z -> Z -> T) (kk : unit -> prog T R) :
  0 <= M -> 0 <= N -> 0 <= K -> numel S a = M * K -> numel S b = K * N ->
  (forall i k, 0 <= i < M -> 0 <= k < K -> elems a (i * K + k) = A i k) ->
  (forall k j, 0 <= k < K -> 0 <= j < N -> elems b (k * N + j) = B k j) ->
  live m BufA = None -> live m BufB = None -> live m BufC = None -> (forall b, own b -> live m b = None) ->
  (forall m', exact_ops S m' M N K A B -> live m' BufC = Some (BInfo (M * N) false) ->
     (forall b, b <> BufA -> b <> BufB -> b <> BufC -> live m' b = live m b /\ forall i, dat m' b i = dat m b i) ->
     always_undefined (kk tt) m') ->
  always_undefined (pbind (place S BufA a) (fun _ => pbind (place S BufB b) (fun _ => pbind (palloc BufC (M * N) false (Some (zero S))) kk))) m.
Proof.
  intros HM HN HK Na Nb Ea Eb LA LB LC Lo HP.
  set (kk' := fun u : unit => pbind (PRet u) kk : prog T R).
  change (always_undefined (pbind (place S BufA a) (fun _ => pbind (place S BufB b) (fun _ => pbind (palloc BufC (M * N) false (Some (zero S))) kk'))) m).
  assert (E : pbind (place S BufA a) (fun _ => pbind (place S BufB b) (fun _ => pbind (palloc BufC (M * N) false (Some (zero S))) kk'))
    = pbind (pbind (place S BufA a) (fun _ => pbind (place S BufB b) (fun _ => pbind (palloc BufC (M * N) false (Some (zero S))) (fun u => PRet u)))) kk).
  { rewrite pbind_assoc. reflexivity || (f_equal). }
  rewrite E.
  apply (pu_bind _ _ _ (fun _ m' => exact_ops S m' M N K A B /\ live m' BufC = Some (BInfo (M * N) false) /\
     (forall b, b <> BufA -> b <> BufB -> b <> BufC -> live m' b = live m b /\ forall i, dat m' b i = dat m b i))).
  - eapply ops_spec; eauto. intros m' H1 H2 H3. apply pok_ret. auto.
  - intros [] m' (H1 & H2 & H3). auto.
Qed.

Section Forward.

Variables (F : fpenv) (nz : T -> bool) (one : T) (junk : cntx) (l2 l3 : Z).
Let c := cake_query_cntx_torch junk l2 l3.
Variables (M N K : Z) (X W : tensor S) (x w : Z -> Z -> T).
Hypothesis HM : 0 < M.
Hypothesis HN : 0 < N.
Hypothesis HK : 0 < K.
Hypothesis HX : is_matrix X M K x.
Hypothesis HW : is_matrix W N K w.
Hypothesis Ha : auto_tiles F M 10 c 0 0 0.
Hypothesis Hcall : ~ layer_fits F c M N K 10.

Lemma forward_undefined m0 bias : nothing m0 -> always_undefined (linear_forward S add F nz one junk l2 l3 X W bias) m0.
Proof.
  intros H0. destruct HX as (SX & EX), HW as (SW & EW). unfold linear_forward.
  apply (pu_lift M); [apply size_ok; now rewrite SX|].
  apply (pu_lift N); [apply size_ok; now rewrite SW|].
  apply (pu_lift K); [apply size_ok; now rewrite SX|].
  eapply pu_lift; [apply reshape_ok; unfold numel; rewrite SX, count1, count2; lia|].
  eapply pu_lift; [unfold tt_; rewrite SW; reflexivity|].
  eapply pu_lift; [apply reshape_ok; unfold numel; cbn [sizes]; rewrite count1, count2; lia|].
  cbn [elems].
  eapply (ops_pu _ _ M N K m0 x (fun k j => w j k)); auto; unfold numel; cbn [sizes elems]; rewrite ?count1; try lia.
  { intros k j Hk Hj. rewrite <- EW by lia. f_equal.
    replace ((k * N + j) mod N) with j by (apply (Z.mod_unique _ _ k); lia).
    replace ((k * N + j) / N) with k by (apply (Z.div_unique _ _ _ j); lia). reflexivity. }
  intros m1 HO LC HF.
  apply pu_alloc; [lia|destruct (HF tcbuf) as (-> & _); [discriminate..|apply H0]|].
  apply pu_bind_l. eapply (gemm_undefined S F nz one junk M N K 10 c x (fun k j => w j k)); auto; try lia.
  destruct HO as (P1 & P2 & P3 & P4 & P5 & P6).
  split; [exact P1|split; [exact P2|split; [exact P3|split; [exact P4|split; [exact P5|]]]]].
  intros b' Hb'. rewrite live_alloc, buf_eqb_neq; [auto|]. intros <-. cbn in Hb'. lia.
Qed.

End Forward.

Section Backward.

Variables (F : fpenv) (nz : T -> bool) (one : T) (junk : cntx) (l2 l3 : Z).
Let c := cake_query_cntx_torch junk l2 l3.
Variables (M N K : Z) (G X W : tensor S) (g x w : Z -> Z -> T).
Hypothesis HM : 0 < M.
Hypothesis HN : 0 < N.
Hypothesis HK : 0 < K.
Hypothesis Hz : nz (zero S) = false.
Hypothesis HG : is_matrix G M K g.
Hypothesis HX : is_matrix X M N x.
Hypothesis HW : is_matrix W K N w.
Hypothesis Ha1 : auto_tiles F M 10 c 0 0 0.
Hypothesis Ha2 : auto_tiles F K 10 c 0 0 0.

Lemma backward_undefined m0 bias : ~ (layer_fits F c M N K 10 /\ layer_fits F c K N M 10) -> nothing m0 ->
  always_undefined (linear_backward S add F nz one junk l2 l3 G X W bias) m0.
Proof.
  intros Hcall H0. pose proof (fits_dec F c M N K 10) as Dec. destruct HG as (SG & EG), HX as (SX & EX), HW as (SW & EW). unfold linear_backward.
  apply pu_alloc; [lia|apply H0|].
  set (m1 := do_alloc m0 tcbuf 1 false None).
  assert (R1 : forall b, b <> tcbuf -> live m1 b = None) by (intros b' Hb; unfold m1; rewrite live_alloc, buf_eqb_neq by auto; apply H0).
  clearbody m1.
  apply (pu_lift M); [apply size_ok; now rewrite SG|].
  apply (pu_lift N); [apply size_ok; now rewrite SW|].
  apply (pu_lift K); [apply size_ok; now rewrite SG|].
  eapply pu_lift; [apply reshape_ok; unfold numel; rewrite SG, count1, count2; lia|].
  eapply pu_lift; [apply reshape_ok; unfold numel; rewrite SW, count1, count2; lia|].
  eapply (ops_pu _ _ M N K m1 g w); auto; unfold numel; cbn [sizes elems]; rewrite ?count1; try lia;
    try (apply R1; discriminate).
  { intros b Hb. apply R1. intros ->. cbn in Hb. lia. }
  intros m2 HO LC HF.
  destruct Dec as [Hc1|Hc1].
  2:{ apply pu_bind_l. eapply (gemm_undefined S F nz one junk M N K 10 c g w); auto; lia. }
  assert (Hc2 : ~ layer_fits F c K N M 10) by tauto.
  destruct (gemm_ok S F nz one junk M N K 10 c) as (ord1 & c1 & O1 & O2 & O3); auto; try lia. { split; auto. }
  eapply pu_bind; [apply (O3 g w m2 HO)|]. cbv beta.
  intros r m3 (-> & G1 & G2 & _).
  destruct HO as ((ba & A1 & A2) & _ & (bb & B1 & B2) & _ & _ & Ho).
  apply (pu_bind _ _ _ (fun _ m' => live m' gibuf = Some (BInfo (M * N) false) /\
     live m' BufA = None /\ live m' BufB = None /\ live m' BufC = None /\
     (forall b, b <> gibuf -> b <> BufA -> b <> BufB -> b <> BufC -> live m' b = live m3 b))).
  { eapply (rename_spec S (M * N) (fun e => product S g w ord1 (e / N) (e mod N)) m3).
    { nia. }
    { rewrite G2. exact LC. }
    { cbn. lia. }
    { intros e He. rewrite <- G1.
      - f_equal. rewrite (Z.div_mod e N) at 1 by lia. lia.
      - split; [apply Z.div_pos; lia|apply Z.div_lt_upper_bound; lia].
      - apply Z.mod_pos_bound; lia. }
    { rewrite G2, A1. discriminate. }
    { rewrite G2, B1. discriminate. }
    { rewrite G2. destruct (HF gibuf) as (-> & _); [discriminate..|]. apply R1. discriminate. }
    auto. }
  intros [] m4 (Q1 & Q3 & Q4 & Q5 & Q6).
  eapply pu_lift; [apply reshape_ok; unfold numel; cbn [sizes]; rewrite count1, count2; lia|].
  eapply pu_lift; [reflexivity|].
  eapply pu_lift; [reflexivity|].
  apply (pu_lift M); [apply size_ok; now rewrite SX|].
  apply (pu_lift N); [apply size_ok; now rewrite SX|].
  eapply pu_lift; [apply reshape_ok; unfold numel; cbn [sizes]; rewrite count1, count2; lia|].
  eapply pu_lift; [apply reshape_ok; unfold numel; rewrite SX, count1, count2; lia|].
  cbn [elems].
  assert (ET : forall e, 0 <= e < K * M -> elems G ((e mod M) * K + e / M) = g (e mod M) (e / M)).
  { intros e He. apply EG; [apply Z.mod_pos_bound; lia|].
    split; [apply Z.div_pos; lia|apply Z.div_lt_upper_bound; lia]. }
  eapply (ops_pu _ _ K N M m4 (fun k i => g i k) x); auto; unfold numel; cbn [sizes elems]; rewrite ?count1; try lia.
  { intros k i Hk Hi. rewrite ET by nia.
    replace ((k * M + i) mod M) with i by (apply (Z.mod_unique _ _ k); lia).
    replace ((k * M + i) / M) with k by (apply (Z.div_unique _ _ _ i); lia). reflexivity. }
  { intros b Hb. rewrite Q6 by (intros ->; cbn in Hb; lia). rewrite G2. apply Ho. exact Hb. }
  intros m5 HO5 LC5 HF5.
  apply pu_bind_l. replace (gemm S F nz one junk c1 K N M 10) with (gemm S F nz one junk c K N M 10)
    by (symmetry; apply sgemm_same_ctx; exact O2).
  eapply (gemm_undefined S F nz one junk K N M 10 c (fun k i => g i k) x); auto; lia.
Qed.

End Backward.

End Undef.
