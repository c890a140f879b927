(** * Facts for the packing properties: exact sizes, round trip, operands packed beforehand. *)

From Coq Require Import ZArith List Bool Lia Permutation.
From Verif Require Import Lang Lang_facts Spec SpecTop SpecPack ModelSizing ModelKernel ModelPack ModelSched ModelTop
     Kernel_facts Tile_facts Loop_facts Pack_facts Unpack_facts Sizing_facts SizingMN_facts PackMat_facts PackB_facts
     Order_facts Cphase_facts SchedK_facts Grid_facts PackMN_facts SchedMN_facts Frame_facts Init_facts TopK_facts TopMN_facts
     Call_facts CallAll_facts Mult_facts Misc_facts Packed_facts CpackK_facts PackCall_facts.
Import ListNotations.
Open Scope Z_scope.

Section R.
Variable S : scalar.
Notation T := (elt S).

Lemma only_changed_intro (m m' : mem T) b n : live m' = live m -> same_out (rng b 0 n) m m' -> only_changed m m' b n.
Proof.
  intros H1 H2. split; [now rewrite H1|]. intros b' i H. apply H2. intros (-> & Hi). apply H. auto.
Qed.

Lemma legal_plan F ar s c M N K p mcu kcu ncu x c1 :
  legal F ar s c M N K p mcu kcu ncu -> init_block_dims F M N K p c s mcu kcu ncu = CRet (x, c1) ->
  ctx_for ar (sch x) c1 /\ plan M N K p c1 (sch x) x /\ same_ctx c c1 /\ (s <> NA -> sch x = s) /\ 0 < mr c1 /\ 0 < nr c1 /\
  (sch x <> KMN -> forall t, tail_ok c K p mcu kcu ncu t -> kguard K x <= K - t).
Proof.
  intros (Har & Hc & HM & HN & HK & Hp & Ht) E.
  destruct (plan_ok F ar M N K p c s mcu kcu ncu Har Hc HM HN HK Hp Ht)
    as (s' & x' & c' & N1 & N2 & Hc' & Hi & Hsame & HP & Hu & Hg & _).
  rewrite E in Hi. injection Hi as <- <-. rewrite (plan_sch _ _ _ _ _ _ _ HP).
  destruct (ctx_for_pos ar s' c1 Har Hc'). split; [auto|split; [auto|split; [auto|split; [auto|split; [auto|split; [auto|]]]]]].
  intros Hk t Htl. destruct (Hg Hk) as (G1 & G2). destruct Htl as [->|(U & ->)]; [lia|]. rewrite (G2 U). lia.
Qed.

Lemma pack_A_exact F ar s c M N K p mcu kcu ncu x c1 :
  legal F ar s c M N K p mcu kcu ncu -> init_block_dims F M N K p c s mcu kcu ncu = CRet (x, c1) ->
  let n := round_up M (mr c) * K in
  packed_A_size M K p x (mr c1) (sch x) = CRet n /\
  forall src dst A m, src <> dst -> at_least m src (M * K) -> holds m src M K A -> exact_size m dst n ->
    always (pack_A S (src, 0) (dst, 0) M K p x c1 (sch x)) m
      (fun _ m' => initialised m' dst n /\ only_changed m m' dst n).
Proof.
  intros L E. destruct (legal_plan _ _ _ _ _ _ _ _ _ _ _ _ _ L E) as (Hc1 & HP & Hs & _ & Hmr & Hnr & _).
  destruct L as (Har & Hc & HM & HN & HK & Hp & Ht).
  destruct (plan_padded _ _ _ _ _ _ _ Hmr Hnr HP) as (E1 & E2). destruct (plan_sizes _ _ _ _ _ _ _ HP) as (S1 & S2 & S3).
  assert (Emr : mr c1 = mr c) by apply Hs. rewrite Emr in E1. cbv zeta. rewrite <- E1. split; [exact S1|].
  intros src dst A m Hne Hsrc Hh (bi & HL & Hb). apply pok_always.
  eapply pok_mono; [eapply (pack_A_any S ar M N K p c1 (sch x) x); eauto; lia|].
  cbv beta. intros _ m' (H1 & H2 & H3). split; [eapply packedA_any_full; eauto|now apply only_changed_intro].
Qed.

Lemma pack_B_exact F ar s c M N K p mcu kcu ncu t x c1 :
  legal F ar s c M N K p mcu kcu ncu -> tail_ok c K p mcu kcu ncu t ->
  init_block_dims F M N K p c s mcu kcu ncu = CRet (x, c1) ->
  let n := K * round_up N (nr c) in
  packed_B_size K N x (nr c1) = CRet n /\
  forall src dst B m, src <> dst -> at_least m src (K * N) -> holds m src K N B ->
    (sch x <> KMN -> rim m src N K (nr c) t) -> exact_size m dst n ->
    always (pack_B S (src, 0) (dst, 0) K N p x c1 (sch x)) m
      (fun _ m' => initialised m' dst n /\ only_changed m m' dst n).
Proof.
  intros L Htl E. destruct (legal_plan _ _ _ _ _ _ _ _ _ _ _ _ _ L E) as (Hc1 & HP & Hs & _ & Hmr & Hnr & Hg).
  destruct L as (Har & Hc & HM & HN & HK & Hp & Ht).
  destruct (plan_padded _ _ _ _ _ _ _ Hmr Hnr HP) as (E1 & E2). destruct (plan_sizes _ _ _ _ _ _ _ HP) as (S1 & S2 & S3).
  assert (Enr : nr c1 = nr c) by apply Hs. rewrite Enr in E2. cbv zeta. rewrite <- E2. split; [exact S2|].
  intros src dst B m Hne Hsrc Hh Hrim (bi & HL & Hb). apply pok_always.
  eapply pok_mono; [eapply (pack_B_any S ar M N K p c1 (sch x) x Har Hc1 HN HK Hp HP t src dst B bi m); auto; try lia|].
  - intros Hk. rewrite Enr. auto.
  - cbv beta. intros _ m' (H1 & H2 & f & H3 & _). split; [eapply packedB_any_full; eauto|now apply only_changed_intro].
Qed.

Lemma pack_C_exact F ar s c M N K p mcu kcu ncu x c1 :
  legal F ar s c M N K p mcu kcu ncu -> init_block_dims F M N K p c s mcu kcu ncu = CRet (x, c1) ->
  C_aligned (sch x) M N p c x ->
  let n := round_up M (mr c) * round_up N (nr c) in
  packed_C_size M N p x (mr c1) (nr c1) (sch x) = CRet n /\
  forall src dst C0 m, src <> dst -> at_least m src (M * N) -> holds m src M N C0 -> exact_size m dst n ->
    always (pack_C S (src, 0) (dst, 0) M N p x c1 (sch x)) m
      (fun _ m' => initialised m' dst n /\ only_changed m m' dst n).
Proof.
  intros L E Ha. destruct (legal_plan _ _ _ _ _ _ _ _ _ _ _ _ _ L E) as (Hc1 & HP & Hs & _ & Hmr & Hnr & _).
  destruct L as (Har & Hc & HM & HN & HK & Hp & Ht).
  destruct (plan_padded _ _ _ _ _ _ _ Hmr Hnr HP) as (E1 & E2). destruct (plan_sizes _ _ _ _ _ _ _ HP) as (S1 & S2 & S3).
  assert (Emr : mr c1 = mr c) by apply Hs. assert (Enr : nr c1 = nr c) by apply Hs. rewrite Emr in E1. rewrite Enr in E2.
  assert (Ha1 : C_aligned (sch x) M N p c1 x) by (unfold C_aligned in *; rewrite Emr, Enr; exact Ha).
  cbv zeta. rewrite <- E1, <- E2. split; [exact S3|].
  intros src dst C0 m Hne Hsrc Hh (bi & HL & Hb). apply pok_always.
  eapply pok_mono; [eapply (pack_C_any S ar M N K p c1 (sch x) x); eauto; lia|].
  cbv beta. intros _ m' (H1 & H2 & H3). split; [eapply packedC_any_full; eauto|now apply only_changed_intro].
Qed.

(** Packing into [tmp], then unpacking into [dst] (possibly the source itself). *)
Lemma C_round_trip F ar s c M N K p mcu kcu ncu x c1 n :
  legal F ar s c M N K p mcu kcu ncu -> init_block_dims F M N K p c s mcu kcu ncu = CRet (x, c1) ->
  C_aligned (sch x) M N p c x ->
  packed_C_size M N p x (mr c1) (nr c1) (sch x) = CRet n ->
  forall src tmp dst C0 m, src <> tmp -> dst <> tmp -> at_least m src (M * N) -> holds m src M N C0 ->
    at_least m tmp n -> at_least m dst (M * N) ->
    always (pbind (pack_C S (src, 0) (tmp, 0) M N p x c1 (sch x))
                  (fun _ => unpack_C S (dst, 0) (tmp, 0) M N p x c1 (sch x))) m
      (fun _ m' => holds m' dst M N C0 /\ (forall b, live m' b = live m b) /\
         forall b i, ~ (b = tmp /\ 0 <= i < n) -> ~ (b = dst /\ 0 <= i < M * N) -> dat m' b i = dat m b i).
Proof.
  intros L E Ha En. destruct (legal_plan _ _ _ _ _ _ _ _ _ _ _ _ _ L E) as (Hc1 & HP & Hs & _ & Hmr & Hnr & _).
  destruct L as (Har & Hc & HM & HN & HK & Hp & Ht).
  destruct (plan_sizes _ _ _ _ _ _ _ HP) as (S1 & S2 & S3). rewrite S3 in En. injection En as <-.
  assert (Ha1 : C_aligned (sch x) M N p c1 x).
  { assert (Emr : mr c1 = mr c) by apply Hs. assert (Enr : nr c1 = nr c) by apply Hs. unfold C_aligned in *. rewrite Emr, Enr. exact Ha. }
  intros src tmp dst C0 m Hne Hne2 Hsrc Hh (bi & HL & Hb) Hdst. apply pok_always. apply pok_bind.
  eapply pok_mono; [eapply (pack_C_any S ar M N K p c1 (sch x) x); eauto|].
  cbv beta. intros _ m1 (H1 & H2 & H3).
  eapply pok_mono; [eapply (unpack_C_any S ar M N K p c1 (sch x) x) with (cb := dst) (pb := tmp) (bp := bi) (f := padbox S M N C0); eauto|].
  - destruct Hdst as (bd & Hd1 & Hd2). exists bd. now rewrite H1.
  - now rewrite H1.
  - cbv beta. intros _ m2 (G1 & G2 & G3). split; [|split].
    + intros i j Hi Hj. rewrite (G3 i j Hi Hj). unfold padbox. replace (i <? M) with true by lia. now replace (j <? N) with true by lia.
    + now rewrite G1, H1.
    + intros b i Hb1 Hb2. rewrite G2 by (intros (-> & ?); apply Hb2; auto). apply H2. intros (-> & ?). apply Hb1; auto.
Qed.

(** ** Operands packed beforehand *)
Lemma prepacked_ok F ar q nz M N K p c al be s mcu kcu ncu t :
  legal F ar s c M N K p mcu kcu ncu -> (s <> KMN -> nz be = false) -> tail_ok c K p mcu kcu ncu t ->
  exists ord c', orders K ord /\ same_ctx c c' /\
    (forall A B m0, caller m0 M N K A B -> (s <> KMN -> B_rim m0 N K (nr c) t) ->
      always (cake_sgemm S F ar q nz M N K p (Some c) false false al be s mcu kcu ncu) m0
        (fun r m' => r = c' /\ holds m' BufC M N (product S A B ord))) /\
    (forall pa pb aa A B m0, prepacking_caller m0 pa pb M N K A B ->
      (s <> KMN -> rim m0 (if pb then srcB else BufB) N K (nr c) t) ->
      always (prepacked_call S F ar q nz M N K p c pa pb aa true al be s mcu kcu ncu) m0
        (fun r m' => r = c' /\ holds m' BufC M N (product S A B ord) /\ caller_keeps m0 m' M N)).
Proof.
  intros L Hbe Htl. pose proof L as (Har & Hc & HM & HN & HK & Hp & Ht).
  destruct (plan_ok F ar M N K p c s mcu kcu ncu Har Hc HM HN HK Hp Ht)
    as (s' & x & c' & N1 & N2 & Hc' & Hi & Hsame & HP & Hu & Hg & _).
  assert (Es : sch x = s') by (eapply plan_sch; eauto).
  destruct (legal_plan _ _ _ _ _ _ _ _ _ _ _ _ _ L Hi) as (_ & _ & _ & _ & Hmr & Hnr & Hg').
  assert (K1 : s' <> KMN -> s <> KMN) by (intros Hk ->; apply Hk, N2; discriminate).
  assert (Enr : nr c' = nr c) by apply Hsame.
  destruct (plan_sizes _ _ _ _ _ _ _ HP) as (S1 & S2 & S3).
  destruct (plan_padded _ _ _ _ _ _ _ Hmr Hnr HP) as (P1 & P2).
  assert (HMp : 0 <= M_padded x /\ 0 <= N_padded x).
  { destruct s'; cbn in HP; try tauto; destruct HP as (F' & _).
    - pose proof (kf_Mp _ _ _ _ _ _ _ F'). pose proof (kf_Np _ _ _ _ _ _ _ F'). lia.
    - pose proof (bf_Mp _ _ _ _ _ _ _ _ _ F'). pose proof (bf_Np _ _ _ _ _ _ _ _ _ F'). lia.
    - pose proof (bf_Mp _ _ _ _ _ _ _ _ _ F'). pose proof (bf_Np _ _ _ _ _ _ _ _ _ F'). lia. }
  exists (ords s' p x), c'. split; [eapply ords_perm; eauto|split; [auto|]].
  (* the call itself, from any memory in which the operands are ready *)
  assert (Call : forall pa pb A B m1, opA_s S M K p c' x s' pa A m1 -> opB_s S N K p c' x s' t pb B m1 ->
     at_least m1 BufC (M * N) -> (forall b, used p b -> live m1 b = None) ->
     pok (cake_sgemm S F ar q nz M N K p (Some c') pa pb al be s mcu kcu ncu) m1
         (fun r m' => r = c' /\ holds m' BufC M N (product S A B (ords s' p x)) /\ only_C_changed m1 m' M N)).
  { intros pa pb A B m1 HA HB HC Hfr.
    eapply pok_mono.
    - eapply (sgemm_call S F ar q nz M N K p c' pa pb al be s mcu kcu ncu x c'
        (fun m' => holds m' BufC M N (product S A B (ords s' p x))) m1).
      + rewrite (init_same_ctx F M N K p c c' s mcu kcu ncu Hsame). exact Hi.
      + exact Hfr.
      + set (m2 := do_alloc m1 (BufX 0) 1 false None).
        assert (Lv : forall b, b <> BufX 0 -> live m2 b = live m1 b)
          by (intros b Hb; unfold m2; now rewrite live_alloc, buf_eqb_neq by auto).
        assert (Dt : forall b i, b <> BufX 0 -> dat m2 b i = dat m1 b i)
          by (intros b i Hb; unfold m2; now rewrite dat_alloc, buf_eqb_neq by auto).
        assert (NA' : BufA <> BufX 0) by discriminate. assert (NB' : BufB <> BufX 0) by discriminate.
        eapply pok_mono.
        * eapply (after_ok S ar nz M N K p c' s' x t pa pb be A B (fun _ _ => zero S)); auto.
          -- intros Hk. apply Hg'; [congruence|auto].
          -- intros Enz Es'. rewrite Hbe in Enz by (apply K1; congruence). discriminate.
          -- intros Enz Hk. rewrite Hbe in Enz; [discriminate|auto].
          -- intros b Hub Hb. rewrite Lv by auto. auto.
          -- unfold m2. rewrite live_alloc. cbn. discriminate.
        * cbv beta. intros r m' (E1 & E2 & E3 & E4). split; [auto|split; [|auto]].
          intros i j Hi' Hj. rewrite (E2 i j Hi' Hj). unfold product_plus, product. f_equal. f_equal.
          destruct s'; cbn [acc0]; auto; rewrite Hbe by (apply K1; discriminate); reflexivity.
    - cbv beta. auto. }
  split.
  - intros A B m0 Hcl Hrim. apply pok_always. pose proof (caller_ops S m0 M N K A B p Hcl) as Hfr.
    destruct Hcl as (HA & HAh & HB & HBh & HC & _).
    rewrite <- (sgemm_same_ctx S F ar q nz M N K p c c').
    eapply pok_mono; [apply (Call false false A B m0); auto|].
    + destruct HA as (ba & X1 & X2). destruct s'; cbn [opA_s]; exists ba; auto.
    + destruct s'; cbn [opB_s].
      * destruct HB as (bb & X1 & X2). exists bb. auto.
      * split; [auto|split; [auto|]]. rewrite Enr. apply Hrim, K1. discriminate.
      * split; [auto|split; [auto|]]. rewrite Enr. apply Hrim, K1. discriminate.
      * congruence.
    + cbv beta. clear. intros r m' H. tauto.
    + auto.
  - intros pa pb aa A B m0 (LA & (HA & HAh) & LB & (HB & HBh) & HC & Ho) Hrim. apply pok_always.
    unfold prepacked_call. apply pok_bind. eapply pok_lift; [exact Hi|]. cbn [fst snd]. rewrite Es in *.
    assert (NU : forall b, used p b -> own b /\ b <> srcA /\ b <> srcB /\ b <> BufA /\ b <> BufB).
    { intros b [->|[->|[->|(k & _ & ->)]]]; repeat split; discriminate. }
    (* after packing A *)
    apply pok_bind.
    eapply pok_mono with (Q := fun _ m1 => opA_s S M K p c' x s' pa A m1 /\
        (forall b, b <> BufA \/ pa = false -> live m1 b = live m0 b /\ forall i, dat m1 b i = dat m0 b i)).
    { destruct pa.
      - apply pok_bind. eapply pok_lift; [exact S1|]. apply pok_bind. apply pok_alloc; [nia|exact LA|].
        set (m1 := do_alloc m0 BufA (M_padded x * K) aa None).
        assert (Ns : srcA <> BufA) by discriminate.
        eapply pok_mono.
        + eapply (pack_A_any S ar M N K p c' s' x Har Hc' HK Hp HP srcA BufA A (BInfo (M_padded x * K) aa) m1); auto.
          cbn. lia.
        + cbv beta. intros _ m2 (G1 & G2 & G3). split.
          * assert (LL : live m2 BufA = Some (BInfo (M_padded x * K) aa)) by (rewrite G1; unfold m1; now rewrite live_alloc).
            destruct s'; cbn [opA_s packedA_any] in *; try congruence; eexists; (split; [exact LL|split; [cbn; lia|exact G3]]).
          * intros b [Hb|Hb]; [|discriminate]. rewrite G1. unfold m1 at 1. rewrite live_alloc, buf_eqb_neq by auto. split; [auto|].
            intros i. rewrite G2 by (intros (E' & _); auto). unfold m1. now rewrite dat_alloc, buf_eqb_neq by auto.
      - apply pok_ret. split; [|auto]. destruct HA as (ba & X1 & X2).
        destruct s'; cbn [opA_s]; exists ba; auto. }
    cbv beta. intros _ m1 (OA & Fr1).
    assert (Fr1' : forall b, b <> BufA -> live m1 b = live m0 b /\ forall i, dat m1 b i = dat m0 b i) by auto.
    apply pok_bind.
    eapply pok_mono with (Q := fun _ m2 => opB_s S N K p c' x s' t pb B m2 /\
        (forall b, b <> BufB \/ pb = false -> live m2 b = live m1 b /\ forall i, dat m2 b i = dat m1 b i)).
    { destruct pb.
      - apply pok_bind. eapply pok_lift; [exact S2|]. apply pok_bind. apply pok_alloc; [nia|destruct (Fr1' BufB) as (-> & _); [discriminate|exact LB]|].
        set (m2 := do_alloc m1 BufB (K * N_padded x) true None).
        assert (Ns : srcB <> BufB) by discriminate.
        destruct (Fr1' srcB ltac:(discriminate)) as (F1 & F2).
        assert (G0 : live m2 srcB = live m0 srcB) by (unfold m2; now rewrite live_alloc, buf_eqb_neq by auto).
        assert (D0 : forall i, dat m2 srcB i = dat m0 srcB i) by (intros i; unfold m2; now rewrite dat_alloc, buf_eqb_neq by auto).
        eapply pok_mono.
        + eapply (pack_B_any S ar M N K p c' s' x Har Hc' HN HK Hp HP t srcB BufB B (BInfo (K * N_padded x) true) m2); auto.
          * destruct HB as (bb & X1 & X2). exists bb. rewrite G0. auto.
          * intros i k Hi' Hk. rewrite D0. apply HBh; auto.
          * intros Hk k j Hk' Hj. rewrite Enr in Hj. destruct (Hrim (K1 Hk) k j Hk' Hj) as (bi & v & R1 & R2 & R3). exists bi, v.
            rewrite G0, D0. auto.
          * cbn. lia.
        + cbv beta. intros _ m3 (G1 & G2 & f & G3 & G4 & G5). split.
          * assert (LL : live m3 BufB = Some (BInfo (K * N_padded x) true)) by (rewrite G1; unfold m2; now rewrite live_alloc).
            destruct s'; cbn [opB_s packedB_any] in *.
            -- eexists. split; [exact LL|]. split; [cbn; lia|split; [reflexivity|]]. rewrite <- G5 by auto. exact G3.
            -- exists f, (BInfo (K * N_padded x) true). split; [exact LL|split; [cbn; lia|split; [reflexivity|split; [exact G3|exact G4]]]].
            -- exists f, (BInfo (K * N_padded x) true). split; [exact LL|split; [cbn; lia|split; [reflexivity|split; [exact G3|exact G4]]]].
            -- congruence.
          * intros b [Hb|Hb]; [|discriminate]. rewrite G1. unfold m2 at 1. rewrite live_alloc, buf_eqb_neq by auto. split; [auto|].
            intros i. rewrite G2 by (intros (E' & _); auto). unfold m2. now rewrite dat_alloc, buf_eqb_neq by auto.
      - apply pok_ret. split; [|auto]. destruct (Fr1' BufB ltac:(discriminate)) as (F1 & F2).
        assert (HB1 : at_least m1 BufB (K * N)) by (destruct HB as (bb & X1 & X2); exists bb; rewrite F1; auto).
        assert (HBh1 : holds m1 BufB K N B) by (intros i j Hi' Hj; rewrite F2; apply HBh; auto).
        assert (R1 : s' <> KMN -> B_rim m1 N K (nr c') t).
        { intros Hk k j Hk' Hj. rewrite Enr in Hj. destruct (Hrim (K1 Hk) k j Hk' Hj) as (bi & v & R1 & R2 & R3). exists bi, v. rewrite F1, F2. auto. }
        destruct s'; cbn [opB_s].
        + destruct HB1 as (bb & X1 & X2). exists bb. auto.
        + split; [auto|split; [auto|]]. apply R1. discriminate.
        + split; [auto|split; [auto|]]. apply R1. discriminate.
        + congruence. }
    cbv beta. intros _ m2 (OB & Fr2).
    assert (Fr2' : forall b, b <> BufB -> live m2 b = live m1 b /\ forall i, dat m2 b i = dat m1 b i) by auto.
    destruct (Fr2' BufA ltac:(discriminate)) as (FA1 & FA2).
    assert (OA2 : opA_s S M K p c' x s' pa A m2).
    { destruct s'; unfold opA_s, opA, opA_MN in OA |- *; destruct OA as (ba & X1 & X2); exists ba; (rewrite FA1; split; [auto|]);
               destruct pa; destruct X2 as (X2 & X3); split; auto.
      + intros i k cr Hi' Hk Hcr q0 i0 kk Q1 Q2 Q3. rewrite FA2. apply (X3 i k cr); auto.
      + intros i k Hi' Hk. rewrite FA2. apply X3; auto.
      + intros i k cr Hi' Hk Hcr q0 i0 kk Q1 Q2 Q3. rewrite FA2. apply (X3 i k cr); auto.
      + intros i k Hi' Hk. rewrite FA2. apply X3; auto.
      + intros i k cr Hi' Hk Hcr q0 i0 kk Q1 Q2 Q3. rewrite FA2. apply (X3 i k cr); auto.
      + intros i k Hi' Hk. rewrite FA2. apply X3; auto.
      + intros i k cr Hi' Hk Hcr q0 i0 kk Q1 Q2 Q3. rewrite FA2. apply (X3 i k cr); auto.
      + intros i k Hi' Hk. rewrite FA2. apply X3; auto. }
    eapply pok_mono; [apply (Call pa pb A B m2 OA2 OB)|].
    + destruct HC as (bc & X1 & X2). exists bc. destruct (Fr2' BufC ltac:(discriminate)) as (-> & _). destruct (Fr1' BufC ltac:(discriminate)) as (-> & _). auto.
    + intros b Hub. destruct (NU b Hub) as (U1 & U2 & U3 & U4 & U5). destruct (Fr2' b U5) as (-> & _). destruct (Fr1' b U4) as (-> & _). auto.
    + cbv beta. intros r m' (E1 & E2 & E3 & E4). split; [auto|split; [auto|]].
      intros b Hb.
      assert (Q1 : live m1 b = live m0 b /\ forall i, dat m1 b i = dat m0 b i).
      { apply Fr1. destruct pa; [left; intros ->; congruence|auto]. }
      assert (Q2 : live m2 b = live m1 b /\ forall i, dat m2 b i = dat m1 b i).
      { apply Fr2. destruct pb; [left; intros ->; congruence|auto]. }
      destruct Q1 as (Q1 & Q1'). destruct Q2 as (Q2 & Q2'). rewrite E3, Q2. split; [auto|].
      intros i Hi'. rewrite E4; [|congruence|auto]. now rewrite Q2'.
Qed.

End R.
