(** * The packing functions for every schedule, and calls with operands packed beforehand. *)

From Coq Require Import ZArith List Bool Lia Permutation.
From Verif Require Import Lang Lang_facts Spec SpecTop SpecPack ModelSizing ModelKernel ModelPack ModelSched ModelTop
     Kernel_facts Tile_facts Loop_facts Pack_facts Unpack_facts Sizing_facts SizingMN_facts PackMat_facts PackB_facts
     Order_facts Cphase_facts SchedK_facts Grid_facts PackMN_facts SchedMN_facts Frame_facts Init_facts TopK_facts TopMN_facts
     Call_facts CallAll_facts Mult_facts Misc_facts Packed_facts CpackK_facts.
Import ListNotations.
Open Scope Z_scope.

(** ** Sizes *)
Lemma kmn_Md M N K p m_r n_r x : kmn_facts M N K p m_r n_r x -> 0 < m_r -> (m_r | M_padded x).
Proof.
  intros F Hmr. pose proof (kf_M _ _ _ _ _ _ _ F) as PM. pose proof (pt_nb _ _ _ _ PM) as Hn.
  destruct (Z.eq_dec (Mb x) 0) as [E|E].
  - rewrite (pt_0 _ _ _ _ PM E). apply Z.divide_0_r.
  - rewrite <- (pt_last _ _ _ _ PM) by lia. pose proof (kf_mcd _ _ _ _ _ _ _ F) as D.
    apply Z.divide_add_r; [apply Z.divide_mul_r, Z.divide_mul_r, D|].
    unfold blk_mcb. destruct (is_last _ _ _); [apply Z.divide_factor_l|apply Z.divide_mul_r, D].
Qed.
Lemma kmn_Nd M N K p m_r n_r x : kmn_facts M N K p m_r n_r x -> 0 < n_r -> (n_r | N_padded x).
Proof.
  intros F Hnr. pose proof (kf_N _ _ _ _ _ _ _ F) as PN. pose proof (pt_nb _ _ _ _ PN) as Hn.
  destruct (Z.eq_dec (Nb x) 0) as [E|E].
  - rewrite (pt_0 _ _ _ _ PN E). apply Z.divide_0_r.
  - rewrite <- (pt_last _ _ _ _ PN) by lia. pose proof (kf_ncd _ _ _ _ _ _ _ F) as D.
    apply Z.divide_add_r; [apply Z.divide_mul_r, D|]. apply (kf_nr _ _ _ _ _ _ _ F); lia.
Qed.

Section P.
Variable S : scalar.
Notation T := (elt S).

Lemma plan_padded M N K p c s x : 0 < mr c -> 0 < nr c -> plan M N K p c s x ->
  M_padded x = round_up M (mr c) /\ N_padded x = round_up N (nr c).
Proof.
  intros Hmr Hnr P. destruct s; cbn in P.
  - destruct P as (F & _). split; symmetry; apply roundup_uniq; auto.
    + eapply kmn_Md; eauto. + pose proof (kf_Mp _ _ _ _ _ _ _ F). pose proof (kf_Mpu _ _ _ _ _ _ _ F). lia.
    + eapply kmn_Nd; eauto. + pose proof (kf_Np _ _ _ _ _ _ _ F). pose proof (kf_Npu _ _ _ _ _ _ _ F). lia.
  - destruct P as (F & _). split; symmetry; apply roundup_uniq; auto.
    + eapply bf_Md; eauto. + apply (bf_Mp _ _ _ _ _ _ _ _ _ F). + apply (bf_Npd _ _ _ _ _ _ _ _ _ F). + apply (bf_Np _ _ _ _ _ _ _ _ _ F).
  - destruct P as (F & _). split; symmetry; apply roundup_uniq; auto.
    + eapply bf_Md; eauto. + apply (bf_Mp _ _ _ _ _ _ _ _ _ F). + apply (bf_Npd _ _ _ _ _ _ _ _ _ F). + apply (bf_Np _ _ _ _ _ _ _ _ _ F).
  - destruct P.
Qed.

Lemma plan_sizes M N K p c s x : plan M N K p c s x ->
  packed_A_size M K p x (mr c) (sch x) = CRet (M_padded x * K) /\
  packed_B_size K N x (nr c) = CRet (K * N_padded x) /\
  packed_C_size M N p x (mr c) (nr c) (sch x) = CRet (M_padded x * N_padded x).
Proof.
  intros P. destruct s; cbn in P.
  - destruct P as (F & ->). split; [apply F|split; apply F].
  - destruct P as (F & -> & H). exact H.
  - destruct P as (F & -> & H). exact H.
  - destruct P.
Qed.

Lemma plan_sch M N K p c s x : plan M N K p c s x -> sch x = s.
Proof. destruct s; cbn; tauto. Qed.

(** ** The packing functions *)
Definition packedA_any (s : sched) (p K : Z) (c : cntx) (x : blk_dims) (b : buf) (f : Z -> Z -> T) (m : mem T) : Prop :=
  match s with
  | KMN => packedA_KMN S x p (mr c) K b f m
  | _ => packedA_MN S p (mr c) (tM_s p x (swap_of s)) (mt_s p x (swap_of s)) x
           (abase_s K p (tM_s p x (swap_of s)) (mt_s p x (swap_of s)) x (swap_of s)) b f m
  end.
Definition packedB_any (s : sched) (p K : Z) (c : cntx) (x : blk_dims) (b : buf) (f : Z -> Z -> T) (m : mem T) : Prop :=
  match s with
  | KMN => packedB_KMN S x (nr c) K b f m
  | _ => packedB_MN S p (nr c) x (bbase_s K p x (swap_of s)) b f m
  end.
Definition packedC_any (s : sched) (p : Z) (c : cntx) (x : blk_dims) (b : buf) (f : Z -> Z -> T) (m : mem T) : Prop :=
  match s with
  | KMN => cpacked_K S p (mr c) (nr c) x m b f
  | _ => cpacked S (mr c) (nr c) (tM_s p x (swap_of s)) (mt_s p x (swap_of s)) x (swap_of s) m b f
  end.

Section Plan.
Variables (ar : arch) (M N K p : Z) (c : cntx) (s : sched) (x : blk_dims).
Hypotheses (Har : arch_ok ar) (Hc : ctx_for ar s c) (HM : 0 <= M) (HN : 0 <= N) (HK : 0 <= K) (Hp : 0 < p).
Hypothesis HP : plan M N K p c s x.

Lemma pack_A_any ab pb A bp m : ab <> pb -> at_least m ab (M * K) -> holds m ab M K A ->
  live m pb = Some bp -> M_padded x * K <= blen bp ->
  pok (pack_A S (ab, 0) (pb, 0) M K p x c s) m
      (fun _ m' => live m' = live m /\ same_out (rng pb 0 (M_padded x * K)) m m' /\
         packedA_any s p K c x pb (padrow S M A) m').
Proof.
  intros Hne (ba & HL & Hb) Hh HLp Hbp. destruct (ctx_for_pos ar s c Har Hc) as (Hmr & Hnr).
  destruct s; cbn [plan ctx_for] in *.
  - destruct HP as (F & _). unfold pack_A. eapply (pack_A_k_first_spec S); eauto.
  - destruct HP as (F & E1 & E2 & E3 & E4). 
    exact (packA_s S ar M N K p x c HK Hp Har Hc false F ab pb ba bp A m Hne HL Hb Hh HLp Hbp).
  - destruct HP as (F & E1 & E2 & E3 & E4). 
    exact (packA_s S ar M N K p x c HK Hp Har Hc true F ab pb ba bp A m Hne HL Hb Hh HLp Hbp).
  - destruct HP.
Qed.

Definition fB_src (N g : Z) (bb : buf) (m : mem T) (kk col : Z) : T :=
  if (g <=? kk) && (N <=? col) then zero S
  else match dat m bb (kk * N + col) with Some v => v | None => zero S end.

Lemma pack_B_any t bb pb B bp m : (s <> KMN -> kguard K x <= K - t) -> bb <> pb -> at_least m bb (K * N) -> holds m bb K N B ->
  (s <> KMN -> rim m bb N K (nr c) t) ->
  live m pb = Some bp -> K * N_padded x <= blen bp ->
  pok (pack_B S (bb, 0) (pb, 0) K N p x c s) m
      (fun _ m' => live m' = live m /\ same_out (rng pb 0 (K * N_padded x)) m m' /\
         exists f, packedB_any s p K c x pb f m' /\ (forall k j, 0 <= k < K -> 0 <= j < N -> f k j = B k j) /\
                   (s = KMN -> f = padcol S N B)).
Proof.
  intros Hg Hne (bi & HL & Hb) Hh Hrim HLp Hbp. destruct (ctx_for_pos ar s c Har Hc) as (Hmr & Hnr).
  assert (MN : s <> KMN -> N <= N_padded x < N + nr c -> (nr c | N_padded x) -> bsrc S N K x bb (fB_src N (kguard K x) bb m) m).
  { intros Hs HNp HNd. exists bi. split; [auto|].
    pose proof (roundup_uniq N (nr c) (N_padded x) Hnr HNd HNp) as Eru. specialize (Hg Hs). specialize (Hrim Hs).
    intros kk col Hkk Hcol. unfold fB_src.
    destruct ((kguard K x <=? kk) && (N <=? col)) eqn:Eg; [auto|].
    destruct (Z_lt_le_dec col N) as [L|L].
    * rewrite (Hh kk col) by lia. split; auto. nia.
    * assert (kk < kguard K x) by lia.
      destruct (Hrim kk col ltac:(lia) ltac:(rewrite Eru; lia)) as (bi' & v & Hl & Hlen & Hd).
      rewrite HL in Hl. injection Hl as <-. rewrite Hd. auto. }
  assert (EQ : forall k j, 0 <= k < K -> 0 <= j < N -> fB_src N (kguard K x) bb m k j = B k j).
  { intros k j Hk Hj. unfold fB_src. replace (N <=? j) with false by lia. rewrite andb_false_r. now rewrite (Hh k j) by lia. }
  destruct s; cbn [plan ctx_for] in *.
  - destruct HP as (F & _). unfold pack_B. eapply pok_mono; [eapply (pack_B_k_first_spec S); eauto|].
    cbv beta. intros _ m' (H1 & H2 & H3). split; [auto|split; [auto|]]. exists (padcol S N B). split; [exact H3|split; [|auto]].
    intros k j Hk Hj. unfold padcol. replace (j <? N) with true by lia. auto.
  - destruct HP as (F & E1 & E2 & E3 & E4). eapply pok_mono.
    { apply (packB_s S ar M N K p x c HN Hp Har Hc false F bb pb bp (fB_src N (kguard K x) bb m) m Hne); auto.
      apply MN; [discriminate|apply F|apply F]. }
    cbv beta. intros _ m' (H1 & H2 & H3). split; [auto|split; [auto|]]. eexists. split; [exact H3|split; [exact EQ|discriminate]].
  - destruct HP as (F & E1 & E2 & E3 & E4). eapply pok_mono.
    { apply (packB_s S ar M N K p x c HN Hp Har Hc true F bb pb bp (fB_src N (kguard K x) bb m) m Hne); auto.
      apply MN; [discriminate|apply F|apply F]. }
    cbv beta. intros _ m' (H1 & H2 & H3). split; [auto|split; [auto|]]. eexists. split; [exact H3|split; [exact EQ|discriminate]].
  - destruct HP.
Qed.

Lemma aligned_agrees : 0 < mr c -> 0 < nr c -> C_aligned s M N p c x ->
  s = NKM -> packC_agrees p x true.
Proof.
  intros Hmr Hnr Ha E. specialize (Ha E). unfold n_first_C_fits in Ha.
  destruct (plan_padded _ _ _ _ _ _ _ Hmr Hnr HP) as (E1 & E2). rewrite <- E1, <- E2 in Ha.
  rewrite E in HP. destruct HP as (F & _). eapply fits_agrees; eauto.
Qed.

Lemma pack_C_any cb pb C0 bp m : C_aligned s M N p c x -> cb <> pb -> at_least m cb (M * N) -> holds m cb M N C0 ->
  live m pb = Some bp -> M_padded x * N_padded x <= blen bp ->
  pok (pack_C S (cb, 0) (pb, 0) M N p x c s) m
      (fun _ m' => live m' = live m /\ same_out (rng pb 0 (M_padded x * N_padded x)) m m' /\
         packedC_any s p c x pb (padbox S M N C0) m').
Proof.
  intros Ha Hne (bc & HL & Hb) Hh HLp Hbp. destruct (ctx_for_pos ar s c Har Hc) as (Hmr & Hnr).
  pose proof (aligned_agrees Hmr Hnr Ha) as Hag.
  destruct s; cbn [plan ctx_for] in *.
  - destruct HP as (F & _). unfold pack_C. eapply (pack_C_k_first_spec S); eauto.
  - destruct HP as (F & E1 & E2 & E3 & E4).
    eapply (packC_s S ar M N K p x c HN Har Hc false F cb pb bc bp C0); auto. exact I.
  - destruct HP as (F & E1 & E2 & E3 & E4).
    eapply (packC_s S ar M N K p x c HN Har Hc true F cb pb bc bp C0); auto.
  - destruct HP.
Qed.

Lemma unpack_C_any cb pb f bp m : cb <> pb -> at_least m cb (M * N) ->
  live m pb = Some bp -> M_padded x * N_padded x <= blen bp -> packedC_any s p c x pb f m ->
  pok (unpack_C S (cb, 0) (pb, 0) M N p x c s) m
      (fun _ m' => live m' = live m /\ same_out (rng cb 0 (M * N)) m m' /\ holds m' cb M N f).
Proof.
  intros Hne (bc & HL & Hb) HLp Hbp Hpk. destruct (ctx_for_pos ar s c Har Hc) as (Hmr & Hnr).
  destruct s; cbn [plan ctx_for] in *.
  - destruct HP as (F & _). unfold unpack_C.
    eapply (unpack_C_k_first_spec S); eauto.
  - destruct HP as (F & E1 & E2 & E3 & E4).
    eapply (unpackC_s S ar M N K p x c HM HN Har Hc false F cb pb bc bp f); auto.
  - destruct HP as (F & E1 & E2 & E3 & E4).
    eapply (unpackC_s S ar M N K p x c HM HN Har Hc true F cb pb bc bp f); auto.
  - destruct HP.
Qed.

Lemma packedA_any_full b f m : packedA_any s p K c x b f m -> initialised m b (M_padded x * K).
Proof.
  destruct (ctx_for_pos ar s c Har Hc) as (Hmr & Hnr). intros H. destruct s; cbn [plan packedA_any] in *.
  - destruct HP as (F & _). eapply packedA_KMN_full; eauto.
  - destruct HP as (F & _). eapply packedA_MN_full; eauto.
  - destruct HP as (F & _). eapply packedA_MN_full; eauto.
  - destruct HP.
Qed.
Lemma packedB_any_full b f m : packedB_any s p K c x b f m -> initialised m b (K * N_padded x).
Proof.
  destruct (ctx_for_pos ar s c Har Hc) as (Hmr & Hnr). intros H. destruct s; cbn [plan packedB_any] in *.
  - destruct HP as (F & _). eapply packedB_KMN_full; eauto.
  - destruct HP as (F & _). eapply packedB_MN_full; eauto.
  - destruct HP as (F & _). eapply packedB_MN_full; eauto.
  - destruct HP.
Qed.
Lemma packedC_any_full b f m : packedC_any s p c x b f m -> initialised m b (M_padded x * N_padded x).
Proof.
  destruct (ctx_for_pos ar s c Har Hc) as (Hmr & Hnr). intros H. destruct s; cbn [plan packedC_any] in *.
  - destruct HP as (F & _). eapply cpacked_K_full; eauto.
  - destruct HP as (F & _). eapply cpacked_full; eauto.
  - destruct HP as (F & _). eapply cpacked_full; eauto.
  - destruct HP.
Qed.

End Plan.
End P.
