(** * Tiles of any size: when the result is A*B. *)

From Coq Require Import ZArith List Bool Lia Permutation.
From Verif Require Import Lang Lang_facts Spec SpecTop SpecMisfit ModelSizing ModelKernel ModelPack ModelSched ModelTop
     Kernel_facts Tile_facts Loop_facts Pack_facts Unpack_facts Sizing_facts SizingMN_facts PackMat_facts PackB_facts
     Order_facts Cphase_facts SchedK_facts Grid_facts PackMN_facts SchedMN_facts Frame_facts Init_facts TopK_facts TopMN_facts
     Call_facts CallAll_facts Mult_facts LargeTile_facts LargeTileK_facts.
Import ListNotations.
Open Scope Z_scope.

(** ** Legal tiles that give the same program *)

Lemma divide_dec a b : {(a | b)} + {~ (a | b)}.
Proof. apply Znumtheory.Zdivide_dec. Qed.

Lemma legal_rows s p m_r M mcu : 0 < p -> 0 < m_r -> 0 < mcu -> s <> NA ->
  ~ (block_rows s p mcu <= M /\ ~ (m_r | piece_rows s p mcu)) ->
  exists mc, mcu <= mc /\ (m_r | piece_rows s p mc) /\ (mc = mcu \/ M < block_rows s p mcu /\ M < block_rows s p mc).
Proof.
  intros Hp Hm Hmc Hs Hf. destruct (divide_dec m_r (piece_rows s p mcu)) as [D|D].
  - exists mcu. auto with zarith.
  - assert (L : M < block_rows s p mcu) by (destruct (Z_lt_le_dec M (block_rows s p mcu)); tauto).
    exists (mcu * m_r). split; [nia|split].
    + destruct s; cbn; [exists mcu; ring|exists mcu; ring|exists (p * mcu); ring|congruence].
    + right. split; [auto|]. destruct s; cbn [block_rows] in *; [nia|nia|nia|congruence].
Qed.

Lemma legal_columns n_r N ncu : 0 < n_r -> 0 < ncu -> ~ (ncu <= N /\ ~ (n_r | ncu)) ->
  exists nc, ncu <= nc /\ (n_r | nc) /\ (nc = ncu \/ N < ncu /\ N < nc).
Proof.
  intros Hn Hnc Hf. destruct (divide_dec n_r ncu) as [D|D].
  - exists ncu. auto with zarith.
  - assert (L : N < ncu) by (destruct (Z_lt_le_dec N ncu); tauto).
    exists (ncu * n_r). split; [nia|split; [exists ncu; ring|right; split; nia]].
Qed.

(** ** The blocking for tiles that fit in the sense of the schedule *)

Section NKM.
Variables (M N K p mc kc nc m_r n_r : Z).
Hypothesis HM : 0 <= M.
Hypothesis HN : 0 <= N.
Hypothesis HK : 0 <= K.
Hypothesis Hp : 0 < p.
Hypothesis Hmc : 0 < mc.
Hypothesis Hkc : 0 < kc.
Hypothesis Hnc : 0 < nc.
Hypothesis Hmr : 0 < m_r.
Hypothesis Hnr : 0 < n_r.
Hypothesis Dm : (m_r | p * mc).
Hypothesis Dn : (n_r | nc).

Lemma dims_NKM_facts' :
  exists x, dims_NKM M N K p mc kc nc m_r n_r = CRet x /\
    bf M N K p m_r n_r (p * mc) (nf_mt x p) x /\ m_c x = mc /\ k_c x = kc /\ n_c x = nc /\ sch x = NKM /\
    packed_A_size M K p x m_r NKM = CRet (M_padded x * K) /\
    packed_B_size K N x n_r = CRet (K * N_padded x) /\
    packed_C_size M N p x m_r n_r NKM = CRet (M_padded x * N_padded x).
Proof.
  unfold dims_NKM. assert (Hpk : 0 < p * kc) by nia. assert (Hpm : 0 < p * mc) by nia.
  rewrite !imod_pos, !idiv_pos by lia. cbn [cbind].
  rewrite !(iceil_pos _ m_r), !(iceil_pos _ n_r) by lia. rewrite (iceil_pos _ p) by lia. cbn [cbind].
  pose proof (Z.rem_bound_pos K (p * kc) HK Hpk) as Bk.
  rewrite pl_comp by lia. cbn [cbind].
  eexists. split; [reflexivity|].
  split; [|split; [reflexivity|split; [reflexivity|split; [reflexivity|split; [reflexivity|]]]]].
  - eapply (bf_intro M N K p kc nc m_r n_r (p * mc) HM HN HK Hp Hpm Hkc Hnc Hmr Hnr Dm Dn); cbn; try reflexivity.
  - unfold packed_A_size, packed_B_size, packed_C_size. cbn [m_c n_c M_padded N_padded].
    rewrite !imod_pos, !idiv_pos by lia. cbn [cbind]. rewrite !iceil_pos by lia. cbn [cbind].
    repeat split; auto; do 2 f_equal; ring.
Qed.
End NKM.

Lemma plan_any M N K p c s mc kc nc :
  0 <= M -> 0 <= N -> 0 <= K -> 0 < p -> 0 < mc -> 0 < kc -> 0 < nc -> 0 < mr c -> 0 < nr c -> s <> NA ->
  (mr c | piece_rows s p mc) -> (nr c | nc) ->
  exists x, dims_of s M N K p mc kc nc (mr c) (nr c) = CRet x /\ plan M N K p c s x /\
     m_c x = mc /\ k_c x = kc /\ n_c x = nc.
Proof.
  intros HM HN HK Hp H1 H2 H3 Hmr Hnr Hs D1 D2.
  destruct s; cbn [dims_of plan swap_of piece_rows] in *; [| | |congruence].
  - destruct (dims_KMN_total M N K p mc kc nc (mr c) (nr c)) as (x & Ex); try lia.
    destruct (dims_KMN_facts M N K p mc kc nc (mr c) (nr c) x) as (F' & E1 & E2 & E3 & Hsch); auto.
    exists x. auto 10.
  - unfold sch_s, tM_s, mt_s.
    destruct (dims_MKN_facts M N K p mc kc nc (mr c) (nr c)) as (x & Ex & F' & Em & Ek & En & Es & S1 & S2 & S3); auto.
    exists x. split; [exact Ex|]. rewrite Em. auto 10.
  - unfold sch_s, tM_s, mt_s.
    destruct (dims_NKM_facts' M N K p mc kc nc (mr c) (nr c)) as (x & Ex & F' & Em & Ek & En & Es & S1 & S2 & S3); auto.
    exists x. split; [exact Ex|]. rewrite Em. auto 10.
Qed.

(** ** What init_block_dims returns *)
Lemma init_any F M N K p c s mcu kcu ncu : 0 <= M -> 0 < p -> 0 < mr c -> 0 < mcu -> 0 < kcu -> 0 < ncu -> s <> NA ->
  init_block_dims F M N K p c s mcu kcu ncu =
    cbind (dims_of s M N K p mcu kcu ncu (mr c) (nr c)) (fun x =>
      CRet (x, Cntx (1, 1) (mr c) (nr c) (m_map c) (n_map c) (L1 c) (L2 c) (L3 c) (ncores c))).
Proof.
  intros HM Hp Hmr Hm Hk Hn Hs. unfold init_block_dims, get_cache_dims. cbv zeta. rewrite !imod_pos by lia. cbn [cbind].
  destruct (clip_mc_spec M p (mr c) (fp_mcL2 F (nr c) (L2 c) - Z.rem (fp_mcL2 F (nr c) (L2 c)) (mr c)) HM Hp Hmr) as (v & -> & _).
  cbn [cbind]. replace (truthy mcu && truthy ncu && truthy kcu) with true.
  2:{ unfold truthy. destruct (Z.eqb_spec mcu 0), (Z.eqb_spec ncu 0), (Z.eqb_spec kcu 0); try lia; reflexivity. }
  cbn [cbind fst snd cd_sch cd_m_c cd_k_c cd_n_c]. destruct s; try congruence; reflexivity.
Qed.

(** ** The shares *)

Lemma ceil_pos a b : 0 < b -> 0 <= a -> 0 <= ceil_div a b.
Proof. intros Hb Ha. apply Z.div_pos; lia. Qed.

Lemma share_kmn M N K p mcu kcu ncu mc nc m_r n_r x :
  0 <= M -> 0 <= N -> 0 < p -> 0 < mcu -> 0 < kcu -> 0 < ncu -> 0 < m_r -> 0 < n_r ->
  (mc = mcu \/ M < p * mcu /\ M < p * mc) -> (nc = ncu \/ N < ncu /\ N < nc) -> mcu <= mc -> ncu <= nc -> (m_r | mc) -> (n_r | nc) -> 
  dims_KMN M N K p mc kcu nc m_r n_r = CRet x -> kmn_facts M N K p m_r n_r x ->
  share_fits p m_r n_r M N mcu ncu ->
  forall n m core, 0 <= n < Nb x -> 0 <= m < Mb x -> 0 <= core < blk_pu x p m -> core_mt x m core * blk_nt x n <= mcu * ncu.
Proof.
  intros HM HN Hp Hm Hk Hn Hmr Hnr Em En Lm Ln Dm Dn E F Hf n m core Hn' Hm' Hc.
  unfold share_fits in Hf.
  pose proof (pt_w _ _ _ _ (kf_C _ _ _ _ _ _ _ F m Hm') core Hc) as W1. pose proof (kf_mx _ _ _ _ _ _ _ F m Hm') as W2.
  pose proof (pt_w _ _ _ _ (kf_N _ _ _ _ _ _ _ F) n Hn') as W3.
  destruct (dims_single KMN M N K p mc kcu nc m_r n_r x) as (_ & E1 & _ & E3 & E4 & E5); auto; try lia.
  assert (R : core_mt x m core <= share_rows p m_r M mcu).
  { unfold share_rows. destruct (Z.ltb_spec M (p * mcu)) as [L|L].
    - assert (L' : M < p * mc) by nia. destruct (E4 L' m Hm') as (_ & El). unfold core_mx in W1, W2. rewrite El in W1, W2.
      replace (ceil_div (ceil_div M m_r) p * m_r) with (m_c1 x); [lia|].
      unfold dims_KMN in E. rewrite !imod_pos, !idiv_pos in E by lia. cbn [cbind] in E.
      rewrite !(iceil_pos _ m_r), !(iceil_pos _ n_r) in E by lia. cbn [cbind] in E.
      rewrite (iceil_pos _ p) in E by lia. cbn [cbind] in E.
      destruct (if truthy _ then _ else _) as [pl| |]; try discriminate. cbn [cbind] in E. injection E as <-. cbn.
      rewrite Z.rem_small by lia. rewrite !ceil_div_cdiv by lia. reflexivity.
    - destruct Em as [->|Em]; [lia|lia]. }
  assert (C : blk_nt x n <= share_columns n_r N ncu).
  { unfold share_columns. destruct (Z.ltb_spec N ncu) as [L|L].
    - assert (L' : N < nc) by lia. destruct (E5 L' n Hn') as (_ & El). unfold blk_nt in *. rewrite El in *.
      replace (round_up N n_r) with (n_c1 x); [lia|].
      rewrite (kf_nc1 _ _ _ _ _ _ _ F), E3, Z.rem_small by lia. unfold round_up. rewrite ceil_div_cdiv by lia. reflexivity.
    - destruct En as [->|En]; [lia|lia]. }
  transitivity (share_rows p m_r M mcu * share_columns n_r N ncu); [|auto]. apply Z.mul_le_mono_nonneg; lia.
Qed.

Section Call.

Variable S : scalar.
Notation T := (elt S).

(** The program for the tiles asked for is that for legal ones. *)
Lemma same_program ar nz M N K p pa pb be s mcu kcu ncu mc nc c x :
  0 <= M -> 0 <= N -> 0 < p -> 0 < mcu -> 0 < kcu -> 0 < ncu -> 0 < mr c -> 0 < nr c -> mcu <= mc -> ncu <= nc ->
  (mc = mcu \/ M < block_rows s p mcu /\ M < block_rows s p mc) -> (nc = ncu \/ N < ncu /\ N < nc) ->
  (s <> KMN -> nz be = false) -> s <> NA ->
  dims_of s M N K p mc kcu nc (mr c) (nr c) = CRet x ->
  exists x0, dims_of s M N K p mcu kcu ncu (mr c) (nr c) = CRet x0 /\
    forall c', mr c' = mr c -> nr c' = nr c ->
    sgemm_after S ar nz M N K p pa pb be (x0, c') = after_L S (mcu * ncu) ar nz M N K p pa pb be (x, c').
Proof.
  intros HM HN Hp Hm Hk Hn Hmr Hnr Lm Ln Em En Hb Hs E.
  assert (X1 : exists x1, dims_of s M N K p mcu kcu nc (mr c) (nr c) = CRet x1 /\
     forall c', mr c' = mr c -> nr c' = nr c ->
       after_L S (mcu * ncu) ar nz M N K p pa pb be (x1, c') = after_L S (mcu * ncu) ar nz M N K p pa pb be (x, c')).
  { destruct Em as [->|(L1 & L2)]; [exists x; auto|].
    exists (setm x mcu). split; [eapply dims_setm; [..|exact E]; auto; lia|]. intros c' E1 E2.
    destruct (dims_single s M N K p mc kcu nc (mr c) (nr c) x) as (A1 & A2 & A3 & A4 & A5 & A6); auto; try lia.
    apply rows_L; rewrite ?A1, ?A2; auto; destruct s; cbn [block_rows] in *; lia. }
  destruct X1 as (x1 & E1 & P1).
  destruct (dims_single s M N K p mcu kcu nc (mr c) (nr c) x1) as (A1 & A2 & A3 & A4 & A5 & A6); auto; try lia.
  destruct En as [->|(L1 & L2)].
  - exists x1. split; [exact E1|]. intros c' F1 F2. rewrite after_is_L, A2, A4. auto.
  - exists (setn x1 ncu). split; [eapply dims_setn; [..|exact E1]; auto; lia|]. intros c' F1 F2.
    rewrite after_is_L. cbn [setn m_c n_c]. rewrite A2. rewrite <- P1 by auto. fold (setn x1 ncu).
    apply columns_L; rewrite ?A1, ?A4; auto; lia.
Qed.

Lemma after_L_MN L ar nz M N K p pa pb be x c : sch x <> KMN ->
  after_L S L ar nz M N K p pa pb be (x, c) = sgemm_after S ar nz M N K p pa pb be (x, c).
Proof.
  intros H. unfold after_L, sgemm_after. cbn [fst snd]. unfold mid_L, sgemm_mid. destruct (sch x); congruence || reflexivity.
Qed.

Lemma after_any L ar nz M N K p c s x t pa pb be A B m0 :
  arch_ok ar -> ctx_for ar s c -> 0 <= M -> 0 <= N -> 0 <= K -> 0 < p -> 0 <= L ->
  plan M N K p c s x -> (s <> KMN -> kguard K x <= K - t) ->
  (s <> KMN -> nz be = false) ->
  (s = KMN -> forall n m core, 0 <= n < Nb x -> 0 <= m < Mb x -> 0 <= core < blk_pu x p m -> core_mt x m core * blk_nt x n <= L) ->
  opA_s S M K p c x s pa A m0 -> opB_s S N K p c x s t pb B m0 -> at_least m0 BufC (M * N) ->
  (forall b, used p b -> b <> BufX 0 -> live m0 b = None) -> live m0 (BufX 0) <> None ->
  pok (after_L S L ar nz M N K p pa pb be (x, c)) m0
      (fun r m' => r = c /\
         holds m' BufC M N (product S A B (ords s p x)) /\
         (forall b, live m' b = if buf_eqb (BufX 0) b then None else live m0 b) /\
         (forall b i, ~ used p b -> ~ (b = BufC /\ 0 <= i < M * N) -> dat m' b i = dat m0 b i)).
Proof.
  intros Har Hc HM HN HK Hp HL HP Hg Hb Hs HA HB HC Hfr HX.
  destruct s; [| | |destruct HP].
  - cbn [plan ctx_for opA_s opB_s ords] in *. destruct HP as (F' & Es).
    apply (after_L_spec S ar nz M N K p x c HM HN HK Hp Har Hc F' Es L HL (Hs eq_refl)); auto.
  - assert (sch x <> KMN) by (destruct HP as (_ & -> & _); discriminate). rewrite after_L_MN by auto.
    pose proof (after_ok S ar nz M N K p c MKN x t pa pb be A B (fun _ _ => zero S) m0) as Q.
    rewrite Hb in Q by discriminate. apply Q; auto; discriminate.
  - assert (sch x <> KMN) by (destruct HP as (_ & -> & _); discriminate). rewrite after_L_MN by auto.
    pose proof (after_ok S ar nz M N K p c NKM x t pa pb be A B (fun _ _ => zero S) m0) as Q.
    rewrite Hb in Q by discriminate. apply Q; auto; discriminate.
Qed.

Theorem fitting_ok F ar q nz M N K p c al be s mcu kcu ncu t :
  s <> NA -> arch_ok ar -> ctx_for ar s c -> 0 <= M -> 0 <= N -> 0 <= K -> 0 < p ->
  0 < mcu -> 0 < kcu -> 0 < ncu -> (s <> KMN -> nz be = false) ->
  ~ misfit s p (mr c) (nr c) M N mcu ncu -> (s = KMN -> share_fits p (mr c) (nr c) M N mcu ncu) ->
  0 <= t <= k_tail K p kcu ->
  exists ord c', orders K ord /\ same_ctx c c' /\
    forall A B m0, caller m0 M N K A B -> (s <> KMN -> B_rim m0 N K (nr c) t) ->
      always (cake_sgemm S F ar q nz M N K p (Some c) false false al be s mcu kcu ncu) m0
        (fun r m' => r = c' /\ holds m' BufC M N (product S A B ord) /\ only_C_changed m0 m' M N).
Proof.
  intros Hs Har Hc HM HN HK Hp Hm Hk Hn Hb Hf Hsh Ht.
  destruct (ctx_for_pos ar s c Har Hc) as (Hmr & Hnr). unfold misfit in Hf.
  destruct (legal_rows s p (mr c) M mcu Hp Hmr Hm Hs) as (mc & Lm & Dm & Em); [tauto|].
  destruct (legal_columns (nr c) N ncu Hnr Hn) as (nc & Ln & Dn & En); [tauto|].
  set (c' := Cntx (1, 1) (mr c) (nr c) (m_map c) (n_map c) (L1 c) (L2 c) (L3 c) (ncores c)).
  destruct (plan_any M N K p c' s mc kcu nc) as (x & Ex & HP & X1 & X2 & X3); auto; try lia.
  cbn [c' mr nr] in Ex.
  destruct (same_program ar nz M N K p false false be s mcu kcu ncu mc nc c x) as (x0 & Ex0 & Eprog); auto.
  assert (Hc' : ctx_for ar s c') by (destruct s; exact Hc).
  exists (ords s p x), c'. split; [eapply ords_perm; eauto|split; [repeat split|]].
  intros A B m0 Hcl Hrim. apply pok_always.
  pose proof (caller_ops S m0 M N K A B p Hcl) as Hfr.
  destruct Hcl as ((ba & LA1 & LA2) & HA & (bb & LB1 & LB2) & HB & (bc & LC1 & LC2) & _).
  assert (Hi : init_block_dims F M N K p c s mcu kcu ncu = CRet (x0, c')).
  { rewrite init_any by auto. rewrite Ex0. reflexivity. }
  apply (sgemm_call S F ar q nz M N K p c false false al be s mcu kcu ncu x0 c' _ m0 Hi Hfr).
  rewrite (Eprog c' eq_refl eq_refl).
  set (m1 := do_alloc m0 (BufX 0) 1 false None).
  assert (Lv : forall b, b <> BufX 0 -> live m1 b = live m0 b).
  { intros b Hb1. unfold m1. now rewrite live_alloc, buf_eqb_neq by auto. }
  assert (Dt : forall b i, b <> BufX 0 -> dat m1 b i = dat m0 b i).
  { intros b i Hb1. unfold m1. now rewrite dat_alloc, buf_eqb_neq by auto. }
  assert (HA1 : holds m1 BufA M K A) by (eapply holds_local; [intros; apply Dt; discriminate|exact HA]).
  assert (HB1 : holds m1 BufB K N B) by (eapply holds_local; [intros; apply Dt; discriminate|exact HB]).
  assert (LA : live m1 BufA = Some ba) by (rewrite Lv by discriminate; auto).
  assert (LB : live m1 BufB = Some bb) by (rewrite Lv by discriminate; auto).
  apply (after_any (mcu * ncu) ar nz M N K p c' s x t false false be A B m1); auto.
  - nia.
  - intros Hk'. rewrite (dims_guard (swap_of s) M N K p mc kcu nc (mr c) (nr c) x); auto; try lia.
    rewrite <- Ex. destruct s; try congruence; reflexivity.
  - intros E. subst s. cbn [block_rows piece_rows plan] in *. destruct HP as (F' & _).
    eapply share_kmn; [..|exact Ex|exact F'|auto]; auto.
  - destruct s; cbn [opA_s]; try congruence; exists ba; auto.
  - assert (R : s <> KMN -> at_least m1 BufB (K * N) /\ holds m1 BufB K N B /\ B_rim m1 N K (nr c') t).
    { intros Hk'. split; [exists bb; auto|split; [auto|]]. intros k j Hk2 Hj.
      destruct (Hrim Hk' k j Hk2 Hj) as (bi & v & R1 & R2 & R3). exists bi, v.
      rewrite Lv, Dt by discriminate. auto. }
    destruct s; cbn [opB_s]; [exists bb; auto|apply R; discriminate|apply R; discriminate|congruence].
  - exists bc. rewrite Lv by discriminate. auto.
  - intros b Hu Hb'. rewrite Lv; auto.
  - unfold m1. rewrite live_alloc. cbn. discriminate.
Qed.

End Call.
