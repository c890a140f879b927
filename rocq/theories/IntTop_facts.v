(** * cake_sgemm computes in 32-bit ints what it computes in unbounded integers. *)

From Coq Require Import ZArith List Bool Lia.
From Verif Require Import SpecInt Lang Lang_facts Spec SpecTop ModelSizing ModelKernel ModelPack ModelSched ModelTop ModelInt
     Sizing_facts SizingMN_facts Init_facts CallAll_facts PackCall_facts Int_facts IntPack_facts IntTile_facts IntSize_facts IntK_facts IntMN_facts.
Open Scope Z_scope.

Lemma roundup_is D t r : 0 <= D -> 0 < t -> 0 < r -> (r | t) ->
  Z.quot D t * t + cdiv (Z.rem D t) r * r = round_up D r.
Proof.
  intros HD Ht Hr Hd. symmetry. apply roundup_uniq; auto.
  - apply Z.divide_add_r; [apply Z.divide_mul_r, Hd|apply Z.divide_factor_r].
  - apply padded_eq; auto.
Qed.

Lemma roundup_ge D r : 0 <= D -> 0 < r -> D <= round_up D r.
Proof. intros HD Hr. rewrite <- (roundup_is D r r) by (auto; reflexivity). apply (padded_eq D r r); auto. Qed.

Section Top.
Variables (S : scalar) (F : fpenv) (ar : arch) (q : cntx) (nz : elt S -> bool) (M N K p : Z) (c : cntx).
Variables (s : sched) (mcu kcu ncu : Z).
Hypotheses (HM : 0 <= M) (HN : 0 <= N) (HK : 0 <= K) (Hp : 0 < p) (Hmr : 0 < mr c) (Hnr : 0 < nr c).
Hypothesis Ht : tiles_ok F M p c mcu kcu ncu.
Hypothesis L : dims32 c M N K p.
Hypothesis LF : sizing32 F c p.
Hypothesis LT : forall x c', init_block_dims F M N K p c s mcu kcu ncu = CRet (x, c') -> tiles32 (sch x) p (m_c x) (k_c x) (n_c x).

Lemma mr_32 : 0 < mr c < 2 ^ 31 /\ 0 < nr c < 2 ^ 31 /\ 0 <= M < 2 ^ 31 /\ 0 <= N < 2 ^ 31 /\ 0 <= K < 2 ^ 31 /\ 0 < p < 2 ^ 31.
Proof.
  destruct L as (L1 & L2 & L3 & L4). pose proof (s32_pm _ _ _ LF). pose proof (s32_nr _ _ _ LF).
  pose proof (roundup_ge M (mr c) HM Hmr). pose proof (roundup_ge N (nr c) HN Hnr). nia.
Qed.

(** what the sizing returns *)
Lemma sized : exists x c', init_block_dims F M N K p c s mcu kcu ncu = CRet (x, c') /\
  init_block_dims32 F M N K p c s mcu kcu ncu = CRet (x, c') /\ mr c' = mr c /\ nr c' = nr c /\
  (mr c | m_c x) /\ (nr c | n_c x) /\ 0 < m_c x /\ 0 < k_c x /\ 0 < n_c x /\ plan M N K p c (sch x) x /\ sch x <> NA /\
  (user_tiles c mcu kcu ncu -> m_c x = mcu /\ k_c x = kcu /\ n_c x = ncu).
Proof.
  destruct mr_32 as (R1 & R2 & R3 & R4 & R5 & R6).
  destruct (cache_dims_ok F M N K p c s mcu kcu ncu HM Hp Hmr Hnr Ht) as (cd & al & E & A1 & A2 & A3 & A4 & A5 & A6 & A7 & A8).
  pose proof (cache_dims_32 F M N K p c s mcu kcu ncu R3 R6 R1 R2 LF) as E32. rewrite E in E32.
  set (c' := Cntx al (mr c) (nr c) (m_map c) (n_map c) (L1 c) (L2 c) (L3 c) (ncores c)).
  set (s' := cd_sch cd) in *.
  assert (X : exists x, dims_of s' M N K p (cd_m_c cd) (cd_k_c cd) (cd_n_c cd) (mr c) (nr c) = CRet x /\
     m_c x = cd_m_c cd /\ k_c x = cd_k_c cd /\ n_c x = cd_n_c cd /\ sch x = s' /\ plan M N K p c s' x).
  { destruct s'; try congruence.
    - destruct (dims_KMN_total M N K p (cd_m_c cd) (cd_k_c cd) (cd_n_c cd) (mr c) (nr c)) as (x & Ex); auto.
      destruct (dims_KMN_facts M N K p _ _ _ (mr c) (nr c) x HM HN HK Hp A1 A2 A3 Hmr Hnr A4 A5 Ex) as (P1 & P2 & P3 & P4 & P5).
      exists x. cbn [plan]. auto 10.
    - destruct (dims_MKN_facts M N K p _ _ _ (mr c) (nr c) HM HN HK Hp A1 A2 A3 Hmr Hnr A4 A5) as (x & P0 & P1 & P2 & P3 & P4 & P5 & P6).
      exists x. rewrite <- P2 in P1. cbn [plan]. auto 10.
    - destruct (dims_NKM_facts M N K p _ _ _ (mr c) (nr c) HM HN HK Hp A1 A2 A3 Hmr Hnr A4 A5) as (x & P0 & P1 & P2 & P3 & P4 & P5 & P6).
      exists x. rewrite <- P2 in P1. cbn [plan]. auto 10. }
  destruct X as (x & X1 & X2 & X3 & X4 & X5 & X6).
  assert (E1 : init_block_dims F M N K p c s mcu kcu ncu = CRet (x, c')).
  { unfold init_block_dims. rewrite E. cbn [cbind fst snd]. fold s'. unfold dims_of in X1. destruct s'; rewrite X1; reflexivity. }
  pose proof (LT _ _ E1) as T. rewrite X5, X2, X3, X4 in T.
  destruct (plan_padded M N K p c s' x Hmr Hnr X6) as (Em & En).
  destruct L as (Lm & Ln & Lk & Lp).
  assert (E2 : init_block_dims32 F M N K p c s mcu kcu ncu = CRet (x, c')).
  { unfold init_block_dims32. rewrite E32. cbn [cbind fst snd]. fold s'. unfold dims_of in X1. unfold tiles32 in T.
    destruct s'; try congruence.
    - rewrite (dims_KMN_32 M N K p _ _ _ (mr c) (nr c)) with (x := x); auto; lia.
    - rewrite (dims_MKN_32 M N K p _ _ _ (mr c) (nr c)) with (x := x); auto; lia.
    - rewrite (dims_NKM_32 M N K p _ _ _ (mr c) (nr c)) with (x := x); auto; lia. }
  exists x, c'. rewrite X2, X3, X4, X5. cbn [mr nr c']. repeat (split; [now auto|]). auto.
Qed.

Lemma padded_32 x : plan M N K p c (sch x) x -> (mr c | m_c x) -> (nr c | n_c x) -> 0 < m_c x -> 0 < k_c x -> 0 < n_c x ->
  sch x <> NA -> tiles32 (sch x) p (m_c x) (k_c x) (n_c x) ->
  M_padded32 M p x (mr c) (sch x) = CRet (round_up M (mr c)) /\ N_padded32 N x (nr c) = CRet (round_up N (nr c)).
Proof.
  intros P Dm Dn Zm Zk Zn Hs T. destruct mr_32 as (R1 & R2 & R3 & R4 & R5 & R6).
  destruct L as (Lm & Ln & Lk & Lp).
  assert (HT : let t := match sch x with MKN => m_c x | _ => p * m_c x end in 0 < t < 2 ^ 31 /\ (mr c | t)).
  { unfold tiles32 in T. destruct (sch x); cbv zeta; try congruence; (split; [nia|auto using Z.divide_mul_r]). }
  cbv zeta in HT. destruct HT as [HT1 HT2].
  pose proof (roundup_is M _ (mr c) HM (proj1 HT1) Hmr HT2) as EM.
  assert (EN : N - Z.rem N (n_c x) + cdiv (Z.rem N (n_c x)) (nr c) * nr c = round_up N (nr c)).
  { rewrite <- (roundup_is N (n_c x) (nr c)) by auto. pose proof (Z.quot_rem N (n_c x) ltac:(lia)). lia. }
  assert (T' : m_c x < 2 ^ 31 /\ n_c x < 2 ^ 31) by (unfold tiles32 in T; tauto). split.
  - rewrite Mp_32; try lia; auto. exact (f_equal CRet EM).
  - rewrite Np_32; try lia. now rewrite EN.
Qed.

(** the size of the packed copy of A does not fit *)
Theorem big_A oc pb alpha beta m0 : match oc with Some c1 => c1 | None => q end = c ->
  2 ^ 31 <= round_up M (mr c) * K ->
  let P := cake_sgemm32 S F ar q nz M N K p oc false pb alpha beta s mcu kcu ncu in
  (exists o, pexec P m0 o) /\ forall o, pexec P m0 o -> o = Undef.
Proof.
  intros Hoc Hbig P.
  destruct sized as (x & c' & E1 & E2 & Em & En & Dm & Dn & Zm & Zk & Zn & Pl & Hs & _).
  pose proof (LT _ _ E1) as T. destruct (padded_32 x Pl Dm Dn Zm Zk Zn Hs T) as (EM & _).
  assert (SA : packed_A_size32 M K p x (mr c) (sch x) = CUB).
  { unfold packed_A_size32. rewrite EM. cbn [cbind]. unfold cint. cbn [isafe ival].
    unfold in_int. destruct (Z.ltb_spec (round_up M (mr c) * K) (2 ^ 31)); [lia|]. now rewrite !andb_false_r. }
  assert (G : forall m, (exists o, pexec (PAlloc xbuf 1 false None (PUB (V := elt S) (R := cntx))) m o) /\
     forall o, pexec (PAlloc xbuf 1 false None (PUB (V := elt S) (R := cntx))) m o -> o = Undef).
  { intros m. split.
    - destruct (live m xbuf) eqn:El; [exists Undef; apply PE_alloc_ub; right; congruence|].
      exists Undef. apply PE_alloc; [lia|auto|constructor].
    - intros o H. inversion H; subst; auto.
      match goal with H0 : pexec PUB _ _ |- _ => inversion H0; auto end. }
  assert (EP : P = match oc with Some _ => PAlloc xbuf 1 false None PUB
                   | None => PAlloc cbuf 1 false None (PAlloc xbuf 1 false None PUB) end).
  { unfold P, cake_sgemm32. destruct oc; cbn [get_ctx pbind palloc]; rewrite Hoc, E2; cbn [lift pbind fst snd]; rewrite Em, SA; reflexivity. }
  rewrite EP. destruct oc; [apply G|]. split.
  - destruct (live m0 cbuf) eqn:El; [exists Undef; apply PE_alloc_ub; right; congruence|].
    destruct (proj1 (G (do_alloc m0 cbuf 1 false None))) as (o & Ho). exists o. apply PE_alloc; [lia|auto|exact Ho].
  - intros o H. inversion H; subst; auto. eapply (proj2 (G _)); eauto.
Qed.

Hypothesis LL : sizes32 c M N K p.

Lemma packed_32 x : plan M N K p c (sch x) x -> (mr c | m_c x) -> (nr c | n_c x) -> 0 < m_c x -> 0 < k_c x -> 0 < n_c x ->
  sch x <> NA -> tiles32 (sch x) p (m_c x) (k_c x) (n_c x) ->
  packed_A_size32 M K p x (mr c) (sch x) = packed_A_size M K p x (mr c) (sch x) /\
  packed_B_size32 K N x (nr c) = packed_B_size K N x (nr c) /\
  packed_C_size32 M N p x (mr c) (nr c) (sch x) = packed_C_size M N p x (mr c) (nr c) (sch x).
Proof.
  intros P Dm Dn Zm Zk Zn Hs T. destruct mr_32 as (R1 & R2 & R3 & R4 & R5 & R6).
  destruct (plan_sizes M N K p c (sch x) x P) as (-> & -> & ->).
  destruct (plan_padded M N K p c (sch x) x Hmr Hnr P) as (Em & En).
  destruct L as (Lm & Ln & Lk & Lp). destruct LL as (_ & La & Lb & Lc).
  destruct (padded_32 x P Dm Dn Zm Zk Zn Hs T) as (E1 & E2).
  pose proof (roundup_ge M (mr c) HM Hmr). pose proof (roundup_ge N (nr c) HN Hnr).
  unfold packed_A_size32, packed_B_size32, packed_C_size32. rewrite E1, E2. cbn [cbind]. rewrite Em, En.
  pose proof (mul_ge0 (round_up M (mr c)) K ltac:(lia) ltac:(lia)).
  pose proof (mul_ge0 K (round_up N (nr c)) ltac:(lia) ltac:(lia)).
  pose proof (mul_ge0 (round_up M (mr c)) (round_up N (nr c)) ltac:(lia) ltac:(lia)).
  rewrite !cint_ok by (safe; lia). auto.
Qed.

Lemma pbind_eq {A B} (a a' : prog (elt S) A) (f g : A -> prog (elt S) B) :
  a = a' -> (forall v, f v = g v) -> pbind a f = pbind a' g.
Proof. intros -> H. assert (f = g) as -> by (apply FunctionalExtensionality.functional_extensionality; auto). reflexivity. Qed.

Theorem call_32 oc pa pb alpha beta : match oc with Some c1 => c1 | None => q end = c ->
  (nz beta = false \/
   forall x c', init_block_dims F M N K p c s mcu kcu ncu = CRet (x, c') -> beta32 (sch x) c M N p (m_c x)) ->
  cake_sgemm32 S F ar q nz M N K p oc pa pb alpha beta s mcu kcu ncu =
  cake_sgemm S F ar q nz M N K p oc pa pb alpha beta s mcu kcu ncu.
Proof.
  intros Hoc HB. destruct mr_32 as (R1 & R2 & R3 & R4 & R5 & R6).
  destruct sized as (x & c' & E1 & E2 & Em & En & Dm & Dn & Zm & Zk & Zn & P & Hs & _).
  pose proof (LT _ _ E1) as T. destruct (packed_32 x P Dm Dn Zm Zk Zn Hs T) as (SA & SB & SC).
  assert (HB' : nz beta = false \/ beta32 (sch x) c M N p (m_c x)) by (destruct HB; eauto).
  destruct (plan_padded M N K p c (sch x) x Hmr Hnr P) as (EM & EN).
  destruct L as (Lm & Ln & Lk & Lp). destruct LL as (_ & La & Lb & Lc). unfold beta32 in HB'. rewrite <- EM, <- EN in *.
  assert (HA : pack_A32 S (BufA, 0) (BufAp 0, 0) M K p x c' (sch x) = pack_A S (BufA, 0) (BufAp 0, 0) M K p x c' (sch x)).
  { unfold pack_A32, pack_A, tiles32 in *. rewrite Em. destruct (sch x); try congruence; cbn [plan] in P; destruct P as (P & _).
    - apply (pack_A_32 S M N K p (mr c) (nr c) x); auto; lia.
    - change (bf M N K p (mr c) (nr c) (m_c x) (mf_mt x) x) in P. apply (m_packA_32 S M N K p (mr c) (nr c) x); auto; lia.
    - change (bf M N K p (mr c) (nr c) (p * m_c x) (nf_mt x p) x) in P. apply (n_packA_32 S M N K p (mr c) (nr c) x); auto; lia. }
  assert (HBp : pack_B32 S (BufB, 0) (BufBp, 0) K N p x c' (sch x) = pack_B S (BufB, 0) (BufBp, 0) K N p x c' (sch x)).
  { unfold pack_B32, pack_B, tiles32 in *. rewrite En. destruct (sch x); try congruence; cbn [plan] in P; destruct P as (P & _).
    - apply (pack_B_32 S M N K p (mr c) (nr c) x); auto; lia.
    - change (bf M N K p (mr c) (nr c) (m_c x) (mf_mt x) x) in P. apply (packB_m_32 S M N K p (mr c) (nr c) (m_c x) (mf_mt x) x); auto; lia.
    - change (bf M N K p (mr c) (nr c) (p * m_c x) (nf_mt x p) x) in P. apply (packB_n_32 S M N K p (mr c) (nr c) (p * m_c x) (nf_mt x p) x); auto; lia. }
  assert (HBody : forall A_p B_p, 
    match sch x with
    | KMN => pbind (pint (IxMul (IxV (m_c x)) (IxV (n_c x)))) (fun sz => pbind (alloc_Cp S p sz) (fun _ =>
       pbind (schedule_KMN32 S ar A_p B_p (BufC, 0) M N K p c' x) (fun _ => free_Cp S p)))
    | _ => pbind (lift S (packed_C_size32 M N p x (mr c') (nr c') (sch x))) (fun sz =>
        pbind (if nz beta then pbind (palloc (BufCp 0) sz true None) (fun _ =>
          pack_C32 S (BufC, 0) (BufCp 0, 0) M N p x c' (sch x))
        else palloc (BufCp 0) sz false (Some (zero S))) (fun _ =>
       pbind (schedule32 S ar A_p B_p (BufCp 0, 0) M N K p c' x (sch x)) (fun _ =>
       pbind (unpack_C32 S (BufC, 0) (BufCp 0, 0) M N p x c' (sch x)) (fun _ =>
       pfree (BufCp 0)))))
    end =
    match sch x with
    | KMN => pbind (alloc_Cp S p (m_c x * n_c x)) (fun _ =>
       pbind (schedule_KMN S ar A_p B_p (BufC, 0) M N K p c' x) (fun _ => free_Cp S p))
    | _ => pbind (lift S (packed_C_size M N p x (mr c') (nr c') (sch x))) (fun sz =>
        pbind (if nz beta then pbind (palloc (BufCp 0) sz true None) (fun _ =>
          pack_C S (BufC, 0) (BufCp 0, 0) M N p x c' (sch x))
        else palloc (BufCp 0) sz false (Some (zero S))) (fun _ =>
       pbind (schedule S ar A_p B_p (BufCp 0, 0) M N K p c' x (sch x)) (fun _ =>
       pbind (unpack_C S (BufC, 0) (BufCp 0, 0) M N p x c' (sch x)) (fun _ =>
       pfree (BufCp 0)))))
    end).
  { intros A_p B_p. unfold schedule32, schedule, pack_C32, pack_C, unpack_C32, unpack_C, tiles32 in *. rewrite Em, En.
    destruct (sch x); try congruence; cbn [plan] in P; destruct P as (P & _).
    - unfold pint. pose proof (mul_ge0 (m_c x) (n_c x) ltac:(lia) ltac:(lia)).
      assert (isafe (IxMul (IxV (m_c x)) (IxV (n_c x))) = true) as -> by (safe; lia). cbn [pbind ival].
      apply pbind_eq; auto. intros _. apply pbind_eq; auto. apply (schedule_32 S M N K p (mr c) (nr c) x); auto; lia.
    - change (bf M N K p (mr c) (nr c) (m_c x) (mf_mt x) x) in P. rewrite SC. apply pbind_eq; auto. intros sz. apply pbind_eq; [destruct (nz beta); auto; apply pbind_eq; auto; intros _|intros _; apply pbind_eq; [|intros _; apply pbind_eq; auto]].
      + apply (m_packC_32 S M N K p (mr c) (nr c) x); auto; lia.
      + apply (m_schedule_32 S M N K p (mr c) (nr c) x); auto; lia.
      + apply (m_unpackC_32 S M N K p (mr c) (nr c) x); auto; lia.
    - change (bf M N K p (mr c) (nr c) (p * m_c x) (nf_mt x p) x) in P. rewrite SC. apply pbind_eq; auto. intros sz. apply pbind_eq; [destruct (nz beta); auto; apply pbind_eq; auto; intros _|intros _; apply pbind_eq; [|intros _; apply pbind_eq; auto]].
      + destruct HB' as [HB'|HB']; [discriminate|]. specialize (HB' eq_refl). apply (n_packC_32 S M N K p (mr c) (nr c) x); auto; lia.
      + apply (n_schedule_32 S M N K p (mr c) (nr c) x); auto; lia.
      + apply (n_unpackC_32 S M N K p (mr c) (nr c) x); auto; lia. }
  unfold cake_sgemm32, cake_sgemm. 
  destruct oc; cbn [get_ctx pbind palloc]; rewrite ?Hoc; [f_equal|do 2 f_equal]; rewrite E1, E2; cbn [lift pbind fst snd].
  all: apply pbind_eq; [destruct pa; auto; rewrite Em, SA, HA; reflexivity|]; intros A_p;
    apply pbind_eq; [destruct pb; auto; rewrite En, SB, HBp; reflexivity|]; intros B_p;
    apply pbind_eq; [exact (HBody A_p B_p)|reflexivity].
Qed.

End Top.

(** tiles given by the caller *)
Lemma user_32 F M N K p c s mcu kcu ncu :
  0 <= M -> 0 <= N -> 0 <= K -> 0 < p -> 0 < mr c -> 0 < nr c ->
  user_tiles c mcu kcu ncu -> tiles32 s p mcu kcu ncu ->
  forall x c', init_block_dims F M N K p c s mcu kcu ncu = CRet (x, c') ->
  tiles32 (sch x) p (m_c x) (k_c x) (n_c x) /\ m_c x = mcu.
Proof.
  intros HM HN HK Hp Hmr Hnr Hu Ht x c' E.
  destruct (init_ok F M N K p c s mcu kcu ncu HM Hp Hmr Hnr (or_introl Hu)) as
    (mc & kc & nc & al & s' & E' & A1 & A2 & A3 & A4 & A5 & A6 & A7 & A8).
  destruct (A8 Hu) as (-> & -> & ->). rewrite E' in E. unfold dims_of in E.
  assert (G : m_c x = mcu /\ k_c x = kcu /\ n_c x = ncu /\ sch x = s').
  { destruct s'; try congruence.
    - destruct (dims_KMN M N K p mcu kcu ncu (mr c) (nr c)) as [y| |] eqn:Ey; try discriminate. injection E as <- _.
      destruct (dims_KMN_facts M N K p _ _ _ (mr c) (nr c) y HM HN HK Hp A1 A2 A3 Hmr Hnr A4 A5 Ey) as (P1 & P2 & P3 & P4 & P5). auto.
    - destruct (dims_MKN_facts M N K p _ _ _ (mr c) (nr c) HM HN HK Hp A1 A2 A3 Hmr Hnr A4 A5) as (y & P0 & P1 & P2 & P3 & P4 & P5 & P6).
      rewrite P0 in E. injection E as <- _. auto.
    - destruct (dims_NKM_facts M N K p _ _ _ (mr c) (nr c) HM HN HK Hp A1 A2 A3 Hmr Hnr A4 A5) as (y & P0 & P1 & P2 & P3 & P4 & P5 & P6).
      rewrite P0 in E. injection E as <- _. auto. }
  destruct G as (-> & -> & -> & ->). split; [|reflexivity]. unfold tiles32 in *.
  destruct s; [rewrite (A7 ltac:(discriminate))..|]; auto. destruct s'; intuition.
Qed.
