(** * The online and grid entry points compute in 32-bit ints what they compute in unbounded integers. *)

From Coq Require Import ZArith List Bool Lia.
From Verif Require Import SpecInt SpecIntGrid SpecTile Lang Lang_facts Spec SpecTop SpecOnline ModelSizing ModelKernel ModelPack ModelSched ModelTop
     ModelInt ModelIntGrid ModelIEEE Sizing_facts Init_facts Grid2_facts Grid_tab_facts TopMN_facts Top2d_facts Grid_call_facts Small2d_facts Online_facts
     CallAll_facts Mult_facts Machine_facts Int_facts IntPack_facts IntTile_facts IntSize_facts IntTop_facts IntCall_facts IntIEEE_facts IntGrid_facts IntSmall_facts
     IntGridSize_facts IntOnlineTop_facts Witness Witness_facts.
Open Scope Z_scope.

Lemma pint_ok {V} e : isafe e = true -> pint (V := V) e = PRet (ival e).
Proof. intros H. unfold pint. now rewrite H. Qed.

(** ** cake_sgemm_online *)

Lemma online32_is_call S so F ar q M N K p c oc mcu kcu ncu :
  legal F ar KMN c M N K p mcu kcu ncu -> match oc with Some c1 => c1 | None => q end = c ->
  sizes32 c M N K p -> sizing32 F c p ->
  (forall x c', init_block_dims F M N K p c KMN mcu kcu ncu = CRet (x, c') -> online32 p (m_c x) (k_c x) (n_c x)) ->
  cake_sgemm_online32 S so F ar q M N K p oc mcu kcu ncu = cake_sgemm_online S so F ar q M N K p oc mcu kcu ncu.
Proof.
  intros (Har & Hc & HM & HN & HK & Hp & Ht) Hoc L LF LT. destruct (ctx_for_pos ar KMN c Har Hc) as (Hmr & Hnr).
  apply (online_32 S F ar q M N K p c mcu kcu ncu); auto.
Qed.

Lemma online32_product S so F ar q M N K p c mcu kcu ncu :
  legal F ar KMN c M N K p mcu kcu ncu -> (so = true -> one_thread M N K p (mr c)) ->
  sizes32 c M N K p -> sizing32 F c p ->
  (forall x c', init_block_dims F M N K p c KMN mcu kcu ncu = CRet (x, c') -> online32 p (m_c x) (k_c x) (n_c x)) ->
  exists ord c', orders K ord /\ same_ctx c c' /\
    forall A B m0, caller m0 M N K A B -> A_rim m0 M K (mr c) -> B_rim m0 N K (nr c) 0 ->
      always (cake_sgemm_online32 S so F ar q M N K p (Some c) mcu kcu ncu) m0
        (fun r m' => r = c' /\ holds m' BufC M N (product S A B ord) /\ only_C_changed m0 m' M N).
Proof.
  intros Hl Hs L LF LT. rewrite (online32_is_call S so F ar q M N K p c (Some c)) by auto.
  exact (online_product S so F ar q M N K p c mcu kcu ncu Hl Hs).
Qed.

(** ** cake_sgemm_2d *)

Lemma mk_tile F c M N K p mcu kcu ncu : 0 < mr c -> tiles_2d F c mcu kcu ncu -> grid32 F c M N K p mcu kcu ncu ->
  exists m k, mk2d F c mcu kcu ncu = (m, k) /\ 0 < m /\ 0 < k /\ (mr c | m) /\ grid_tile32 c p m k /\
    (mcu = 0 \/ kcu = 0 \/ ncu = 0 -> 0 <= fp_mc2d F (nr c) (L2 c)).
Proof.
  intros Hmr Ht (_ & G1 & G2). unfold mk2d, truthy. destruct Ht as [(T1 & T2 & T3 & T4)|(T0 & T1 & T2)].
  - rewrite (proj2 (Z.eqb_neq mcu 0)), (proj2 (Z.eqb_neq ncu 0)), (proj2 (Z.eqb_neq kcu 0)) by lia. cbn [negb andb].
    exists mcu, kcu. assert (G : grid_tile32 c p mcu kcu) by (apply G1; lia). repeat split; auto; try apply G. lia.
  - replace (negb (mcu =? 0) && negb (ncu =? 0) && negb (kcu =? 0)) with false.
    2:{ destruct T0 as [-> | [-> | ->]]; cbn; now rewrite ?andb_false_r. }
    specialize (G2 T0). set (a := fp_mc2d F (nr c) (L2 c)) in *.
    pose proof (Z.quot_rem a (mr c) ltac:(lia)) as Q. pose proof (Z.rem_bound_pos a (mr c) ltac:(lia) Hmr) as B.
    assert (1 <= Z.quot a (mr c)) by (apply Z.quot_le_lower_bound; lia).
    assert (E : a - Z.rem a (mr c) = round_down a (mr c)).
    { unfold round_down. rewrite <- Z.quot_div_nonneg by lia. lia. }
    rewrite E. exists (round_down a (mr c)), (fp_kcmax F (L1 c) (mr c) (nr c)).
    split; [auto|]. rewrite <- E at 1 2. split; [nia|]. split; [auto|]. split; [exists (Z.quot a (mr c)); lia|]. split; [auto|lia].
Qed.

Lemma grid32_is_call S F ar q rows M N K p c oc mcu kcu ncu :
  legal_2d F ar rows c M N K p mcu kcu ncu -> match oc with Some c1 => c1 | None => q end = c ->
  grid32 F c M N K p mcu kcu ncu ->
  cake_sgemm_2d32 S F ar q rows M N K p oc mcu kcu ncu = cake_sgemm_2d S F ar q rows M N K p oc mcu kcu ncu.
Proof.
  intros (Har & Hc & HM & HN & HK & Hp & Hg & Ht) Hoc L.
  destruct (ctx_pos_min ar c Har Hc) as (Hmr & Hnr & _).
  destruct (mk_tile F c M N K p mcu kcu ncu Hmr Ht L) as (m & k & Em & Pm & Pk & Dm & (T1 & T2) & Hf2).
  destruct L as ((((LM & LN & LK & Lp) & LA & LB & LC) & Lco & LC1) & _).
  destruct Hg as (G1 & G2 & G3).
  destruct (grid_def F M N p (ncores c) rows ltac:(lia) Hp G2) as (D1 & D2). rewrite (want_aim F M N p Hp G2) in *.
  destruct (proj2 D1 (conj G1 G3)) as (v & Ev). destruct (D2 v Ev) as (Hv & _).
  destruct (dims_2d_32 F M N K p rows c mcu kcu ncu v m k) as (x & E1 & E2 & Fx & Ek & Bm & Bn & EM & EN); auto; try lia.
  pose proof (gf_mc _ _ _ _ _ _ _ Fx) as F1. pose proof (gf_nc _ _ _ _ _ _ _ Fx) as F3.
  pose proof (gf_pm _ _ _ _ _ _ _ Fx) as F4. pose proof (gf_pn _ _ _ _ _ _ _ Fx) as F5. pose proof (gf_kc _ _ _ _ _ _ _ Fx) as F2.
  pose proof (gf_pp _ _ _ _ _ _ _ Fx) as F6.
  assert (Ppm : pm x <= p) by nia. assert (Ppn : pn x <= p) by nia.
  pose proof (mul_mono (pm x) (m_c x) p (m + nr c) ltac:(lia) ltac:(lia)) as Q1.
  pose proof (mul_mono (pn x) (n_c x) p (m + nr c) ltac:(lia) ltac:(lia)) as Q2.
  pose proof (mul_mono (m_c x) (n_c x) m (m + nr c) ltac:(lia) ltac:(lia)) as Q3.
  pose proof (mul_mono (pm x * m_c x) (k_c x) (p * (m + nr c)) k ltac:(lia) ltac:(lia)) as Q4.
  pose proof (mul_mono (pn x * n_c x) (k_c x) (p * (m + nr c)) k ltac:(lia) ltac:(lia)) as Q5.
  destruct (fact_le (p * (m + nr c)) k ltac:(apply Z.mul_pos_pos; lia) Pk) as [Q6 Q7].
  assert (Hr1 : mr c < 2 ^ 31). { pose proof (Z.divide_pos_le (mr c) m Pm Dm). destruct (fact_le m (m + nr c)); lia. }
  assert (Hr2 : nr c < 2 ^ 31). { destruct (fact_le p (m + nr c)); lia. }
  assert (Sch : schedule_KMN_2d32 S ar (BufA, 0) (BufB, 0) (BufC, 0) M N K c x
     = schedule_KMN_2d S ar (BufA, 0) (BufB, 0) (BufC, 0) M N K c x).
  { rewrite <- EM in *. rewrite <- EN in *. apply (g_schedule S M N K p (mr c) (nr c) x); auto; try lia. }
  assert (I1 : pint (V := elt S) (pm x * m_c x * k_c x)%ix = PRet (pm x * m_c x * k_c x)) by (apply pint_ok; safe; lia).
  assert (I2 : pint (V := elt S) (pn x * n_c x * k_c x)%ix = PRet (pn x * n_c x * k_c x)) by (apply pint_ok; safe; lia).
  assert (I3 : pint (V := elt S) (m_c x * n_c x)%ix = PRet (m_c x * n_c x)) by (apply pint_ok; safe; lia).
  unfold cake_sgemm_2d32, cake_sgemm_2d.
  destruct oc; cbn [get_ctx pbind palloc]; rewrite ?Hoc; [f_equal|do 2 f_equal]; rewrite E1, E2; cbn [lift pbind fst snd];
    rewrite Sch, I1, I2, I3; reflexivity.
Qed.

Lemma grid32_product S F ar q rows M N K p c mcu kcu ncu :
  legal_2d F ar rows c M N K p mcu kcu ncu -> grid32 F c M N K p mcu kcu ncu ->
  exists ord, orders K ord /\
    forall A B m0, caller m0 M N K A B -> A_rim m0 M K (mr c) -> B_rim m0 N K (nr c) 0 ->
      always (cake_sgemm_2d32 S F ar q rows M N K p (Some c) mcu kcu ncu) m0
        (fun _ m' => holds m' BufC M N (product S A B ord) /\ only_C_changed m0 m' M N).
Proof.
  intros Hl L. rewrite (grid32_is_call S F ar q rows M N K p c (Some c)) by auto. now apply g2d_product.
Qed.

(** ** cake_sgemm_2d_small *)

Lemma small32_is_call S F ar q rows M N K p pn c oc :
  legal_small F ar rows c M N K p pn -> match oc with Some c1 => c1 | None => q end = c -> small32 F c M N K p pn ->
  cake_sgemm_2d_small32 S F ar q rows M N K p oc = cake_sgemm_2d_small S F ar q rows M N K p oc.
Proof.
  intros Hl Hoc L.
  destruct (small_dims_32 F ar rows c M N K p pn Hl L) as (x & E1 & E2 & Em & En & Ek & EM & EN).
  destruct (small_dims _ _ _ _ _ _ _ _ _ Hl) as (x' & E1' & Fx & Ep & HKb & D1 & D2 & P1 & P2 & L1 & L2).
  rewrite E1 in E1'. injection E1' as <-.
  destruct Hl as (Har & Hc & HM & HN & HK & Hp & _). destruct (ctx_pos_min ar c Har Hc) as (Hmr & Hnr & _).
  destruct L as ((((LM & LN & LK & Lp) & LA & LB & LC) & Lco & LC1) & Lr & Lmn & LAp & LBp).
  rewrite <- Ek, <- ?Em, <- ?En, <- ?EM, <- ?EN in *.
  pose proof (gf_mc _ _ _ _ _ _ _ Fx) as F1. pose proof (gf_nc _ _ _ _ _ _ _ Fx) as F3. pose proof (gf_kc _ _ _ _ _ _ _ Fx) as F2.
  cbn [as_2d m_c n_c k_c] in F1, F2, F3.
  pose proof (df_Dp _ _ _ _ _ _ _ _ _ _ _ (gf_M _ _ _ _ _ _ _ Fx)) as B1.
  pose proof (df_Dp _ _ _ _ _ _ _ _ _ _ _ (gf_N _ _ _ _ _ _ _ Fx)) as B2. cbn [as_2d M_padded N_padded] in B1, B2.
  destruct (fact_le (m_c x) (n_c x)) as [Q1 Q2]; try lia.
  assert (Hkm : k_c x <= m_c x) by lia.
  assert (Sch : schedule_KMN_2d_small32 S ar (BufA, 0) (BufB, 0) (BufC, 0) M N K p c x
     = schedule_KMN_2d_small S ar (BufA, 0) (BufB, 0) (BufC, 0) M N K p c x).
  { apply (s_schedule S M N K p (mr c) (nr c) x); auto; lia. }
  pose proof (mul_ge0 (M_padded x) (k_c x) ltac:(lia) ltac:(lia)). pose proof (mul_ge0 (k_c x) (N_padded x) ltac:(lia) ltac:(lia)).
  assert (I1 : pint (V := elt S) (M_padded x * k_c x)%ix = PRet (M_padded x * k_c x)) by (apply pint_ok; safe; lia).
  assert (I2 : pint (V := elt S) (k_c x * N_padded x)%ix = PRet (k_c x * N_padded x)) by (apply pint_ok; safe; lia).
  assert (I3 : pint (V := elt S) (m_c x * n_c x)%ix = PRet (m_c x * n_c x)) by (apply pint_ok; safe; lia).
  unfold cake_sgemm_2d_small32, cake_sgemm_2d_small.
  destruct oc; cbn [get_ctx pbind palloc]; rewrite ?Hoc; [f_equal|do 2 f_equal]; rewrite E1, E2; cbn [lift pbind fst snd];
    rewrite Sch, I1, I2, I3; reflexivity.
Qed.

Lemma small32_product S F ar q rows M N K p pn c :
  legal_small F ar rows c M N K p pn -> small32 F c M N K p pn ->
  forall A B m0, caller m0 M N K A B -> A_rim m0 M K (mr c) -> B_rim m0 N K (nr c) 0 ->
  always (cake_sgemm_2d_small32 S F ar q rows M N K p (Some c)) m0
    (fun _ m' => holds m' BufC M N (product S A B (fun _ _ => zrange 0 K)) /\ only_C_changed m0 m' M N).
Proof.
  intros Hl L. rewrite (small32_is_call S F ar q rows M N K p pn c (Some c)) by auto. now apply (small_product S F ar q rows M N K p pn c).
Qed.

(** ** Witnesses *)

Lemma w_online32 : legal ieee haswell KMN wctx 40000 40000 5000 4 96 96 160 /\ sizes32 wctx 40000 40000 5000 4 /\
  sizing32 ieee wctx 4 /\
  (forall x c', init_block_dims ieee 40000 40000 5000 4 wctx KMN 96 96 160 = CRet (x, c') -> online32 4 (m_c x) (k_c x) (n_c x)).
Proof.
  destruct w_32 as (W1 & U & W2 & S & T). split; [auto|split; [auto|split; [auto|]]].
  intros x c' E. destruct W1 as (Har & Hc & HM & HN & HK & Hp & Ht).
  assert (Hm : 0 < mr wctx) by reflexivity. assert (Hn : 0 < nr wctx) by reflexivity.
  pose proof (fun x1 c1 E1 => proj1 (user_32 ieee 40000 40000 5000 4 wctx KMN 96 96 160 HM HN HK Hp Hm Hn U T x1 c1 E1)) as LT.
  destruct (sized ieee 40000 40000 5000 4 wctx KMN 96 96 160 HM HN HK Hp Hm Hn Ht (proj1 W2) S LT) as
    (x1 & c1 & E1 & _ & _ & _ & _ & _ & _ & _ & _ & _ & _ & G).
  rewrite E in E1. injection E1 as <- <-. destruct (G U) as (-> & -> & ->).
  split; [exact T|split; reflexivity].
Qed.

Lemma w_grid32 : legal_2d wFr haswell 4 wctx 40000 40000 5000 4 6 96 16 /\ grid32 wFr wctx 40000 40000 5000 4 6 96 16.
Proof.
  split.
  - apply w_legal_2d; try lia. split; [split; discriminate || reflexivity|split; [vm_compute; discriminate|]].
    left. exists 2. reflexivity.
  - split; [vm_compute; auto 10|]. split; [intros _; vm_compute; auto|lia].
Qed.

Lemma w_small32 : legal_small wFr haswell 4 wctx 40002 40016 5000 4 2 /\ small32 wFr wctx 40002 40016 5000 4 2.
Proof.
  split.
  - assert (F1 : small_fits 40002 2 6)
      by (split; [intros [z Hz]; change (40002 = z * 20004) in Hz; lia|vm_compute; discriminate]).
    assert (F2 : small_fits 40016 2 16)
      by (split; [intros [z Hz]; change (40016 = z * 20016) in Hz; lia|vm_compute; discriminate]).
    split; [exact w_arch|split; [split; reflexivity|]].
    do 6 (split; [vm_compute; congruence|]). split; [exact F1|split; [exact F2|reflexivity]].
  - vm_compute. auto 20.
Qed.
