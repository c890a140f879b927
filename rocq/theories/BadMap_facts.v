(** * A K-first call whose context names no kernel of the table, or one larger than its register
    tile: always undefined. *)

From Coq Require Import ZArith List Bool Lia.
From Verif Require Import Lang Lang_facts Spec SpecTop SpecOnline SpecTouch ModelSizing ModelKernel ModelPack ModelSched ModelTop
     Loop_facts Sizing_facts SizingMN_facts PackMat_facts Order_facts Frame_facts Init_facts TopK_facts CallAll_facts Mult_facts
     PackCall_facts TopOnline_facts Online_facts Touch_facts TouchMN_facts TouchOut_facts.
Import ListNotations.
Open Scope Z_scope.

Local Transparent tbind tload tload_al tstore pbind tfor.

Section Bad.

Variable S : scalar.
Notation T := (elt S).

(** ** The last step of a kernel *)

Lemma inner_rets ar km kn n A B c :
  0 <= km -> rets (fun st => fst (fst st) = padd A km /\ snd (fst st) = padd B n) (inner S ar km kn n (A, B, c)).
Proof.
  intros Hk. unfold inner. apply rets_bind. eapply rets_mono; [apply rets_any|]. intros b _. cbv beta.
  apply rets_bind. eapply (rets_mono (fun ac => fst ac = padd A km)).
  2:{ intros ac H. cbn [rets fst snd]. rewrite H. auto. }
  unfold tfor. cbn [Z.ltb Z.compare]. unfold loop_count. rewrite Z.div_1_r.
  replace (km - 0 + 1 - 1) with km by lia.
  pose proof (rets_titer (fun z (ac : ptr * (Z -> T)) => fst ac = padd A z) 1 (fun i ac =>
      tbind (tload (fst (fst ac)) (snd (fst ac))) (fun a =>
      TRet (padd (fst ac) 1,
            fun e => if (i * kn <=? e) && (e <? (i + 1) * kn)
                     then fma S a (b (e - i * kn)) (snd ac e) else snd ac e))) (Z.to_nat km) 0 (A, c)) as R.
  rewrite Z2Nat.id in R by lia. replace (0 + km * 1) with km in R by lia. apply R.
  - unfold padd. cbn. rewrite Z.add_0_r. now destruct A.
  - intros z ac H. cbn [tload tload_al tbind rets fst]. intros _. rewrite H. unfold padd. cbn. f_equal. lia.
Qed.

Definition at_step (km n : Z) (A B : ptr) (l : Z) (st : ptr * ptr * (Z -> T)) : Prop :=
  fst (fst st) = padd A (l * km) /\ snd (fst st) = padd B (l * n).

Lemma inner_step ar km kn n A B l st : 0 <= km -> at_step km n A B l st ->
  rets (at_step km n A B (l + 1)) (inner S ar km kn n st).
Proof.
  intros Hk (H1 & H2). destruct st as ((A', B'), c). cbn [fst snd] in *. subst.
  eapply rets_mono; [apply inner_rets; auto|]. intros r (E1 & E2). split; [rewrite E1|rewrite E2]; unfold padd; cbn; f_equal; lia.
Qed.

Lemma kernel_last b i ar km kn n A B C m k : 0 <= km -> 0 < k ->
  (forall st, at_step km n A B (k - 1) st -> touches b i (inner S ar km kn n st)) ->
  touches b i (ukernel S ar km kn A B C m n k).
Proof.
  intros Hkm Hk H. unfold ukernel. apply touches_bind_r. intros c. cbv zeta.
  set (rem := Z.rem k 4). assert (Hr : 0 <= rem < 4) by (apply Z.rem_bound_pos; lia).
  assert (Hq : exists q, 0 <= q /\ k - rem = 4 * q).
  { exists (Z.quot k 4). pose proof (Z.quot_rem k 4 ltac:(lia)). fold rem in H0. split; [|lia]. apply Z.quot_pos; lia. }
  destruct Hq as (q & Hq0 & Hq). rewrite Hq.
  assert (B4 : forall l st, at_step km n A B l st -> rets (at_step km n A B (l + 4))
     (tbind (inner S ar km kn n st) (fun st => tbind (inner S ar km kn n st) (fun st => tbind (inner S ar km kn n st) (fun st =>
        inner S ar km kn n st))))).
  { intros l st Hst. apply rets_bind. eapply rets_mono; [apply inner_step; eauto|]. intros s1 H1. cbv beta.
    apply rets_bind. eapply rets_mono; [apply inner_step; eauto|]. intros s2 H2. cbv beta.
    apply rets_bind. eapply rets_mono; [apply inner_step; eauto|]. intros s3 H3. cbv beta.
    replace (l + 4) with (l + 1 + 1 + 1 + 1) by lia. now apply inner_step. }
  assert (N4 : loop_count 0 (4 * q) 4 = Z.to_nat q).
  { unfold loop_count. f_equal. symmetry. apply Z.div_unique with 3; lia. }
  assert (I0 : at_step km n A B 0 (A, B, c)).
  { split; unfold padd; cbn; rewrite Z.add_0_r; [now destruct A|now destruct B]. }
  unfold tfor at 1. cbn [Z.ltb Z.compare]. rewrite N4.
  destruct (Z.eq_dec rem 0) as [E|E].
  - apply touches_bind_l. replace (Z.to_nat q) with (Datatypes.S (Z.to_nat (q - 1))) by lia.
    apply (touches_titer_last b i (at_step km n A B)); auto. rewrite Z2Nat.id by lia.
    intros st Hst. replace (0 + (q - 1) * 4) with (k - 4) in Hst by lia.
    eapply touches_bind_post; [eapply inner_step; eauto|]. intros s1 H1. cbv beta.
    eapply touches_bind_post; [eapply inner_step; eauto|]. intros s2 H2. cbv beta.
    eapply touches_bind_post; [eapply inner_step; eauto|]. intros s3 H3. apply H.
    now replace (k - 1) with (k - 4 + 1 + 1 + 1) by lia.
  - apply (touches_bind_post b i (at_step km n A B (4 * q))).
    { pose proof (rets_titer (at_step km n A B) 4 (fun (_ : Z) st =>
        tbind (inner S ar km kn n st) (fun st => tbind (inner S ar km kn n st) (fun st => tbind (inner S ar km kn n st) (fun st =>
        inner S ar km kn n st)))) (Z.to_nat q) 0 (A, B, c) I0) as R.
      rewrite Z2Nat.id in R by lia. replace (0 + q * 4) with (4 * q) in R by lia. apply R. auto. }
    intros st Hst. apply touches_bind_l. unfold tfor. cbn [Z.ltb Z.compare]. unfold loop_count. rewrite Z.div_1_r.
    replace (Z.to_nat (rem - 0 + 1 - 1)) with (Datatypes.S (Z.to_nat (rem - 1))) by lia.
    apply (touches_titer_last b i (fun z => at_step km n A B (4 * q + z))).
    + now rewrite Z.add_0_r.
    + intros z s Hs. rewrite Z.add_assoc. now apply inner_step.
    + rewrite Z2Nat.id by lia. intros s Hs. apply H. now replace (k - 1) with (4 * q + (0 + (rem - 1) * 1)) by lia.
Qed.

Lemma kernel_A_end ar km kn n b o B C m k : 0 < km -> 0 < k ->
  touches b (o + km * k - 1) (ukernel S ar km kn (b, o) B C m n k).
Proof.
  intros Hm Hk. apply kernel_last; [lia|lia|]. intros ((A', B'), c) (H1 & _). cbn [fst snd] in H1. subst A'.
  unfold inner. apply touches_bind_r. intros bv. apply touches_bind_l.
  unfold tfor. cbn [Z.ltb Z.compare]. unfold loop_count. rewrite Z.div_1_r.
  replace (Z.to_nat (km - 0 + 1 - 1)) with (Datatypes.S (Z.to_nat (km - 1))) by lia.
  apply (touches_titer_last b _ (fun z (ac : ptr * (Z -> T)) => fst ac = (b, o + (k - 1) * km + z))).
  - unfold padd. cbn. f_equal. lia.
  - intros z ac H. cbn [tload tload_al tbind rets fst]. intros _. rewrite H. unfold padd. cbn. f_equal. lia.
  - intros ac H. rewrite Z2Nat.id in H by lia. cbn [tload tload_al tbind touches]. left. rewrite H. cbn. split; [auto|lia].
Qed.

Lemma kernel_B_end ar km kn n b o A C m k : 0 <= km -> 0 < kn -> 0 < k ->
  touches b (o + (k - 1) * n + kn - 1) (ukernel S ar km kn A (b, o) C m n k).
Proof.
  intros Hm Hn Hk. apply kernel_last; [lia|lia|]. intros ((A', B'), c) (_ & H1). cbn [fst snd] in H1. subst B'.
  unfold inner. apply touches_bind_l. unfold load_vec.
  apply (touches_tfor1 b _ 0 kn _ _ (kn - 1)); [lia|]. intros s. cbn [tload_al tbind touches padd fst snd]. left. split; [auto|lia].
Qed.

(** ** The schedule *)

Definition km_of (ar : arch) (c : cntx) : Z := MR_MIN ar + m_map c * MR_FACT ar.
Definition kn_of (ar : arch) (c : cntx) : Z := NR_MIN ar + n_map c * NR_FACT ar.

Definition in_table (ar : arch) (c : cntx) : Prop := 0 <= m_map c < MR_CNT ar /\ 0 <= n_map c < NR_CNT ar.

Section Sched.

Variables (M N K p : Z) (x : blk_dims) (ar : arch) (c : cntx).
Hypothesis F : kmn_facts M N K p (mr c) (nr c) x.
Hypothesis HM0 : 0 < M.
Hypothesis HN0 : 0 < N.
Hypothesis HK0 : 0 < K.
Hypothesis Hmr : 0 < mr c.
Hypothesis Hnr : 0 < nr c.

Definition last_kt : Z := blk_kt x (Kb x - 1).

Lemma last_kt_pos : 0 < last_kt.
Proof.
  destruct (part_cover _ _ _ _ (kf_K _ _ _ _ _ _ _ F) 0 ltac:(lia)) as (k & Hk & _).
  apply (pt_w _ _ _ _ (kf_K _ _ _ _ _ _ _ F) (Kb x - 1)). lia.
Qed.

Lemma sched_out b i A_p B_p C :
  (forall Cp, touches b i (kernel_map S ar (m_map c) (n_map c) (padd A_p (M_padded x * K - mr c * last_kt))
     (padd B_p (K * N_padded x - nr c * last_kt)) Cp (mr c) (nr c) last_kt)) ->
  pout b i (schedule_KMN S ar A_p B_p C M N K p c x).
Proof.
  intros HT.
  pose proof (kf_M _ _ _ _ _ _ _ F) as PM. pose proof (kf_N _ _ _ _ _ _ _ F) as PN. pose proof (kf_K _ _ _ _ _ _ _ F) as PK.
  pose proof (kf_Mp _ _ _ _ _ _ _ F) as HMp. pose proof (kf_Np _ _ _ _ _ _ _ F) as HNp.
  assert (Hm : 0 < Mb x) by (destruct (part_cover _ _ _ _ PM 0 ltac:(lia)) as (m & Hm & _); lia).
  assert (Hn : 0 < Nb x) by (destruct (part_cover _ _ _ _ PN 0 ltac:(lia)) as (m & Hn & _); lia).
  assert (Hk : 0 < Kb x) by (destruct (part_cover _ _ _ _ PK 0 ltac:(lia)) as (m & Hk & _); lia).
  set (m := Mb x - 1). set (n := Nb x - 1).
  assert (Hm1 : 0 <= m < Mb x) by (unfold m; lia). assert (Hn1 : 0 <= n < Nb x) by (unfold n; lia).
  pose proof (kf_pu _ _ _ _ _ _ _ F m Hm1) as Hpu. pose proof (kf_C _ _ _ _ _ _ _ F m Hm1) as PC.
  set (core := blk_pu x p m - 1). assert (Hc : 0 <= core < blk_pu x p m) by (unfold core; lia).
  pose proof (kf_mr _ _ _ _ _ _ _ F m core Hm1 Hc) as (qm & Eqm). pose proof (kf_nr _ _ _ _ _ _ _ F n Hn1) as (qn & Eqn).
  pose proof (pt_w _ _ _ _ PC core Hc) as Wm. pose proof (pt_w _ _ _ _ PN n Hn1) as Wn.
  pose proof (pt_last _ _ _ _ PM Hm) as Lm. pose proof (pt_last _ _ _ _ PN Hn) as Ln. pose proof (pt_last _ _ _ _ PK Hk) as Lk.
  pose proof (pt_last _ _ _ _ PC ltac:(lia)) as Lc. fold m in Lm. fold n in Ln. fold core in Lc.
  assert (Sm : forall z, small b i (ppar_for 0 (blk_pu x p z) 1 (kmn_core S ar A_p B_p K p c x n m))) by (intros; apply small_ppar).
  unfold schedule_KMN, pfor_. apply (pout_pfor1 b i 0 (Nb x) _ _ n); auto.
  { intros. cbv zeta. unfold pfor_ne_. apply small_pfor_ne. intros. apply small_bind; intros; apply small_ppar. }
  intros _. cbv zeta. rewrite snake_end. unfold pfor_ne_. destruct (sn_at_surj (odd2 n) (Mb x) m Hm1) as (q & Hq & E).
  apply (pout_pfor_ne b i _ _ _ _ _ q); [apply snake_inc|auto| |].
  { intros. apply small_bind; intros; apply small_ppar. }
  intros _. unfold sn_at in E. rewrite E. apply pout_bind_l.
  apply (pout_ppar1 b i 0 _ _ core); [lia|].
  unfold kmn_core. cbv zeta. rewrite snake_end. unfold tfor_ne_.
  destruct (sn_at_surj (inner_rev n m) (Kb x) (Kb x - 1) ltac:(lia)) as (q' & Hq' & E').
  apply (touches_tfor_ne b i _ (Kb x) _ _ _ q'); [apply snake_inc|lia|]. intros _. unfold sn_at in E'. rewrite E'.
  fold last_kt. fold last_kt in Lk. unfold tile_loops, tfor_.
  assert (0 < qm) by nia. assert (0 < qn) by nia.
  rewrite Eqm, Eqn, !Z.quot_mul by lia.
  apply (touches_tfor1 b i 0 _ _ _ (qn - 1)); [lia|]. intros _.
  apply (touches_tfor1 b i 0 _ _ _ (qm - 1)); [lia|]. intros _.
  assert (EA : padd (padd A_p (m * p * m_c x * K + (Kb x - 1) * blk_mcb x p (mr c) m * k_c x + core * core_mx x m * last_kt))
                 ((qm - 1) * mr c * last_kt) = padd A_p (M_padded x * K - mr c * last_kt)).
  { unfold padd. cbn [fst snd]. f_equal. rewrite <- Lm, <- Lk, <- Lc, Eqm. ring. }
  assert (EB : padd (padd B_p (n * K * n_c x + (Kb x - 1) * k_c x * (qn * nr c))) ((qn - 1) * last_kt * nr c)
               = padd B_p (K * N_padded x - nr c * last_kt)).
  { unfold padd. cbn [fst snd]. f_equal. rewrite <- Ln, <- Lk, Eqn. ring. }
  rewrite EA, EB. apply HT.
Qed.

(** an element just past the packed A or packed B that the last kernel call reads *)
Lemma bad_end : ~ in_table ar c \/ (0 < km_of ar c /\ 0 < kn_of ar c /\ (mr c < km_of ar c \/ nr c < kn_of ar c)) ->
  exists b i, (b = BufAp 0 \/ b = BufBp) /\ 0 <= i /\ (b = BufAp 0 -> M_padded x * K <= i) /\ (b = BufBp -> K * N_padded x <= i) /\
    forall Cp, touches b i (kernel_map S ar (m_map c) (n_map c) (padd (BufAp 0, 0) (M_padded x * K - mr c * last_kt))
     (padd (BufBp, 0) (K * N_padded x - nr c * last_kt)) Cp (mr c) (nr c) last_kt).
Proof.
  intros H. pose proof last_kt_pos as Hk. pose proof (kf_Mp _ _ _ _ _ _ _ F) as HMp. pose proof (kf_Np _ _ _ _ _ _ _ F) as HNp.
  unfold kernel_map.
  destruct ((0 <=? m_map c) && (m_map c <? MR_CNT ar) && (0 <=? n_map c) && (n_map c <? NR_CNT ar)) eqn:E.
  2:{ exists (BufAp 0), (M_padded x * K). split; [auto|split; [nia|split; [lia|split; [discriminate|]]]]. intros; exact I. }
  rewrite !andb_true_iff, !Z.leb_le, !Z.ltb_lt in E.
  destruct H as [H|(H1 & H2 & [H|H])]; [exfalso; apply H; unfold in_table; lia| |].
  - exists (BufAp 0), (M_padded x * K - mr c * last_kt + km_of ar c * last_kt - 1).
    split; [auto|split; [nia|split; [nia|split; [discriminate|]]]]. intros Cp. now apply (kernel_A_end ar (km_of ar c)).
  - exists BufBp, (K * N_padded x - nr c * last_kt + (last_kt - 1) * nr c + kn_of ar c - 1).
    split; [auto|split; [nia|split; [discriminate|split; [nia|]]]]. intros Cp. apply (kernel_B_end ar _ (kn_of ar c)); auto. fold (km_of ar c). lia.
Qed.

End Sched.

Lemma pack_A_small b i A A_p M K p x m_r : small b i (pack_A_single_buf_k_first S A A_p M K p x m_r).
Proof.
  unfold pack_A_single_buf_k_first. apply small_bind; intros; [|exact I].
  apply small_pfor; intros. apply small_pfor; intros. cbv zeta. apply small_bind; intros; [|exact I]. apply small_ppar.
Qed.

Lemma pack_B_small b i B B_p K N x n_r : small b i (pack_B_k_first S B B_p K N x n_r).
Proof.
  assert (H1 : forall g n1 ind1 nt, small b i (packB_main S g B B_p K N x n_r n1 ind1 nt)) by (intros; apply small_ppar).
  assert (H2 : forall g n1 ind1 nt, small b i (packB_tail S g B B_p K N x n_r n1 ind1 nt)) by (intros; apply small_ppar).
  unfold pack_B_k_first. destruct (_ || _); [exact I|]. cbv zeta. apply small_bind; intros.
  - apply small_pfor; intros. apply small_bind; intros; auto.
    destruct (truthy _); [|exact I]. apply small_bind; intros; [auto|exact I].
  - destruct (truthy _); [|exact I]. apply small_bind; intros; auto.
    destruct (truthy _); [auto|exact I].
Qed.

Lemma bad_kernel F ar q nz M N K p c al be s mcu kcu ncu x c' (m0 : mem T) :
  0 < M -> 0 < N -> 0 < K -> 0 < p -> 0 < mr c -> 0 < nr c -> tiles_ok F M p c mcu kcu ncu ->
  init_block_dims F M N K p c s mcu kcu ncu = CRet (x, c') -> sch x = KMN ->
  live m0 (BufAp 0) = None -> live m0 BufBp = None ->
  ~ in_table ar c \/ (0 < km_of ar c /\ 0 < kn_of ar c /\ (mr c < km_of ar c \/ nr c < kn_of ar c)) ->
  always_undefined (cake_sgemm S F ar q nz M N K p (Some c) false false al be s mcu kcu ncu) m0.
Proof.
  intros HM HN HK Hp Hmr Hnr Ht E Hs LA LB Hbad.
  destruct (init_ok F M N K p c s mcu kcu ncu ltac:(lia) Hp Hmr Hnr Ht)
    as (mc & kc & nc & al' & s' & E' & H1 & H2 & H3 & H4 & H5 & Hna & H6 & Hu).
  assert (G : kmn_facts M N K p (mr c') (nr c') x /\ m_map c' = m_map c /\ n_map c' = n_map c /\ mr c' = mr c /\ nr c' = nr c).
  { rewrite E' in E. destruct (dims_of s' M N K p mc kc nc (mr c) (nr c)) as [x2| |] eqn:Ex; try discriminate.
    cbn [cbind] in E. injection E as <- <-. cbn [mr nr m_map n_map]. split; [|auto].
    destruct s'; cbn [dims_of] in Ex; [| | |congruence].
    - destruct (dims_KMN_facts M N K p mc kc nc (mr c) (nr c) x2) as (F' & _); auto; lia.
    - exfalso. destruct (dims_MKN_facts M N K p mc kc nc (mr c) (nr c)) as (y & Ey & _ & _ & _ & _ & Es & _); auto; try lia.
      rewrite Ex in Ey. injection Ey as ->. congruence.
    - exfalso. destruct (dims_NKM_facts M N K p mc kc nc (mr c) (nr c)) as (y & Ey & _ & _ & _ & _ & Es & _); auto; try lia.
      rewrite Ex in Ey. injection Ey as ->. congruence. }
  destruct G as (Fk & M1 & M2 & M3 & M4).
  destruct (bad_end M N K p x ar c' Fk) as (b & i & Hb & Hi & HA & HB & HT); try lia.
  { unfold in_table, km_of, kn_of in *. now rewrite M1, M2, M3, M4. }
  apply (pout_exec b i).
  2:{ unfold outside. destruct Hb as [-> | ->]; [rewrite LA|rewrite LB]; auto. }
  rewrite cake_sgemm_unfold. unfold get_ctx. cbn [pbind]. unfold palloc. cbn [pbind pout].
  split; [left; destruct Hb as [-> | ->]; discriminate|]. rewrite E. cbn [lift pbind]. unfold sgemm_after, sgemm_rest. cbn [fst snd].
  rewrite Hs, (kf_sA _ _ _ _ _ _ _ Fk), (kf_sB _ _ _ _ _ _ _ Fk). cbn [lift pbind]. unfold palloc. cbn [pbind pout].
  split; [destruct Hb as [-> | ->]; [right; auto|left; discriminate]|]. cbn [pack_A pack_B].
  apply pout_bind_ret; [apply pack_A_small|].
  split; [destruct Hb as [-> | ->]; [left; discriminate|right; auto]|].
  apply pout_bind_ret; [apply pack_B_small|].
  apply pout_bind_l. unfold sgemm_mid. rewrite Hs.
  apply pout_bind_r.
  { unfold alloc_Cp, pfor_, palloc. apply small_pfor. intros. split; [left; destruct Hb as [-> | ->]; discriminate|exact I]. }
  intros _. apply pout_bind_l. apply sched_out; auto; try lia.
Qed.

End Bad.
