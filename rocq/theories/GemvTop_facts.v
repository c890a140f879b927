(** * The matrix-vector example: tile sizes, undefined calls, the checker. *)

From Coq Require Import ZArith List Bool Lia.
From Verif Require Import Lang Lang_facts Spec SpecTop SpecSmall SpecTouch SpecGemv ModelSizing ModelKernel ModelPack ModelTop
     Kernel_facts Sizing_facts Mult_facts Exec Exec_facts Touch_facts TouchOut_facts Race_facts ModelGemv Gemv_facts.
Import ListNotations.
Open Scope Z_scope.

Lemma dims_mvm_KMN M K p mc kc m_r x :
  dims_KMN M 1 K p mc kc 1 m_r 1 = CRet x -> dims_mvm M K p mc kc m_r = CRet (mv_of x).
Proof.
  unfold dims_KMN, dims_mvm. change (imod 1 1) with (CRet 0).
  destruct (imod K kc) as [kr| |]; cbn [cbind]; try discriminate.
  destruct (imod M (p * mc)) as [mrm| |]; cbn [cbind]; try discriminate.
  destruct (iceil mrm m_r) as [mr_rem| |]; cbn [cbind]; try discriminate.
  destruct (iceil mr_rem p) as [pc| |]; cbn [cbind]; try discriminate.
  destruct (if truthy pc then iceil mr_rem pc else CRet 0) as [pl| |]; cbn [cbind]; try discriminate.
  change (iceil 0 1) with (CRet 0). cbn [cbind].
  destruct (idiv M (p * mc)) as [Mq| |]; cbn [cbind]; try discriminate.
  change (idiv 1 1) with (CRet 1). cbn [cbind].
  destruct (idiv K kc) as [Kq| |]; cbn [cbind]; try discriminate.
  intros [= <-]. reflexivity.
Qed.

Lemma mp_div M N K p m_r n_r x : kmn_facts M N K p m_r n_r x -> (m_r | M_padded x).
Proof.
  intros F. pose proof (kf_M _ _ _ _ _ _ _ F) as PM.
  destruct (Z.eq_dec (Mb x) 0) as [E|E]. { rewrite (pt_0 _ _ _ _ PM E). apply Z.divide_0_r. }
  pose proof (pt_nb _ _ _ _ PM). set (mi := Mb x - 1). assert (Hmi : 0 <= mi < Mb x) by (unfold mi; lia).
  rewrite <- (pt_last _ _ _ _ PM) by lia. fold mi.
  pose proof (kf_C _ _ _ _ _ _ _ F mi Hmi) as PC. pose proof (kf_pu _ _ _ _ _ _ _ F mi Hmi) as Hpu.
  rewrite <- (pt_last _ _ _ _ PC) by lia.
  apply Z.divide_add_r; [apply Z.divide_mul_r, Z.divide_mul_r, F|].
  apply Z.divide_add_r; [apply Z.divide_mul_r; now apply (kf_mxr _ _ _ _ _ _ _ F)|].
  apply (kf_mr _ _ _ _ _ _ _ F); lia.
Qed.

(** ** Tile sizes *)

Lemma round_up_div a r : 0 <= a -> 0 < r -> (r | a + (r - Z.rem a r)) /\ a < a + (r - Z.rem a r).
Proof.
  intros Ha Hr. pose proof (Z.rem_bound_pos a r Ha Hr). split; [|lia].
  pose proof (Z.quot_rem a r ltac:(lia)). exists (Z.quot a r + 1). lia.
Qed.

Lemma tiles_ok raw M p m_r user : 0 <= M -> 0 < p -> 0 < m_r -> usable_tiles raw M p m_r user ->
  exists mc kc, cache_dims_mvm raw M p m_r user = CRet (mc, kc) /\ 0 < mc /\ (m_r | mc) /\ 0 < kc.
Proof.
  intros HM Hp Hm Hu. unfold cache_dims_mvm.
  assert (E : exists mc, (if M <? p * m_r then CRet m_r
     else if M <? p * (raw + (64 - Z.rem raw 64)) then
       cbind (idiv M p) (fun a =>
       if a <? m_r then CRet m_r
       else cbind (imod a m_r) (fun r => CRet (a + (m_r - r))))
     else CRet (raw + (64 - Z.rem raw 64))) = CRet mc /\ (user = None -> 0 < mc /\ (m_r | mc))).
  { destruct (Z.ltb_spec M (p * m_r)); [exists m_r; split; auto; intros _; split; auto; apply Z.divide_refl|].
    destruct (Z.ltb_spec M (p * (raw + (64 - Z.rem raw 64)))) as [H1|H1].
    - rewrite idiv_pos by lia. cbn [cbind].
      assert (0 <= Z.quot M p) by (apply Z.quot_pos; lia).
      destruct (Z.ltb_spec (Z.quot M p) m_r); [exists m_r; split; auto; intros _; split; auto; apply Z.divide_refl|].
      rewrite imod_pos by lia. cbn [cbind]. eexists. split; [reflexivity|]. intros _.
      destruct (round_up_div (Z.quot M p) m_r ltac:(lia) Hm). split; [lia|auto].
    - eexists. split; [reflexivity|]. intros ->. destruct Hu as (Hr & Hd).
      destruct (round_up_div raw 64 Hr ltac:(lia)) as (D & L). split; [lia|].
      destruct Hd as [Hd|Hd]; [now apply (Z.divide_trans _ 64)|exfalso].
      destruct D as [q Hq]. assert (1 <= q) by lia. nia. }
  destruct E as (mc & -> & E). cbn [cbind]. destruct user as [[m_c k_c]|].
  - exists m_c, k_c. cbn in Hu. tauto.
  - destruct (E eq_refl). exists mc, mc. auto.
Qed.

(** the program once the tiles are known *)
Lemma sgemv_dims S raw M K p m_r user : 0 <= M -> 0 <= K -> 0 < p -> 0 < m_r -> usable_tiles raw M p m_r user ->
  exists x, kmn_facts M 1 K p m_r 1 x /\
            cake_sgemv S raw (Some KMN) M K p m_r user = schedule_mvm S m_r (mv_of x) M p.
Proof.
  intros HM HK Hp Hm Hu. destruct (tiles_ok raw M p m_r user HM Hp Hm Hu) as (mc & kc & E & H1 & H2 & H3).
  destruct (dims_KMN_total M 1 K p mc kc 1 m_r 1) as (x & Ex); try lia.
  destruct (dims_KMN_facts M 1 K p mc kc 1 m_r 1 x) as (F & _); auto; try lia; try apply Z.divide_refl.
  exists x. split; auto. unfold cake_sgemv. rewrite E. cbn [lift pbind fst snd].
  now rewrite (dims_mvm_KMN _ _ _ _ _ _ _ Ex).
Qed.

Lemma sgemv_ok S raw M K p user A B C m :
  0 <= M -> (8 | M) -> 0 <= K -> 0 < p -> usable_tiles raw M p 8 user ->
  gemv_operands m M K A B C ->
  adds_product S (cake_sgemv S raw (Some KMN) M K p 8 user) m M K A B C.
Proof.
  intros HM HD HK Hp Hu (HA & HB & HC).
  destruct (sgemv_dims S raw M K p 8 user) as (x & F & ->); auto; [lia|].
  apply pok_always. apply (schedule_mvm_spec S M K p x A B C); auto.
  - pose proof (mp_div _ _ _ _ _ _ _ F) as D1. pose proof (kf_Mp _ _ _ _ _ _ _ F). pose proof (kf_Mpu _ _ _ _ _ _ _ F).
    destruct HD as [q ->], D1 as [q' E]. rewrite E in *. lia.
  - split; auto.
Qed.

(** ** Rows that do not fill the last tile *)

Section Out.
Variable S : scalar.

Lemma load_vec_touches al b o n j : 0 <= j < n -> touches b (o + j) (load_vec S al (b, o) n).
Proof.
  intros Hj. unfold load_vec. apply (touches_tfor1 _ _ _ _ _ _ j); auto. intros s. apply touches_bind_l.
  cbn. now left.
Qed.

Lemma sgemv_out raw M K p m_r user m bi :
  0 < M -> 0 < K -> 0 < p -> 0 < m_r <= 8 -> m_r < 8 \/ ~ (8 | M) -> usable_tiles raw M p m_r user ->
  live m BufC = Some bi -> blen bi = M ->
  always_undefined (cake_sgemv S raw (Some KMN) M K p m_r user) m.
Proof.
  intros HM HK Hp Hm Hbad Hu HL Hlen.
  destruct (sgemv_dims S raw M K p m_r user) as (x & F & ->); auto; try lia.
  pose proof (mp_div _ _ _ _ _ _ _ F) as HD. pose proof (kf_Mp _ _ _ _ _ _ _ F) as HMp.
  pose proof (kf_M _ _ _ _ _ _ _ F) as PM. pose proof (kf_K _ _ _ _ _ _ _ F) as PK.
  set (i := M_padded x - m_r + 7).
  assert (Hi : M <= i).
  { unfold i. destruct Hbad as [|Hn]; [lia|]. destruct (Z.eq_dec m_r 8) as [->|]; [|lia].
    destruct (Z.eq_dec M (M_padded x)) as [E|]; [rewrite <- E in HD; contradiction|lia]. }
  assert (HP : pout BufC i (schedule_mvm S m_r (mv_of x) M p)).
  { unfold schedule_mvm, pfor_. cbn [mv_of g_Mb g_m_pad g_p_l].
    destruct (part_cover _ _ _ _ PM (M_padded x - 1) ltac:(lia)) as (mi & Hmi & Hin).
    apply (pout_pfor1 _ _ _ _ _ _ mi); [lia|intros; apply small_ppar|]. intros _.
    fold (is_last mi (Mb x) (m_pad x)).
    change (if is_last mi (Mb x) (m_pad x) then p_l x else p) with (blk_pu x p mi).
    pose proof (kf_C _ _ _ _ _ _ _ F mi Hmi) as PC.
    destruct (part_cover _ _ _ _ PC (M_padded x - 1 - mi * (p * m_c x)) ltac:(lia)) as (core & Hc & Hin2).
    apply (pout_ppar1 _ _ _ _ _ core); [lia|].
    destruct (kf_mr _ _ _ _ _ _ _ F mi core Hmi Hc) as [u Hu'].
    pose proof (part_end _ _ _ _ PC core Hc) as He. pose proof (part_end _ _ _ _ PM mi Hmi) as He2.
    pose proof (pt_w _ _ _ _ PC core Hc) as Hw.
    unfold mvm_core. cbn [mv_of g_Mb g_m_pad g_p_l g_m_c1_last_core g_m_c1 g_m_c g_Kb g_k_pad g_k_c1 g_k_c].
    fold (is_last mi (Mb x) (m_pad x)).
    change (if is_last mi (Mb x) (m_pad x) then m_c1 x else m_c x) with (core_mx x mi).
    change (if is_last mi (Mb x) (m_pad x) then if core =? p_l x - 1 then m_c1_last_core x else m_c1 x else m_c x)
      with (core_mt x mi core).
    rewrite Hu', Z.quot_mul by lia. unfold tfor_ at 1.
    assert (0 < Kb x).
    { pose proof (pt_nb _ _ _ _ PK). destruct (Z.eq_dec (Kb x) 0) as [E|]; [|lia].
      pose proof (pt_0 _ _ _ _ PK E). lia. }
    apply (touches_tfor1 _ _ _ _ _ _ 0); [lia|]. intros _. unfold tfor_.
    assert (0 < u) by nia.
    apply (touches_tfor1 _ _ _ _ _ _ (u - 1)); [lia|]. intros _.
    unfold cake_sgemv_haswell_8x8_col. apply touches_bind_l.
    replace i with (mi * p * m_c x + core * core_mx x mi + (u - 1) * m_r + 7) by (unfold i; lia).
    apply load_vec_touches. lia. }
  assert (HO : outside BufC i m) by (unfold outside; rewrite HL, Hlen; lia).
  exact (pout_exec BufC i _ m HP HO).
Qed.

(** ** The checker *)

Local Transparent tfor tbind ppar_for pbind.

Definition check_body (M k : Z) : thr (elt S) unit :=
  tfor_ 0 M 1 (fun m =>
      (let+ c := tload (BufX 0) m in
       let+ a := tload BufA (k * M + m) in
       let+ b := tload BufB k in
       tstore (BufX 0) m (fma S a b c))%thr).

Lemma loop_count1 n : 0 < n -> loop_count 0 n 1 = Datatypes.S (Z.to_nat (n - 1)).
Proof.
  intros. unfold loop_count. rewrite Z.div_1_r. replace (n - 0 + 1 - 1) with (Z.succ (n - 1)) by lia.
  now rewrite Z2Nat.inj_succ by lia.
Qed.

Lemma check_body_start M k : 0 < M -> exists r,
  check_body M k =
  TLoad 1 (BufX 0) 0 (fun c => TLoad 1 BufA (k * M + 0) (fun a => TLoad 1 BufB k (fun b => TStore (BufX 0) 0 (fma S a b c) r))).
Proof.
  intros HM. unfold check_body, tfor_, tfor. change (0 <? 1) with true. cbn iota.
  rewrite loop_count1 by auto. cbn [titer tbind tload tstore]. eexists. reflexivity.
Qed.

(** run the second thread up to its first store, or find that it cannot get there *)
Lemma check_race M K m : 0 < M -> 2 <= K -> pexec (gemv_check_loop S M K) m Undef.
Proof.
  intros HM HK. unfold gemv_check_loop, palloc. cbn [pbind].
  destruct (live m (BufX 0)) as [bi|] eqn:L; [apply PE_alloc_ub; right; congruence|].
  apply PE_alloc; auto; [lia|]. generalize (do_alloc m (BufX 0) M false (Some (zero S))). clear m L. intros m.
  unfold ppar_for. change (0 <? 1) with true. cbn iota.
  fold (check_body M). rewrite loop_count1 by lia.
  replace (Z.to_nat (K - 1)) with (Datatypes.S (Z.to_nat (K - 2))) by lia.
  cbn [zseq map]. change (0 + 1) with 1. set (rest := map _ _).
  change (fun k : Z => check_body M k) with (check_body M).
  destruct (check_body_start M 0 HM) as (r0 & E0). destruct (check_body_start M 1 HM) as (r1 & E1).
  assert (Hst : forall t, psteps (check_body M 0 :: check_body M 1 :: rest, m) (check_body M 0 :: t :: rest, m) ->
             forall t', tstep t m t' m -> psteps (check_body M 0 :: check_body M 1 :: rest, m) (check_body M 0 :: t' :: rest, m)).
  { intros t H t' Ht. assert (G : forall s1 s2 s3 : pstate (elt S), psteps s1 s2 -> pstep s2 s3 -> psteps s1 s3).
    { intros s1 s2 s3 H1 H2. induction H1; [eapply psteps_cons; [exact H2|constructor]|eapply psteps_cons; eauto]. }
    eapply G; [exact H|]. apply (pstep_intro [check_body M 0] t rest m t' m Ht). }
  assert (Hf : forall t, psteps (check_body M 0 :: check_body M 1 :: rest, m) (check_body M 0 :: t :: rest, m) ->
             tfaulty t m -> pexec (PPar (check_body M 0 :: check_body M 1 :: rest) (PRet tt)) m (Undef (R:=unit))).
  { intros t H Ht. eapply PE_par_ub; [exact H|]. left. exists t. split; [cbn; auto|exact Ht]. }
  match type of E1 with _ = ?t =>
    assert (S0 : psteps (check_body M 0 :: check_body M 1 :: rest, m) (check_body M 0 :: t :: rest, m))
      by (rewrite <- E1; constructor) end.
  match type of S0 with psteps _ (_ :: TLoad ?al ?b ?i ?k :: _, _) =>
    destruct (load m al b i) as [c|] eqn:L1; [|eapply (Hf _ S0 L1)];
    pose proof (Hst _ S0 (k c) (tstep_load al b i k c m L1)) as S1 end; cbv beta in S1.
  match type of S1 with psteps _ (_ :: TLoad ?al ?b ?i ?k :: _, _) =>
    destruct (load m al b i) as [a|] eqn:L2; [|eapply (Hf _ S1 L2)];
    pose proof (Hst _ S1 (k a) (tstep_load al b i k a m L2)) as S2 end; cbv beta in S2.
  match type of S2 with psteps _ (_ :: TLoad ?al ?b ?i ?k :: _, _) =>
    destruct (load m al b i) as [b1|] eqn:L3; [|eapply (Hf _ S2 L3)];
    pose proof (Hst _ S2 (k b1) (tstep_load al b i k b1 m L3)) as S3 end; cbv beta in S3.
  eapply PE_par_ub; [exact S3|]. right. exists [], (check_body M 0), [], (TStore (BufX 0) 0 (fma S a b1 c) r1), rest.
  split; [reflexivity|]. rewrite E0. unfold conflict. cbn. exists false, true, (BufX 0), 0. auto.
Qed.

End Out.

(** ** The kernel on its own *)

Lemma mv_kernel_one S mm k ld A B C m : 0 < k -> 0 <= ld ->
  col_stored m BufA 0 ld 8 k A -> (forall kk, 0 <= kk < k -> cell m BufB kk (B kk)) ->
  (forall i, 0 <= i < 8 -> cell m BufC i (C i)) ->
  adds_product S (ppar_for 0 1 1 (fun _ => cake_sgemv_haswell_8x8_col S (BufA, 0) (BufB, 0) (BufC, 0) mm k ld)) m 8 k A B C.
Proof.
  intros Hk Hld HA HB HC. apply pok_always.
  eapply (pok_par_for 0 1 1 1 _ m (fun _ => rng BufC 0 8) (fun _ => rAB)
     (fun _ m' => forall e, 0 <= e < 8 -> dat m' BufC e = Some (dot S (A e) B (zrange 0 k) (C e)))); try lia.
  - intros c Hc. apply (mv_kernel_cells S 0 0 0 mm k ld A B C); auto; try lia.
  - intros m' HL HQ HF. destruct (HQ 0 ltac:(lia)) as (ms & Q1 & _ & _ & Q2). split; auto. split.
    + intros i Hi. rewrite Q2 by (split; auto). auto.
    + intros b i Hn. apply HF. intros c Hc (-> & Hi). auto.
Qed.

(** ** A tile of less than eight rows *)

Lemma small_tile S raw M K p mc kc m : 0 <= M -> 0 <= K -> 0 < p -> 0 < mc < 8 -> 0 < kc -> (p * mc | M) ->
  always (cake_sgemv S raw (Some KMN) M K p 8 (Some (mc, kc))) m
    (fun _ m' => live m' = live m /\ forall b i, dat m' b i = dat m b i).
Proof.
  intros HM HK Hp Hmc Hkc Hd. apply pok_always. unfold cake_sgemv.
  assert (E : cache_dims_mvm raw M p 8 (Some (mc, kc)) = CRet (mc, kc)).
  { unfold cache_dims_mvm. destruct (M <? p * 8); [reflexivity|]. destruct (M <? _); [|reflexivity].
    rewrite idiv_pos by lia. cbn [cbind]. destruct (_ <? 8); [reflexivity|].
    rewrite imod_pos by lia. reflexivity. }
  rewrite E. clear E. cbn [lift pbind fst snd].
  assert (Hpm : 0 < p * mc) by nia.
  assert (HR : Z.rem M (p * mc) = 0) by (apply Z.rem_divide; [lia|auto]).
  unfold dims_mvm. rewrite !imod_pos, !idiv_pos by lia. cbn [cbind]. rewrite HR.
  rewrite (iceil_pos 0 8), (cdiv_0 8) by lia. cbn [cbind].
  rewrite (iceil_pos 0 p), (cdiv_0 p) by lia. cbn [cbind truthy negb Z.eqb lift pbind].
  change (pad01 0) with 0. unfold schedule_mvm, pfor_. cbn [g_Mb g_m_pad g_p_l]. change (truthy 0) with false.
  assert (HQ : 0 <= Z.quot M (p * mc)) by (apply Z.quot_pos; lia).
  assert (HQ' : 0 <= Z.quot K kc + pad01 (Z.rem K kc)).
  { assert (0 <= Z.quot K kc) by (apply Z.quot_pos; lia). unfold pad01. destruct (truthy _); lia. }
  eapply (pok_pfor1 (fun _ _ m' => live m' = live m /\ forall b i, dat m' b i = dat m b i)); auto; [lia|].
  intros mi _ m1 Hmi (HL & HF). rewrite andb_false_r.
  eapply (pok_par_for 0 p 1 p _ m1 (fun _ => rnone) (fun _ => rnone) (fun _ _ => True)); try lia.
  - intros c Hc. unfold mvm_core. cbn [g_Mb g_m_pad g_p_l g_m_c g_Kb g_k_pad g_k_c1 g_k_c].
    change (truthy 0) with false. rewrite andb_false_r. cbn iota. rewrite (Z.quot_small mc 8) by lia.
    unfold tfor_ at 1. eapply (twp_tfor1 _ _ (fun _ _ _ => True)); auto.
  - intros c d b i _ _ _ [].
  - intros m2 HL2 _ HF2. split; [congruence|]. intros b i. now rewrite HF2.
Qed.

(** ** The field that is never set *)

Lemma sgemv_field S raw M K p user m : 0 <= M -> 0 < p -> usable_tiles raw M p 8 user ->
  always_undefined (cake_sgemv S raw None M K p 8 user) m /\
  always_undefined (cake_sgemv S raw (Some MKN) M K p 8 user) m /\
  forall o, (pexec (cake_sgemv S raw (Some NKM) M K p 8 user) m o <-> o = Exited) /\
            (pexec (cake_sgemv S raw (Some NA) M K p 8 user) m o <-> o = Exited).
Proof.
  intros HM Hp Hu. destruct (tiles_ok raw M p 8 user HM Hp ltac:(lia) Hu) as (mc & kc & E & _).
  unfold cake_sgemv. rewrite E. cbn [lift pbind]. unfold always_undefined.
  assert (U : forall o, pexec (PUB : prog (elt S) unit) m o -> o = Undef) by (intros o H; inversion H; auto).
  split; [split; [constructor|auto]|split; [split; [constructor|auto]|]].
  intros o. split; (split; [intros H; inversion H; auto|intros ->; constructor]).
Qed.
