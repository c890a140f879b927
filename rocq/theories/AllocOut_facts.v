(** * Running out of memory for the accumulator C_p of cake_sgemm. *)

From Coq Require Import ZArith List Bool Lia.
From Verif Require Import Lang Lang_facts Exec Exec_facts Spec SpecTop SpecTouch SpecAlloc ModelAlloc ModelSizing ModelKernel ModelPack ModelSched ModelTop
     Loop_facts Sizing_facts SizingMN_facts PackMat_facts Order_facts Frame_facts Init_facts TopK_facts TopMN_facts CallAll_facts PackCall_facts
     Touch_facts TouchOut_facts SmallOver_facts NfOver_facts BadMap_facts LargeTile_facts LargeCall_facts LargeOut_facts Alloc_facts AllocCall_facts.
Import ListNotations.
Open Scope Z_scope.

Lemma part_first nb t L w : part nb t L w -> 0 < L -> 0 < nb.
Proof. intros P H. destruct (part_cover _ _ _ _ P 0 ltac:(lia)) as (m & Hm & _). lia. Qed.

Section Out.

Variable S : scalar.
Notation T := (elt S).

(** the first register tile of the first block is loaded from C_p *)
Lemma tiles_first b ar A B mt nt kt m_r n_r : 0 < MR_MIN ar -> 0 < NR_MIN ar -> 0 < m_r -> 0 < n_r ->
  (m_r | mt) -> (n_r | nt) -> 0 < mt -> 0 < nt ->
  touches b 0 (tile_loops S (cake_sgemm_ukernel S ar) A B (b, 0) mt nt kt m_r n_r).
Proof.
  intros H1 H2 Hm Hn (u & ->) (w & ->) Hmt Hnt. assert (0 < u) by nia. assert (0 < w) by nia.
  apply (tiles_touch S b 0 _ _ _ _ _ _ _ _ _ 0 0); try (rewrite Z.quot_mul; lia).
  unfold cake_sgemm_ukernel, padd. cbn [fst snd]. apply ukernel_touches_C. nia.
Qed.

Lemma schedule_first ar A_p B_p M N K p c x s' : s' = MKN \/ s' = NKM -> arch_ok ar -> 0 < mr c -> 0 < nr c ->
  0 < M -> 0 < N -> 0 < K -> plan M N K p c s' x -> pout (BufCp 0) 0 (schedule S ar A_p B_p (BufCp 0, 0) M N K p c x s').
Proof.
  intros Hs Har Hmr Hnr HM HN HK HP.
  assert (F : bf M N K p (mr c) (nr c) (tM_s p x (swap_of s')) (mt_s p x (swap_of s')) x) by (destruct Hs; subst; apply HP). clear HP.
  pose proof (bf_M _ _ _ _ _ _ _ _ _ F) as PM. pose proof (bf_N _ _ _ _ _ _ _ _ _ F) as PN. pose proof (bf_K _ _ _ _ _ _ _ _ _ F) as PK.
  pose proof (bf_Mp _ _ _ _ _ _ _ _ _ F) as HMp. pose proof (bf_Np _ _ _ _ _ _ _ _ _ F) as HNp.
  assert (0 < Mb x) by (eapply part_first; [exact PM|lia]). assert (0 < Nb x) by (eapply part_first; [exact PN|lia]).
  assert (0 < Kb x) by (eapply part_first; [exact PK|lia]).
  pose proof (pt_w _ _ _ _ PM 0 ltac:(lia)) as Wm. pose proof (pt_w _ _ _ _ PN 0 ltac:(lia)) as Wn.
  pose proof (bf_pk _ _ _ _ _ _ _ _ _ F 0 ltac:(lia)) as Wk.
  pose proof (bf_mr _ _ _ _ _ _ _ _ _ F 0 ltac:(lia)) as Dm. pose proof (bf_nr _ _ _ _ _ _ _ _ _ F 0 ltac:(lia)) as Dn.
  assert (R : 0 < MR_MIN ar /\ 0 < NR_MIN ar) by (unfold arch_ok in Har; lia). destruct R as (R1 & R2).
  destruct (sn_at_surj (odd2 0) (Kb x) 0 ltac:(lia)) as (q & Hq & E).
  destruct Hs as [-> | ->]; cbn [swap_of] in *; unfold mt_s, tM_s in *; unfold schedule.
  - unfold schedule_MKN, pfor_. apply (pout_pfor1 _ _ 0 (Nb x) _ _ 0); [lia| |].
    { intros. cbv zeta. unfold pfor_ne_. apply small_pfor_ne. intros. apply small_ppar. }
    intros _. cbv zeta. rewrite snake_end. unfold pfor_ne_.
    apply (pout_pfor_ne _ _ _ _ _ _ _ q); [apply snake_inc|auto| |].
    { intros. apply small_ppar. }
    intros _. unfold sn_at in E. rewrite E.
    destruct (sn_at_surj (inner_rev 0 0) (Mb x) 0 ltac:(lia)) as (q' & Hq' & E').
    apply (pout_ppar1 _ _ 0 _ _ q'); [lia|]. unfold sn_at in E'. rewrite E'.
    unfold mkn_row. cbv zeta. unfold tfor_. apply (touches_tfor1 _ _ 0 _ _ _ 0); [lia|]. intros _.
    unfold padd at 3. cbn [fst snd]. rewrite !Z.mul_0_l, !Z.add_0_l. apply tiles_first; auto; lia.
  - unfold schedule_NKM, pfor_. apply (pout_pfor1 _ _ 0 (Mb x) _ _ 0); [lia| |].
    { intros. cbv zeta. unfold pfor_ne_. apply small_pfor_ne. intros. apply small_ppar. }
    intros _. cbv zeta. rewrite snake_end. unfold pfor_ne_.
    apply (pout_pfor_ne _ _ _ _ _ _ _ q); [apply snake_inc|auto| |].
    { intros. apply small_ppar. }
    intros _. unfold sn_at in E. rewrite E.
    destruct (sn_at_surj (inner_rev 0 0) (Nb x) 0 ltac:(lia)) as (q' & Hq' & E').
    apply (pout_ppar1 _ _ 0 _ _ q'); [lia|]. unfold sn_at in E'. rewrite E'.
    unfold nkm_col. cbv zeta. unfold tfor_. apply (touches_tfor1 _ _ 0 _ _ _ 0); [lia|]. intros _.
    unfold padd at 3. cbn [fst snd]. rewrite ?Z.mul_0_l, ?Z.mul_0_r, ?Z.mul_0_l, !Z.add_0_l. apply tiles_first; auto; lia.
Qed.

Ltac sm := repeat (cbv zeta; match goal with
  | |- small _ _ (PRet _) => exact I
  | |- small _ _ PUB => exact I
  | |- small _ _ (ppar_for _ _ _ _) => apply small_ppar
  | |- small _ _ (pfor _ _ _ _ _) => apply small_pfor; intros
  | |- small _ _ (pfor_ne _ _ _ _ _) => apply small_pfor_ne; intros
  | |- small _ _ (pbind _ _) => apply small_bind; intros
  | |- small _ _ (match ?x with _ => _ end) => destruct x
  end).

Lemma pack_A_small' b i A A_p M K p x c s : s <> NA -> small b i (pack_A S A A_p M K p x c s).
Proof.
  intros Hs. destruct s; [apply pack_A_small| | |congruence]; unfold pack_A.
  - unfold pack_A_single_buf_m_first, pfor_. sm.
  - unfold pack_A_single_buf_n_first, pfor_. sm.
Qed.

Lemma pack_B_small' b i B B_p K N p x c s : s <> NA -> small b i (pack_B S B B_p K N p x c s).
Proof.
  intros Hs. destruct s; [apply pack_B_small| | |congruence]; unfold pack_B.
  - unfold pack_B_m_first, pfor_. sm.
  - unfold pack_B_n_first, pfor_. sm.
Qed.

Section Fail.

Variable fl : buf -> bool.

Local Transparent pfor.
Lemma oom_pfor_small b i lo hi step (f : Z -> prog T unit) : (forall z, small b i (out_of_memory fl (f z))) ->
  small b i (out_of_memory fl (pfor lo hi step tt (fun z _ => f z))).
Proof.
  intros H. unfold pfor. destruct (0 <? step); [|destruct (lo <? hi); exact I].
  generalize (loop_count lo hi step) as n. intros n. revert lo. induction n; intros lo; cbn [piter]; [exact I|].
  rewrite oom_bind. apply small_bind; [apply H|]. intros []. apply IHn.
Qed.
Local Opaque pfor.

Lemma oom_small b i {R} (P : prog T R) : no_heap P -> small b i P -> small b i (out_of_memory fl P).
Proof. intros H. now rewrite no_heap_oom. Qed.

(** K-first, or beta = 0: C_p is requested by calloc *)
Lemma no_accumulator F ar q nz M N K p c pa pb al be s mcu kcu ncu (m0 : mem T) :
  legal F ar s c M N K p mcu kcu ncu -> 0 < M -> 0 < N -> 0 < K -> s = KMN \/ nz be = false ->
  (forall b, fl b = true -> exists i, b = BufCp i) -> fl (BufCp 0) = true -> live m0 (BufCp 0) = None ->
  always_undefined (out_of_memory fl (cake_sgemm S F ar q nz M N K p (Some c) pa pb al be s mcu kcu ncu)) m0.
Proof.
  intros (Har & Hc & HM0 & HN0 & HK0 & Hp & Ht) HM HN HK Hs Hfl H0 HL.
  assert (FX : forall i, fl (BufX i) = false) by (intros j; destruct (fl (BufX j)) eqn:E; auto; destruct (Hfl _ E); discriminate).
  assert (FA : fl (BufAp 0) = false) by (destruct (fl (BufAp 0)) eqn:E; auto; destruct (Hfl _ E); discriminate).
  assert (FB : fl BufBp = false) by (destruct (fl BufBp) eqn:E; auto; destruct (Hfl _ E); discriminate).
  destruct (plan_ok F ar M N K p c s mcu kcu ncu Har Hc HM0 HN0 HK0 Hp Ht)
    as (s' & x & c' & Hna & Hs' & Hc' & Hi & _ & HP & _).
  destruct (ctx_for_pos ar s' c' Har Hc') as (Hmr & Hnr).
  assert (G : forall i, (forall A_p B_p, pout (BufCp 0) i (out_of_memory fl (sgemm_mid S ar nz M N K p be x c' A_p B_p))) ->
     pout (BufCp 0) i (out_of_memory fl (cake_sgemm S F ar q nz M N K p (Some c) pa pb al be s mcu kcu ncu))).
  { intros i G. rewrite cake_sgemm_unfold. unfold get_ctx. cbn [pbind]. unfold palloc, xbuf. cbn [pbind out_of_memory].
    rewrite FX. cbn [pout]. split; [left; discriminate|]. rewrite Hi. cbn [lift pbind]. unfold sgemm_after, sgemm_rest. cbn [fst snd].
    assert (Esx : sch x = s') by (destruct s'; [apply HP|apply HP|apply HP|congruence]).
    destruct (plan_sizes _ _ _ _ _ _ _ HP) as (E1 & E2 & _). rewrite E1, E2, Esx. cbn [lift pbind].
    assert (GA : small (BufCp 0) i (out_of_memory fl (pack_A S (BufA, 0) (BufAp 0, 0) M K p x c' s')))
      by (apply oom_small; [apply nh_pack_A|now apply pack_A_small']).
    assert (GB : small (BufCp 0) i (out_of_memory fl (pack_B S (BufB, 0) (BufBp, 0) K N p x c' s')))
      by (apply oom_small; [apply nh_pack_B|now apply pack_B_small']).
    assert (GR : forall A_p B_p (f : unit -> prog T cntx),
       pout (BufCp 0) i (out_of_memory fl (pbind (sgemm_mid S ar nz M N K p be x c' A_p B_p) f)))
      by (intros; rewrite oom_bind; apply pout_bind_l; apply G).
    assert (GB' : forall A_p (f : unit -> prog T cntx), pout (BufCp 0) i (out_of_memory fl (pbind
       (if pb then PRet (BufB, 0) else pbind (PRet (K * N_padded x)) (fun sz => pbind (palloc BufBp sz true None)
          (fun _ => pbind (pack_B S (BufB, 0) (BufBp, 0) K N p x c' s') (fun _ => PRet (BufBp, 0)))))
       (fun B_p => pbind (sgemm_mid S ar nz M N K p be x c' A_p B_p) f)))).
    { intros A_p f. destruct pb; cbn [pbind]; [apply GR|]. unfold palloc. cbn [pbind out_of_memory]. rewrite FB. cbn [pout].
      split; [left; discriminate|]. rewrite !oom_bind. cbn [out_of_memory]. apply pout_bind_ret; auto. }
    destruct pa; cbn [pbind]; [apply GB'|]. unfold palloc at 1. cbn [pbind out_of_memory]. rewrite FA. cbn [pout].
    split; [left; discriminate|]. rewrite oom_bind, (oom_bind fl (pack_A _ _ _ _ _ _ _ _ _)). cbn [out_of_memory]. apply pout_bind_ret; auto. }
  assert (Esx : sch x = s') by (destruct s'; [apply HP|apply HP|apply HP|congruence]).
  destruct s'; [| | |congruence].
  - apply (pout_exec (BufCp 0) (core_mt x 0 0 * blk_nt x 0 - 1)); [|unfold outside; now rewrite HL]. apply G. intros A_p B_p.
    unfold sgemm_mid. rewrite Esx. rewrite oom_bind. destruct HP as (Fk & _).
    apply pout_bind_r.
    { unfold alloc_Cp, pfor_. apply oom_pfor_small. intros z. unfold palloc. cbn [out_of_memory].
      destruct (fl (BufCp z)) eqn:Ez; [exact I|]. split; [left; congruence|exact I]. }
    intros _. rewrite oom_bind. apply pout_bind_l. rewrite (no_heap_oom fl (schedule_KMN _ _ _ _ _ _ _ _ _ _ _)) by apply nh_KMN.
    apply (schedule_L_out S (m_c x * n_c x)); auto.
    + eapply part_first; [apply Fk|]. pose proof (kf_Mp _ _ _ _ _ _ _ Fk). lia.
    + eapply part_first; [apply (kf_N _ _ _ _ _ _ _ Fk)|]. pose proof (kf_Np _ _ _ _ _ _ _ Fk). lia.
  - assert (Hb : nz be = false) by (destruct Hs as [->|]; [specialize (Hs' ltac:(discriminate)); discriminate|auto]).
    apply (pout_exec (BufCp 0) 0); [|unfold outside; now rewrite HL]. apply G. intros A_p B_p.
    unfold sgemm_mid. rewrite Esx. destruct (plan_sizes _ _ _ _ _ _ _ HP) as (_ & _ & E3). rewrite Esx in E3. rewrite E3, Hb.
    cbn [lift pbind]. unfold palloc. cbn [pbind out_of_memory]. rewrite H0. rewrite oom_bind. apply pout_bind_l.
    rewrite no_heap_oom by apply nh_schedule. apply schedule_first; auto.
  - assert (Hb : nz be = false) by (destruct Hs as [->|]; [specialize (Hs' ltac:(discriminate)); discriminate|auto]).
    apply (pout_exec (BufCp 0) 0); [|unfold outside; now rewrite HL]. apply G. intros A_p B_p.
    unfold sgemm_mid. rewrite Esx. destruct (plan_sizes _ _ _ _ _ _ _ HP) as (_ & _ & E3). rewrite Esx in E3. rewrite E3, Hb.
    cbn [lift pbind]. unfold palloc. cbn [pbind out_of_memory]. rewrite H0. rewrite oom_bind. apply pout_bind_l.
    rewrite no_heap_oom by apply nh_schedule. apply schedule_first; auto.
Qed.

(** M-first and N-first with beta <> 0: C_p is requested by posix_memalign *)
Lemma no_aligned_accumulator F ar q nz M N K p c pa pb al be s mcu kcu ncu (m0 : mem T) Q :
  legal F ar s c M N K p mcu kcu ncu -> s = MKN \/ s = NKM -> nz be = true ->
  (forall i, fl (BufX i) = false) -> fl (BufCp 0) = true -> (forall b, fl b = true -> live m0 b = None) ->
  always (cake_sgemm S F ar q nz M N K p (Some c) pa pb al be s mcu kcu ncu) m0 Q ->
  always_exits (out_of_memory fl (cake_sgemm S F ar q nz M N K p (Some c) pa pb al be s mcu kcu ncu)) m0.
Proof.
  intros (Har & Hc & HM0 & HN0 & HK0 & Hp & Ht) Hs Hb FX H0 HL HA.
  destruct (plan_ok F ar M N K p c s mcu kcu ncu Har Hc HM0 HN0 HK0 Hp Ht)
    as (s' & x & c' & Hna & Hs' & Hc' & Hi & _ & HP & _).
  assert (Es : s' = s) by (apply Hs'; destruct Hs; subst; discriminate). subst s'.
  assert (Esx : sch x = s) by (destruct Hs; subst; apply HP).
  destruct (plan_sizes _ _ _ _ _ _ _ HP) as (E1 & E2 & E3).
  assert (TX : forall i b, tested fl (BufX i) b) by (intros i b E; rewrite FX in E; discriminate).
  assert (TA : forall b, tested fl b true) by (intros b _; reflexivity).
  assert (HM : forall A_p B_p, heap_ops (tested fl) (fun _ => True) (sgemm_mid S ar nz M N K p be x c' A_p B_p) /\
     must_exit fl (sgemm_mid S ar nz M N K p be x c' A_p B_p)).
  { intros A_p B_p. unfold sgemm_mid. rewrite E3, Hb, Esx.
    assert (Em : forall (P P' : prog T unit), match s with KMN => P | _ => P' end = P') by (intros; destruct Hs; subst; reflexivity).
    rewrite Em. cbn [lift pbind]. split.
    - repeat (apply heap_bind; intros); try (apply no_heap_any; first [apply nh_pack_C|apply nh_schedule|apply nh_unpack_C]).
      + apply heap_alloc, TA.
      + apply heap_free. exact I.
    - apply exit_bind_l. apply exit_bind_l. cbn. auto. }
  apply (oom_always_exits fl _ m0 Q HA); auto; rewrite cake_sgemm_unfold; unfold get_ctx; cbn [pbind].
  - apply heap_bind; [apply heap_alloc, TX|]. intros _. rewrite Hi. cbn [lift pbind]. unfold sgemm_after, sgemm_rest. cbn [fst snd].
    rewrite E1, E2, Esx. cbn [lift pbind]. apply heap_bind.
    { destruct pa; [exact I|]. apply heap_bind; [apply heap_alloc, TA|]. intros _. apply heap_bind; [apply no_heap_any, nh_pack_A|]. intros; exact I. }
    intros A_p. apply heap_bind.
    { destruct pb; [exact I|]. apply heap_bind; [apply heap_alloc, TA|]. intros _. apply heap_bind; [apply no_heap_any, nh_pack_B|]. intros; exact I. }
    intros B_p. apply heap_bind; [apply HM|]. intros _.
    apply heap_bind; [destruct pa; cbn; auto|]. intros _. apply heap_bind; [destruct pb; cbn; auto|]. intros _. apply heap_bind; [apply heap_free; exact I|]. intros _. exact I.
  - apply exit_bind_r. intros _. rewrite Hi. cbn [lift pbind]. unfold sgemm_after, sgemm_rest. cbn [fst snd].
    apply exit_bind_r. intros A_p. apply exit_bind_r. intros B_p. apply exit_bind_l. apply HM.
Qed.

End Fail.
End Out.
