(** * cake_sgemm_2d and cake_sgemm_2d_small read A and B in whole register tiles: an exact
      condition. *)

From Coq Require Import ZArith List Bool Lia.
From Verif Require Import Lang Lang_facts Spec SpecTop SpecOnline SpecTouch ModelSizing ModelKernel ModelPack ModelSched ModelTop
     Loop_facts Sizing_facts PackMat_facts Order_facts Frame_facts Init_facts TopK_facts CallAll_facts Mult_facts
     PackCall_facts TopMN_facts TopOnline_facts Online_facts Grid2_facts Top2d_facts Grid_call_facts Small2d_facts
     Touch_facts Race_facts TouchMN_facts TouchOnline_facts.
Import ListNotations.
Open Scope Z_scope.

Local Transparent tbind tload tload_al tstore pbind.

Section Sched.

Variable S : scalar.
Notation T := (elt S).
Variables (M N K p : Z) (x : blk_dims) (ar : arch) (c : cntx).
Hypothesis F : g2_facts M N K p (mr c) (nr c) x.
Hypothesis HM0 : 0 < M.
Hypothesis HN0 : 0 < N.
Hypothesis HK0 : 0 <= K.
Hypothesis Hmr : 0 < mr c.
Hypothesis Hnr : 0 < nr c.

Let FM := gf_M _ _ _ _ _ _ _ F.
Let FN := gf_N _ _ _ _ _ _ _ F.
Let HM := df_P _ _ _ _ _ _ _ _ _ _ _ FM.
Let HN := df_P _ _ _ _ _ _ _ _ _ _ _ FN.
Let HK := gf_K _ _ _ _ _ _ _ F.

Lemma g_Mb : 0 < Mb x.
Proof. destruct (part_cover _ _ _ _ HM 0) as (m & H & _); [pose proof (df_Dp _ _ _ _ _ _ _ _ _ _ _ FM)|]; lia. Qed.
Lemma g_Nb : 0 < Nb x.
Proof. destruct (part_cover _ _ _ _ HN 0) as (m & H & _); [pose proof (df_Dp _ _ _ _ _ _ _ _ _ _ _ FN)|]; lia. Qed.

Section B.
Variable b : buf.
Hypothesis Hb : ~ work b.

Lemma sgk_keeps A B C mt nt kt m_r n_r : fst C <> b ->
  keeps b (tile_loops S (cake_sgemm_ukernel S ar) A B C mt nt kt m_r n_r).
Proof.
  intros H. unfold tile_loops, tfor_. apply keeps_tfor. intros. apply keeps_tfor. intros. now apply ukernel_keeps.
Qed.

Lemma g2_packB_keeps n k : pkeeps b (g2_packB S (BufB, 0) N c x n k).
Proof. unfold g2_packB. cbv zeta. apply pkeeps_ppar. intros. apply pack_B_nr_keeps. apply work_ne; [exact Hb|exact I]. Qed.
Lemma g2_packA_keeps m k : pkeeps b (g2_packA S (BufA, 0) K c x m k).
Proof. unfold g2_packA. cbv zeta. apply pkeeps_ppar. intros. apply pack_A_mr_keeps. apply work_ne; [exact Hb|exact I]. Qed.
Lemma g2_core_keeps n m k core : keeps b (g2_core S ar c x n m k core).
Proof. unfold g2_core. cbv zeta. apply sgk_keeps. apply work_ne; [exact Hb|exact I]. Qed.
Lemma g2_unpack_keeps n m core : keeps b (g2_unpack S (BufC, 0) M N c x n m core).
Proof.
  unfold g2_unpack. cbv zeta. apply keeps_bind; intros; [apply unpack_keeps|apply memset0_keeps]; apply work_ne; auto; exact I.
Qed.

Lemma g2_k_keeps n m k (t1 t2 : bool) : pkeeps b
  ((if t1 then PRet tt else g2_packB S (BufB, 0) N c x n k) ;;;
   (if t2 then PRet tt else g2_packA S (BufA, 0) K c x m k) ;;;
   ppar_for 0 (g2_pum x m * g2_pun x n) 1 (g2_core S ar c x n m k))%prog.
Proof.
  apply pkeeps_bind; intros; [destruct t1; [exact I|apply g2_packB_keeps]|].
  apply pkeeps_bind; intros; [destruct t2; [exact I|apply g2_packA_keeps]|].
  apply pkeeps_ppar. intros. apply g2_core_keeps.
Qed.

Lemma g2_m_keeps n m ms : pkeeps b
  (let ks := snake (inner_rev n m) (Kb x) in
      let p_used := g2_pum x m * g2_pun x n in
      (pfor_ne_ (sn_start ks) (sn_end ks) (sn_inc ks) (fun k =>
        (if (k =? sn_start ks) && negb (m =? sn_start ms) then PRet tt
         else g2_packB S (BufB, 0) N c x n k) ;;;
        (if (k =? sn_start ks) && (m =? sn_start ms) && negb (n =? 0) then PRet tt
         else g2_packA S (BufA, 0) K c x m k) ;;;
        ppar_for 0 p_used 1 (g2_core S ar c x n m k)) ;;;
       ppar_for 0 p_used 1 (g2_unpack S (BufC, 0) M N c x n m))%prog).
Proof.
  cbv zeta. apply pkeeps_bind; intros.
  - unfold pfor_ne_. apply pkeeps_pfor_ne. intros. apply g2_k_keeps.
  - apply pkeeps_ppar. intros. apply g2_unpack_keeps.
Qed.

End B.

Lemma g2_touches_A i0 k0 : 0 <= i0 < M_padded x -> 0 <= k0 < K ->
  ptouches BufA (i0 * K + k0) (schedule_KMN_2d S ar (BufA, 0) (BufB, 0) (BufC, 0) M N K c x).
Proof.
  intros Hi0 Hk0. assert (Hw : ~ work BufA) by (intros []).
  destruct (part_cover _ _ _ _ HM i0 ltac:(lia)) as (m & Hm & Hm').
  destruct (part_cover _ _ _ _ HK k0 ltac:(lia)) as (k & Hk & Hk').
  set (r := i0 - m * (pm x * m_c x)) in *.
  pose proof (Z.div_mod r (mr c) ltac:(lia)) as E. pose proof (Z.mod_pos_bound r (mr c) Hmr) as Bm.
  assert (Hq : 0 <= r / mr c) by (apply Z.div_pos; lia).
  unfold schedule_KMN_2d, pfor_.
  apply (ptouches_pfor1 _ _ 0 (Nb x) _ _ 0); [pose proof g_Nb; lia| |].
  { intros n s. apply pkeeps_pfor_ne. intros. now apply g2_m_keeps. }
  intros _. cbv zeta. apply (ptouches_snake S _ _ _ _ _ m); auto.
  { intros. now apply g2_m_keeps. }
  apply ptouches_bind_l. apply (ptouches_snake S _ _ _ _ _ k); auto.
  { intros z. now apply g2_k_keeps. }
  apply ptouches_bind_r.
  { destruct (_ && _); [exact I|]. now apply g2_packB_keeps. }
  intros _. rewrite Z.eqb_refl, andb_false_r. apply ptouches_bind_l.
  unfold g2_packA. cbv zeta.
  apply (ptouches_ppar _ _ 0 (g2_mcb x (mr c) m) (mr c) _ (r / mr c)); auto; [nia| |].
  { intros. apply pack_A_mr_keeps. discriminate. }
  apply (pack_A_mr_touches S BufA _ _ _ _ _ (k0 - k * k_c x) (r mod mr c)); auto; [lia|].
  unfold padd. cbn [fst snd].
  replace i0 with (m * (pm x * m_c x) + (mr c * (r / mr c) + r mod mr c)) by (rewrite <- E; unfold r; ring). ring.
Qed.

Lemma g2_touches_B k0 j0 : 0 <= k0 < K -> 0 <= j0 < N_padded x ->
  ptouches BufB (k0 * N + j0) (schedule_KMN_2d S ar (BufA, 0) (BufB, 0) (BufC, 0) M N K c x).
Proof.
  intros Hk0 Hj0. assert (Hw : ~ work BufB) by (intros []).
  destruct (part_cover _ _ _ _ HN j0 ltac:(lia)) as (n & Hn & Hn').
  destruct (part_cover _ _ _ _ HK k0 ltac:(lia)) as (k & Hk & Hk').
  set (r := j0 - n * (pn x * n_c x)) in *.
  pose proof (Z.div_mod r (nr c) ltac:(lia)) as E. pose proof (Z.mod_pos_bound r (nr c) Hnr) as Bm.
  assert (Hq : 0 <= r / nr c) by (apply Z.div_pos; lia).
  pose proof g_Mb as HMb.
  unfold schedule_KMN_2d, pfor_.
  apply (ptouches_pfor1 _ _ 0 (Nb x) _ _ n); auto.
  { intros z s. apply pkeeps_pfor_ne. intros. now apply g2_m_keeps. }
  intros _. cbv zeta. apply (ptouches_snake S _ _ _ _ _ (sn_start (snake (odd2 n) (Mb x)))).
  { unfold snake, sn_start. destruct (odd2 n); cbn; lia. }
  { intros. now apply g2_m_keeps. }
  apply ptouches_bind_l. apply (ptouches_snake S _ _ _ _ _ k); auto.
  { intros z. now apply g2_k_keeps. }
  rewrite Z.eqb_refl, andb_false_r. apply ptouches_bind_l.
  unfold g2_packB. cbv zeta.
  apply (ptouches_ppar _ _ 0 (g2_ncb x (nr c) n) (nr c) _ (r / nr c)); auto; [nia| |].
  { intros. apply pack_B_nr_keeps. discriminate. }
  apply (pack_B_nr_touches S BufB _ _ _ _ _ (k0 - k * k_c x) (r mod nr c)); auto; [lia|].
  unfold padd. cbn [fst snd].
  replace j0 with (n * (pn x * n_c x) + (nr c * (r / nr c) + r mod nr c)) by (rewrite <- E; unfold r; ring). ring.
Qed.

End Sched.

Section Calls.

Variable S : scalar.
Notation T := (elt S).

Lemma tail_gen_reach b i sa sb sc p body : b = BufA \/ b = BufB -> ptouches b i body ->
  ptouches b i (tail_gen S sa sb sc p body).
Proof.
  intros Hb H.
  assert (Hne : forall b', work b' -> b' <> b) by (intros b' Hw ->; destruct Hb as [-> | ->]; exact Hw).
  unfold tail_gen, palloc. cbn [pbind ptouches]. split; [apply Hne; exact I|]. split; [apply Hne; exact I|].
  apply ptouches_bind_r.
  { unfold alloc_Cp, pfor_, palloc. apply pkeeps_pfor. intros. split; [apply Hne|]; exact I. }
  intros _. now apply ptouches_bind_l.
Qed.

Lemma g2_reach b i F ar q rows M N K p c mcu kcu ncu x : b = BufA \/ b = BufB ->
  init_block_dims_2d F M N K p rows c KMN mcu kcu ncu = CRet x ->
  ptouches b i (schedule_KMN_2d S ar (BufA, 0) (BufB, 0) (BufC, 0) M N K c x) ->
  ptouches b i (cake_sgemm_2d S F ar q rows M N K p (Some c) mcu kcu ncu).
Proof.
  intros Hb E H. rewrite unfold_2d. unfold get_ctx, palloc. cbn [pbind ptouches].
  split; [destruct Hb as [-> | ->]; discriminate|].
  rewrite E. cbn [lift pbind]. unfold tail_2d. now apply tail_gen_reach.
Qed.

Lemma small_reach b i F ar q rows M N K p c x : b = BufA \/ b = BufB ->
  init_block_dims_2d_small F M N K p rows c KMN = CRet x ->
  ptouches b i (schedule_KMN_2d_small S ar (BufA, 0) (BufB, 0) (BufC, 0) M N K p c x) ->
  ptouches b i (cake_sgemm_2d_small S F ar q rows M N K p (Some c)).
Proof.
  intros Hb E H. rewrite unfold_small. unfold get_ctx, palloc. cbn [pbind ptouches].
  split; [destruct Hb as [-> | ->]; discriminate|].
  rewrite E. cbn [lift pbind]. unfold tail_small. now apply tail_gen_reach.
Qed.

Lemma g2_roundup M N K p c x : g2_facts M N K p (mr c) (nr c) x -> 0 < mr c -> 0 < nr c ->
  round_up M (mr c) = M_padded x /\ round_up N (nr c) = N_padded x.
Proof.
  intros F Hmr Hnr. pose proof (gf_M _ _ _ _ _ _ _ F) as FM. pose proof (gf_N _ _ _ _ _ _ _ F) as FN. split; apply roundup_uniq; auto.
  - apply (df_Dd _ _ _ _ _ _ _ _ _ _ _ FM).
  - apply (df_Dp _ _ _ _ _ _ _ _ _ _ _ FM).
  - apply (df_Dd _ _ _ _ _ _ _ _ _ _ _ FN).
  - apply (df_Dp _ _ _ _ _ _ _ _ _ _ _ FN).
Qed.

Lemma g2d_undefined_A F ar q rows M N K p c mcu kcu ncu m0 i k :
  legal_2d F ar rows c M N K p mcu kcu ncu -> M <= i < round_up M (mr c) -> 0 <= k < K ->
  missing m0 BufA (i * K + k) ->
  always_undefined (cake_sgemm_2d S F ar q rows M N K p (Some c) mcu kcu ncu) m0.
Proof.
  intros L Hi Hk Hmi. destruct (legal_2d_dims _ _ _ _ _ _ _ _ _ _ _ L) as (Hmr & Hnr & x & Ex & Fx).
  destruct L as (Har & Hc & HM & HN & HK & Hp & _). destruct (g2_roundup _ _ _ _ _ _ Fx Hmr Hnr) as (EM & _).
  apply (ptouches_exec BufA (i * K + k)); [|now apply missing_unreadable].
  eapply g2_reach; eauto. eapply g2_touches_A; eauto. lia.
Qed.

Lemma g2d_undefined_B F ar q rows M N K p c mcu kcu ncu m0 k j :
  legal_2d F ar rows c M N K p mcu kcu ncu -> 0 <= k < K -> N <= j < round_up N (nr c) ->
  missing m0 BufB (k * N + j) ->
  always_undefined (cake_sgemm_2d S F ar q rows M N K p (Some c) mcu kcu ncu) m0.
Proof.
  intros L Hk Hj Hmi. destruct (legal_2d_dims _ _ _ _ _ _ _ _ _ _ _ L) as (Hmr & Hnr & x & Ex & Fx).
  destruct L as (Har & Hc & HM & HN & HK & Hp & _). destruct (g2_roundup _ _ _ _ _ _ Fx Hmr Hnr) as (_ & EN).
  apply (ptouches_exec BufB (k * N + j)); [|now apply missing_unreadable].
  eapply g2_reach; eauto. eapply g2_touches_B; eauto. lia.
Qed.

Lemma g2d_safe_iff F ar q rows M N K p c mcu kcu ncu A B m0 :
  legal_2d F ar rows c M N K p mcu kcu ncu -> caller m0 M N K A B ->
  (~ pexec (cake_sgemm_2d S F ar q rows M N K p (Some c) mcu kcu ncu) m0 Undef <->
   A_rim m0 M K (mr c) /\ B_rim m0 N K (nr c) 0).
Proof.
  intros L Hc. split.
  - intros H. split.
    + intros i k Hi Hk. destruct (missing_or S m0 BufA (i * K + k)) as [Q|Q]; [|exact Q].
      exfalso. apply H. eapply g2d_undefined_A; eauto.
    + intros k j Hk Hj. destruct (missing_or S m0 BufB (k * N + j)) as [Q|Q]; [|exact Q].
      exfalso. apply H. apply (g2d_undefined_B F ar q rows M N K p c mcu kcu ncu m0 k j); auto; lia.
  - intros (H2 & H3) Hu. destruct (ok_2d S F ar q rows M N K p (Some c) c mcu kcu ncu eq_refl L) as (ord & _ & G).
    destruct (G A B m0 Hc H2 H3) as (_ & G2). destruct (G2 _ Hu) as (r & m' & E & _). discriminate.
Qed.

Lemma g2d_exact F ar q rows M N K p c mcu kcu ncu A B m0 ba bb :
  legal_2d F ar rows c M N K p mcu kcu ncu -> 0 < K -> caller m0 M N K A B ->
  live m0 BufA = Some ba -> blen ba = M * K -> live m0 BufB = Some bb -> blen bb = K * N ->
  (~ pexec (cake_sgemm_2d S F ar q rows M N K p (Some c) mcu kcu ncu) m0 Undef <-> (mr c | M) /\ (nr c | N)).
Proof.
  intros L HK Hc LA EA LB EB. rewrite (g2d_safe_iff F ar q rows M N K p c mcu kcu ncu A B m0) by auto.
  destruct L as (Har & Hc0 & HM & HN & _ & Hp & _). destruct (ctx_pos_min ar c Har Hc0) as (Hmr & Hnr & _).
  rewrite (A_rim_exact S m0 A B M N K (mr c) ba) by (auto; lia). rewrite (B_rim_exact S m0 A B M N K (nr c) bb) by auto.
  tauto.
Qed.

(** ** the grid for small matrices *)
Lemma smalways_undefined_A F ar q rows M N K p pn c m0 i k :
  legal_small F ar rows c M N K p pn -> M <= i < round_up M (mr c) -> 0 <= k < K ->
  missing m0 BufA (i * K + k) ->
  always_undefined (cake_sgemm_2d_small S F ar q rows M N K p (Some c)) m0.
Proof.
  intros L Hi Hk Hmi. destruct (small_dims _ _ _ _ _ _ _ _ _ L) as (x & Ex & Fx & Ep & HKb & D1 & D2 & P1 & P2 & L1 & L2).
  destruct L as (Har & Hc & HM & HN & HK & Hp & _). destruct (ctx_pos_min ar c Har Hc) as (Hmr & Hnr & _).
  destruct (g2_roundup _ _ _ _ _ _ Fx Hmr Hnr) as (EM & _).
  apply (ptouches_exec BufA (i * K + k)); [|now apply missing_unreadable].
  eapply small_reach; eauto. rewrite small_as_2d by (auto; lia). eapply g2_touches_A; eauto. lia.
Qed.

Lemma smalways_undefined_B F ar q rows M N K p pn c m0 k j :
  legal_small F ar rows c M N K p pn -> 0 <= k < K -> N <= j < round_up N (nr c) ->
  missing m0 BufB (k * N + j) ->
  always_undefined (cake_sgemm_2d_small S F ar q rows M N K p (Some c)) m0.
Proof.
  intros L Hk Hj Hmi. destruct (small_dims _ _ _ _ _ _ _ _ _ L) as (x & Ex & Fx & Ep & HKb & D1 & D2 & P1 & P2 & L1 & L2).
  destruct L as (Har & Hc & HM & HN & HK & Hp & _). destruct (ctx_pos_min ar c Har Hc) as (Hmr & Hnr & _).
  destruct (g2_roundup _ _ _ _ _ _ Fx Hmr Hnr) as (_ & EN).
  apply (ptouches_exec BufB (k * N + j)); [|now apply missing_unreadable].
  eapply small_reach; eauto. rewrite small_as_2d by (auto; lia). eapply g2_touches_B; eauto. lia.
Qed.

Lemma small_safe_iff F ar q rows M N K p pn c A B m0 :
  legal_small F ar rows c M N K p pn -> caller m0 M N K A B ->
  (~ pexec (cake_sgemm_2d_small S F ar q rows M N K p (Some c)) m0 Undef <->
   A_rim m0 M K (mr c) /\ B_rim m0 N K (nr c) 0).
Proof.
  intros L Hc. split.
  - intros H. split.
    + intros i k Hi Hk. destruct (missing_or S m0 BufA (i * K + k)) as [Q|Q]; [|exact Q].
      exfalso. apply H. eapply smalways_undefined_A; eauto.
    + intros k j Hk Hj. destruct (missing_or S m0 BufB (k * N + j)) as [Q|Q]; [|exact Q].
      exfalso. apply H. apply (smalways_undefined_B F ar q rows M N K p pn c m0 k j); auto; lia.
  - intros (H2 & H3) Hu.
    destruct (small_product S F ar q rows M N K p pn c L A B m0 Hc H2 H3) as (_ & G2).
    destruct (G2 _ Hu) as (r & m' & E & _). discriminate.
Qed.

Lemma small_exact F ar q rows M N K p pn c A B m0 ba bb :
  legal_small F ar rows c M N K p pn -> 0 < K -> caller m0 M N K A B ->
  live m0 BufA = Some ba -> blen ba = M * K -> live m0 BufB = Some bb -> blen bb = K * N ->
  (~ pexec (cake_sgemm_2d_small S F ar q rows M N K p (Some c)) m0 Undef <-> (mr c | M) /\ (nr c | N)).
Proof.
  intros L HK Hc LA EA LB EB. rewrite (small_safe_iff F ar q rows M N K p pn c A B m0) by auto.
  destruct L as (Har & Hc0 & HM & HN & _ & Hp & _). destruct (ctx_pos_min ar c Har Hc0) as (Hmr & Hnr & _).
  rewrite (A_rim_exact S m0 A B M N K (mr c) ba) by (auto; lia). rewrite (B_rim_exact S m0 A B M N K (nr c) bb) by auto.
  tauto.
Qed.

End Calls.
