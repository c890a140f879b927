(** * cake_sgemm_online reads A and B in whole register tiles, and its threads assign a
      shared variable: exact conditions. *)

From Coq Require Import ZArith List Bool Lia.
From Verif Require Import Lang Lang_facts Spec SpecTop SpecOnline SpecTouch ModelSizing ModelKernel ModelPack ModelSched ModelTop
     Loop_facts Sizing_facts PackMat_facts Order_facts Frame_facts Init_facts TopK_facts CallAll_facts Mult_facts
     PackCall_facts TopOnline_facts Online_facts Touch_facts Race_facts TouchMN_facts.
Import ListNotations.
Open Scope Z_scope.

Local Transparent tbind tload tload_al tstore pbind.

Section Keeps.

Variable S : scalar.
Notation T := (elt S).

Lemma snake_pos rev nb z : 0 <= z < nb ->
  exists q, 0 <= q < nb /\ sn_start (snake rev nb) + q * sn_inc (snake rev nb) = z.
Proof.
  intros H. destruct rev; unfold snake, sn_start, sn_inc; cbn [fst snd].
  - exists (nb - 1 - z). lia.
  - exists z. lia.
Qed.

Lemma ptouches_snake b i rev nb (f : Z -> prog T unit) z : 0 <= z < nb ->
  (forall z, pkeeps b (f z)) -> ptouches b i (f z) ->
  ptouches b i (pfor_ne_ (sn_start (snake rev nb)) (sn_end (snake rev nb)) (sn_inc (snake rev nb)) f).
Proof.
  intros Hz Hk H. rewrite snake_end. unfold pfor_ne_. destruct (snake_pos rev nb z Hz) as (q & Hq & E).
  apply (ptouches_pfor_ne b i _ _ _ _ _ q); auto; [apply snake_inc|]. intros _. now rewrite E.
Qed.

Lemma praces_snake rev nb (f : Z -> prog T unit) z : 0 <= z < nb ->
  (forall z, noexit (f z)) -> praces (f z) ->
  praces (pfor_ne_ (sn_start (snake rev nb)) (sn_end (snake rev nb)) (sn_inc (snake rev nb)) f).
Proof.
  intros Hz Hk H. rewrite snake_end. unfold pfor_ne_. destruct (snake_pos rev nb z Hz) as (q & Hq & E).
  apply (praces_pfor_ne _ _ _ _ _ q); auto; [apply snake_inc|]. intros _. now rewrite E.
Qed.

Variable b : buf.

Lemma load_vec_keeps al p n : keeps b (load_vec S al p n).
Proof. unfold load_vec. apply keeps_tfor. intros. apply keeps_bind; intros; cbn; auto. Qed.

Lemma store_vec_keeps p n c : fst p <> b -> keeps b (store_vec S p n c).
Proof. intros H. unfold store_vec, tfor_. apply keeps_tfor. intros. cbn. auto. Qed.

Lemma inner_keeps ar kmr knr n st : keeps b (inner S ar kmr knr n st).
Proof.
  destruct st as ((A, B), c). unfold inner. apply keeps_bind; [apply load_vec_keeps|intros].
  apply keeps_bind; [|intros; exact I]. apply keeps_tfor. intros. apply keeps_bind; intros; cbn; auto.
Qed.

Lemma ukernel_keeps ar kmr knr A B C m n k : fst C <> b -> keeps b (ukernel S ar kmr knr A B C m n k).
Proof.
  intros H. unfold ukernel. apply keeps_bind; [apply load_vec_keeps|intros].
  apply keeps_bind; intros.
  { apply keeps_tfor. intros. repeat (apply keeps_bind; [apply inner_keeps|intros]). apply inner_keeps. }
  apply keeps_bind; intros; [apply keeps_tfor; intros; apply inner_keeps|]. now apply store_vec_keeps.
Qed.

Lemma kernel_keeps ar i j A B C m n k : fst C <> b -> keeps b (kernel_map S ar i j A B C m n k).
Proof. intros H. unfold kernel_map. destruct (_ && _); [now apply ukernel_keeps|exact I]. Qed.

Lemma tile_loops_keeps ar i j A B C mt nt kt m_r n_r : fst C <> b ->
  keeps b (tile_loops S (kernel_map S ar i j) A B C mt nt kt m_r n_r).
Proof.
  intros H. unfold tile_loops, tfor_. apply keeps_tfor. intros. apply keeps_tfor. intros. now apply kernel_keeps.
Qed.

Lemma unpack_keeps C C_p M N m1 n1 m2 mc nc m_r n_r : fst C <> b ->
  keeps b (unpack_ob_C_single_buf S C C_p M N m1 n1 m2 mc nc m_r n_r).
Proof.
  intros H. unfold unpack_ob_C_single_buf. apply keeps_bind; [|intros; exact I].
  repeat (apply keeps_tfor; intros). apply keeps_bind; [|intros; exact I].
  destruct (_ && _); [|exact I]. unfold pload, pstore. apply keeps_bind; intros; cbn; auto.
Qed.

Lemma memset0_keeps p n : fst p <> b -> keeps b (memset0 S p n).
Proof. intros H. unfold memset0, tfor_, pstore. apply keeps_tfor. intros. cbn. auto. Qed.

Lemma pack_A_mr_keeps A A_p K kc m_r : fst A_p <> b -> keeps b (pack_A_mr_x_kc S A A_p K kc m_r).
Proof.
  intros H. unfold pack_A_mr_x_kc. apply keeps_bind; [|intros; exact I].
  repeat (apply keeps_tfor; intros). apply keeps_bind; [|intros; exact I]. now apply copy0_keeps.
Qed.

Lemma pack_B_nr_keeps B B_p N kc n_r : fst B_p <> b -> keeps b (pack_B_nr_x_kc S B B_p N kc n_r).
Proof.
  intros H. unfold pack_B_nr_x_kc. apply keeps_bind; [|intros; exact I].
  repeat (apply keeps_tfor; intros). apply keeps_bind; [|intros; exact I]. now apply copy0_keeps.
Qed.

Lemma pack_A_mr_touches A A_p K kc m_r i j k : fst A = b -> 0 <= i < kc -> 0 <= j < m_r ->
  snd A + (i + j * K) = k -> touches b k (pack_A_mr_x_kc S A A_p K kc m_r).
Proof.
  intros Hb Hi Hj E. unfold pack_A_mr_x_kc. apply touches_bind_l.
  apply (touches_tfor1 b k 0 kc _ _ i); auto. intros s1.
  apply (touches_tfor1 b k 0 m_r _ _ j); auto. intros s2. apply touches_bind_l. now apply copy0_touches.
Qed.

Lemma pack_B_nr_touches B B_p N kc n_r i j k : fst B = b -> 0 <= i < kc -> 0 <= j < n_r ->
  snd B + (i * N + j) = k -> touches b k (pack_B_nr_x_kc S B B_p N kc n_r).
Proof.
  intros Hb Hi Hj E. unfold pack_B_nr_x_kc. apply touches_bind_l.
  apply (touches_tfor1 b k 0 kc _ _ i); auto. intros s1.
  apply (touches_tfor1 b k 0 n_r _ _ j); auto. intros s2. apply touches_bind_l. now apply copy0_touches.
Qed.

Definition work (b : buf) : Prop := match b with BufA | BufB => False | _ => True end.
Hypothesis Hb : ~ work b.

Lemma work_ne b' : work b' -> b' <> b.
Proof. intros H ->. auto. Qed.

Lemma online_core_keeps so ar A K p c x n m k ra core : keeps b (online_core S so ar A K p c x n m k ra core).
Proof.
  unfold online_core. cbv zeta. apply keeps_bind; intros.
  { destruct so; cbn; [|exact I]. split; [apply work_ne; exact I|exact I]. }
  apply keeps_bind; intros.
  { destruct ra; [exact I|]. unfold tfor_. apply keeps_tfor. intros. apply pack_A_mr_keeps. apply work_ne; exact I. }
  apply tile_loops_keeps. apply work_ne; exact I.
Qed.

Lemma kmn_unpack_keeps M N p c x n m core : keeps b (kmn_unpack S (BufC, 0) M N p c x n m core).
Proof.
  unfold kmn_unpack. cbv zeta. apply keeps_bind; intros; [apply unpack_keeps|apply memset0_keeps]; apply work_ne; exact I.
Qed.

Lemma online_packB_keeps B N c x n k : pkeeps b (online_packB S B N c x n k).
Proof. unfold online_packB. cbv zeta. apply pkeeps_ppar. intros. apply pack_B_nr_keeps. apply work_ne; exact I. Qed.

End Keeps.

Section Online.

Variable S : scalar.
Notation T := (elt S).
Variables (so : bool) (M N K p : Z) (x : blk_dims) (ar : arch) (c : cntx).
Hypothesis F : kmn_facts M N K p (mr c) (nr c) x.
Hypothesis HM0 : 0 < M.
Hypothesis HN0 : 0 < N.
Hypothesis HK0 : 0 <= K.
Hypothesis Hp : 0 < p.
Hypothesis Hmr : 0 < mr c.
Hypothesis Hnr : 0 < nr c.

Let HM := kf_M _ _ _ _ _ _ _ F.
Let HN := kf_N _ _ _ _ _ _ _ F.
Let HK := kf_K _ _ _ _ _ _ _ F.

Lemma on_Mb : 0 < Mb x.
Proof. destruct (part_cover _ _ _ _ HM 0) as (m & H & _); [pose proof (kf_Mp _ _ _ _ _ _ _ F)|]; lia. Qed.
Lemma on_Nb : 0 < Nb x.
Proof. destruct (part_cover _ _ _ _ HN 0) as (m & H & _); [pose proof (kf_Np _ _ _ _ _ _ _ F)|]; lia. Qed.

Lemma on_inner_keeps b n m : ~ work b ->
  pkeeps b (let ks := snake (inner_rev n m) (Kb x) in
      (pfor_ne_ (sn_start ks) (sn_end ks) (sn_inc ks) (fun k =>
        (if (k =? sn_start ks) && negb (m =? sn_start (snake (odd2 n) (Mb x))) then PRet tt
         else online_packB S (BufB, 0) N c x n k) ;;;
        ppar_for 0 (blk_pu x p m) 1
          (online_core S so ar (BufA, 0) K p c x n m k
             ((k =? sn_start ks) && (m =? sn_start (snake (odd2 n) (Mb x))) && negb (n =? 0)))) ;;;
       ppar_for 0 (blk_pu x p m) 1 (kmn_unpack S (BufC, 0) M N p c x n m))%prog).
Proof.
  intros Hb. cbv zeta. apply pkeeps_bind; intros.
  - unfold pfor_ne_. apply pkeeps_pfor_ne. intros. apply pkeeps_bind; intros.
    + destruct (_ && _); [exact I|]. now apply online_packB_keeps.
    + apply pkeeps_ppar. intros. now apply online_core_keeps.
  - apply pkeeps_ppar. intros. now apply kmn_unpack_keeps.
Qed.

(** rows of A beyond M *)
Lemma online_touches_A i0 k0 : 0 <= i0 < M_padded x -> 0 <= k0 < K ->
  ptouches BufA (i0 * K + k0) (schedule_KMN_online S so ar (BufA, 0) (BufB, 0) (BufC, 0) M N K p c x).
Proof.
  intros Hi0 Hk0. assert (Hw : ~ work BufA) by (intros []).
  destruct (part_cover _ _ _ _ HM i0 ltac:(lia)) as (m & Hm & Hm').
  destruct (part_cover _ _ _ _ HK k0 ltac:(lia)) as (k & Hk & Hk').
  destruct (part_cover _ _ _ _ (kf_C _ _ _ _ _ _ _ F m Hm) (i0 - m * (p * m_c x)) ltac:(lia)) as (core & Hc & Hc').
  set (r := i0 - m * (p * m_c x) - core * core_mx x m) in *.
  pose proof (Z.div_mod r (mr c) ltac:(lia)) as E. pose proof (Z.mod_pos_bound r (mr c) Hmr) as Bm.
  assert (Hq : 0 <= r / mr c) by (apply Z.div_pos; lia).
  unfold schedule_KMN_online, pfor_.
  apply (ptouches_pfor1 _ _ 0 (Nb x) _ _ 0); [pose proof on_Nb; lia| |].
  { intros n s. apply pkeeps_pfor_ne. intros. now apply on_inner_keeps. }
  intros _. cbv zeta. apply (ptouches_snake S _ _ _ _ _ m); auto.
  { intros. now apply on_inner_keeps. }
  apply ptouches_bind_l. apply (ptouches_snake S _ _ _ _ _ k); auto.
  { intros z. apply pkeeps_bind; intros.
    - destruct (_ && _); [exact I|]. now apply online_packB_keeps.
    - apply pkeeps_ppar. intros. now apply online_core_keeps. }
  apply ptouches_bind_r.
  { destruct (_ && _); [exact I|]. now apply online_packB_keeps. }
  intros _. rewrite Z.eqb_refl, andb_false_r.
  apply (ptouches_ppar1 _ _ 0 (blk_pu x p m) _ core); auto.
  { intros. now apply online_core_keeps. }
  unfold online_core. cbv zeta. apply touches_bind_r. intros _. apply touches_bind_l.
  unfold tfor_. apply (touches_tfor _ _ 0 _ (mr c) _ _ (r / mr c)); auto; [nia|].
  intros _. apply (pack_A_mr_touches S BufA _ _ _ _ _ (k0 - k * k_c x) (r mod mr c)); auto; [lia|].
  unfold padd. cbn [fst snd].
  replace i0 with (m * (p * m_c x) + core * core_mx x m + (mr c * (r / mr c) + r mod mr c)) by (rewrite <- E; unfold r; ring).
  ring.
Qed.

(** columns of B beyond N *)
Lemma online_touches_B k0 j0 : 0 <= k0 < K -> 0 <= j0 < N_padded x ->
  ptouches BufB (k0 * N + j0) (schedule_KMN_online S so ar (BufA, 0) (BufB, 0) (BufC, 0) M N K p c x).
Proof.
  intros Hk0 Hj0. assert (Hw : ~ work BufB) by (intros []).
  destruct (part_cover _ _ _ _ HN j0 ltac:(lia)) as (n & Hn & Hn').
  destruct (part_cover _ _ _ _ HK k0 ltac:(lia)) as (k & Hk & Hk').
  set (r := j0 - n * n_c x) in *.
  pose proof (Z.div_mod r (nr c) ltac:(lia)) as E. pose proof (Z.mod_pos_bound r (nr c) Hnr) as Bm.
  assert (Hq : 0 <= r / nr c) by (apply Z.div_pos; lia).
  pose proof on_Mb as HMb.
  unfold schedule_KMN_online, pfor_.
  apply (ptouches_pfor1 _ _ 0 (Nb x) _ _ n); auto.
  { intros z s. apply pkeeps_pfor_ne. intros. now apply on_inner_keeps. }
  intros _. cbv zeta. apply (ptouches_snake S _ _ _ _ _ (sn_start (snake (odd2 n) (Mb x)))).
  { unfold snake, sn_start. destruct (odd2 n); cbn; lia. }
  { intros. now apply on_inner_keeps. }
  apply ptouches_bind_l. apply (ptouches_snake S _ _ _ _ _ k); auto.
  { intros z. apply pkeeps_bind; intros.
    - destruct (_ && _); [exact I|]. now apply online_packB_keeps.
    - apply pkeeps_ppar. intros. now apply online_core_keeps. }
  rewrite Z.eqb_refl, andb_false_r. apply ptouches_bind_l.
  unfold online_packB. cbv zeta.
  apply (ptouches_ppar _ _ 0 (blk_nt x n) (nr c) _ (r / nr c)); auto; [nia| |].
  { intros. apply pack_B_nr_keeps. discriminate. }
  destruct (kf_n1 _ _ _ _ _ _ _ F n Hn) as (-> & _).
  apply (pack_B_nr_touches S BufB _ _ _ _ _ (k0 - k * k_c x) (r mod nr c)); auto; [lia|].
  unfold padd. cbn [fst snd].
  replace j0 with (n * n_c x + (nr c * (r / nr c) + r mod nr c)) by (rewrite <- E; unfold r; ring). ring.
Qed.

(** the assignments to the shared variable *)
Lemma online_core_conflict A n m k ra a d :
  conflict (online_core S true ar A K p c x n m k ra a) (online_core S true ar A K p c x n m k ra d).
Proof. unfold conflict, online_core. cbv zeta. exists true, true, (BufX 2), 0. cbn. auto. Qed.

Lemma online_noexit_k n m s : noexit
  (let ks := snake (inner_rev n m) (Kb x) in
        (if (s =? sn_start ks) && negb (m =? sn_start (snake (odd2 n) (Mb x))) then PRet tt
         else online_packB S (BufB, 0) N c x n s) ;;;
        ppar_for 0 (blk_pu x p m) 1
          (online_core S so ar (BufA, 0) K p c x n m s
             ((s =? sn_start ks) && (m =? sn_start (snake (odd2 n) (Mb x))) && negb (n =? 0))))%prog.
Proof.
  cbv zeta. apply noexit_bind; intros; [|apply noexit_ppar]. destruct (_ && _); [exact I|]. apply noexit_ppar.
Qed.

Lemma online_noexit_m n m : noexit
  (let ks := snake (inner_rev n m) (Kb x) in
      (pfor_ne_ (sn_start ks) (sn_end ks) (sn_inc ks) (fun k =>
        (if (k =? sn_start ks) && negb (m =? sn_start (snake (odd2 n) (Mb x))) then PRet tt
         else online_packB S (BufB, 0) N c x n k) ;;;
        ppar_for 0 (blk_pu x p m) 1
          (online_core S so ar (BufA, 0) K p c x n m k
             ((k =? sn_start ks) && (m =? sn_start (snake (odd2 n) (Mb x))) && negb (n =? 0)))) ;;;
       ppar_for 0 (blk_pu x p m) 1 (kmn_unpack S (BufC, 0) M N p c x n m))%prog).
Proof.
  cbv zeta. apply noexit_bind; intros; [|apply noexit_ppar]. unfold pfor_ne_. apply noexit_pfor_ne.
  intros. apply online_noexit_k.
Qed.

Lemma online_races : so = true -> 0 < K -> 2 <= p -> mr c < M ->
  praces (schedule_KMN_online S so ar (BufA, 0) (BufB, 0) (BufC, 0) M N K p c x).
Proof.
  intros Eso HK1 Hp2 HM1. pose proof on_Mb as HMb. pose proof on_Nb as HNb.
  assert (HKb : 0 < Kb x) by (destruct (part_cover _ _ _ _ HK 0 ltac:(lia)) as (k & H & _); lia).
  assert (Hpu : 2 <= blk_pu x p 0).
  { apply (kf_two _ _ _ _ _ _ _ F 0); [lia|auto|].
    pose proof (kf_mc _ _ _ _ _ _ _ F) as Hmc. pose proof (kf_mcd _ _ _ _ _ _ _ F) as D.
    apply Z.divide_pos_le in D; auto.
    destruct (Z.eq_dec (Mb x) 1) as [E1|N1].
    - pose proof (pt_last _ _ _ _ HM) as El. pose proof (kf_Mp _ _ _ _ _ _ _ F). rewrite E1 in El. cbn in El. lia.
    - rewrite (pt_full _ _ _ _ HM 0) by lia. nia. }
  unfold schedule_KMN_online, pfor_. apply praces_pfor0; auto.
  { intros z s. unfold pfor_ne_. apply noexit_pfor_ne. intros. apply online_noexit_m. }
  cbv zeta. apply (praces_snake S _ _ _ 0); [lia| |].
  { intros. apply online_noexit_m. }
  apply praces_bind_l. apply (praces_snake S _ _ _ 0); [lia| |].
  { intros. apply online_noexit_k. }
  apply praces_bind_r.
  { destruct (_ && _); [exact I|]. apply noexit_ppar. }
  intros _. apply praces_ppar; auto. rewrite Eso. apply online_core_conflict.
Qed.

End Online.

Section Calls.

Variable S : scalar.
Notation T := (elt S).

(** element i of b is missing or has no value *)
Lemma missing_unreadable (m : mem T) b i : missing m b i -> unreadable b i m.
Proof.
  intros H al. unfold load. destruct (live m b) as [bi|] eqn:E; auto.
  destruct (Z.ltb_spec i (blen bi)); [|rewrite andb_false_r; auto].
  destruct (_ && _); auto. destruct (dat m b i) as [v|] eqn:Ed; auto. exfalso. eapply H; eauto.
Qed.

Lemma missing_or (m : mem T) b i :
  missing m b i \/ exists bi v, live m b = Some bi /\ i < blen bi /\ dat m b i = Some v.
Proof.
  destruct (live m b) as [bi|] eqn:El; [|left; intros bi v; congruence].
  destruct (Z_lt_le_dec i (blen bi)) as [Hl|Hl].
  - destruct (dat m b i) as [v|] eqn:Ed; [right; exists bi, v; auto|left]. intros bi' v _ _. congruence.
  - left. intros bi' v E1 H1. rewrite El in E1. injection E1 as <-. lia.
Qed.

(** how the call reaches the schedule *)
Lemma online_reach b i so F ar q M N K p c mcu kcu ncu x c' : b = BufA \/ b = BufB ->
  init_block_dims F M N K p c KMN mcu kcu ncu = CRet (x, c') ->
  ptouches b i (schedule_KMN_online S so ar (BufA, 0) (BufB, 0) (BufC, 0) M N K p c' x) ->
  ptouches b i (cake_sgemm_online S so F ar q M N K p (Some c) mcu kcu ncu).
Proof.
  intros Hb E H.
  assert (Hne : forall b', work b' -> b' <> b) by (intros b' Hw ->; destruct Hb as [-> | ->]; exact Hw).
  rewrite online_unfold. unfold get_ctx, palloc. cbn [pbind ptouches]. split; [apply Hne; exact I|].
  rewrite E. cbn [lift pbind]. unfold online_tail. cbn [fst snd].
  apply ptouches_bind_r.
  { unfold pfor_, palloc. apply pkeeps_pfor. intros. split; [apply Hne|]; exact I. }
  intros _. unfold palloc. cbn [pbind ptouches]. split; [apply Hne; exact I|].
  apply ptouches_bind_r.
  { unfold alloc_Cp, pfor_, palloc. apply pkeeps_pfor. intros. split; [apply Hne|]; exact I. }
  intros _. apply ptouches_bind_r.
  { destruct so; [|exact I]. split; [apply Hne|]; exact I. }
  intros _. now apply ptouches_bind_l.
Qed.

Lemma online_plan F ar M N K p c mcu kcu ncu : legal F ar KMN c M N K p mcu kcu ncu ->
  exists x c', init_block_dims F M N K p c KMN mcu kcu ncu = CRet (x, c') /\
    kmn_facts M N K p (mr c') (nr c') x /\ mr c' = mr c /\ nr c' = nr c /\ 0 < mr c' /\ 0 < nr c' /\
    round_up M (mr c) = M_padded x /\ round_up N (nr c) = N_padded x.
Proof.
  intros (Har & Hc & HM & HN & HK & Hp & Ht).
  destruct (plan_ok F ar M N K p c KMN mcu kcu ncu) as (s' & x & c' & N1 & N2 & Hc' & Hi & Hsame & HP & _); auto.
  rewrite N2 in * by discriminate. destruct HP as (F' & Es). destruct (ctx_for_pos ar KMN c' Har Hc') as (Hmr & Hnr).
  destruct Hsame as (Em & En & _). exists x, c'. rewrite <- Em, <- En.
  repeat (split; [solve [auto]|]). split.
  - apply roundup_uniq; auto; [eapply kmn_Md; eauto|].
    pose proof (kf_Mp _ _ _ _ _ _ _ F'). pose proof (kf_Mpu _ _ _ _ _ _ _ F'). lia.
  - apply roundup_uniq; auto; [eapply kmn_Nd; eauto|].
    pose proof (kf_Np _ _ _ _ _ _ _ F'). pose proof (kf_Npu _ _ _ _ _ _ _ F'). lia.
Qed.

Lemma online_undefined_A so F ar q M N K p c mcu kcu ncu m0 i k :
  legal F ar KMN c M N K p mcu kcu ncu -> 0 < M -> 0 < N ->
  M <= i < round_up M (mr c) -> 0 <= k < K -> missing m0 BufA (i * K + k) ->
  pexec (cake_sgemm_online S so F ar q M N K p (Some c) mcu kcu ncu) m0 Undef /\
  forall o, pexec (cake_sgemm_online S so F ar q M N K p (Some c) mcu kcu ncu) m0 o -> o = Undef.
Proof.
  intros L HM HN Hi Hk Hmi. destruct (online_plan _ _ _ _ _ _ _ _ _ _ L) as (x & c' & E & F' & _ & _ & Hmr & Hnr & EM & _).
  destruct L as (Har & Hc & _ & _ & HK & Hp & Ht).
  apply (ptouches_exec BufA (i * K + k)); [|now apply missing_unreadable].
  eapply online_reach; eauto. apply online_touches_A; auto; lia.
Qed.

Lemma online_undefined_B so F ar q M N K p c mcu kcu ncu m0 k j :
  legal F ar KMN c M N K p mcu kcu ncu -> 0 < M -> 0 < N ->
  0 <= k < K -> N <= j < round_up N (nr c) -> missing m0 BufB (k * N + j) ->
  pexec (cake_sgemm_online S so F ar q M N K p (Some c) mcu kcu ncu) m0 Undef /\
  forall o, pexec (cake_sgemm_online S so F ar q M N K p (Some c) mcu kcu ncu) m0 o -> o = Undef.
Proof.
  intros L HM HN Hk Hj Hmi. destruct (online_plan _ _ _ _ _ _ _ _ _ _ L) as (x & c' & E & F' & _ & _ & Hmr & Hnr & _ & EN).
  destruct L as (Har & Hc & _ & _ & HK & Hp & Ht).
  apply (ptouches_exec BufB (k * N + j)); [|now apply missing_unreadable].
  eapply online_reach; eauto. apply online_touches_B; auto; lia.
Qed.

(** two threads with work: some execution races *)
Lemma online_race_any F ar q M N K p c mcu kcu ncu m0 :
  legal F ar KMN c M N K p mcu kcu ncu -> ~ one_thread M N K p (mr c) ->
  pexec (cake_sgemm_online S true F ar q M N K p (Some c) mcu kcu ncu) m0 Undef.
Proof.
  intros L Ho. destruct (online_plan _ _ _ _ _ _ _ _ _ _ L) as (x & c' & E & F' & Em & _ & Hmr & Hnr & _ & EN).
  destruct L as (Har & Hc & HM & HN & HK & Hp & Ht). unfold one_thread in Ho.
  apply praces_undef. rewrite online_unfold. unfold get_ctx, palloc. cbn [pbind praces].
  rewrite E. cbn [lift pbind]. unfold online_tail. cbn [fst snd].
  apply praces_bind_r; [unfold pfor_; apply noexit_pfor; intros; exact I|]. intros _.
  unfold palloc. cbn [pbind praces].
  apply praces_bind_r; [unfold alloc_Cp, pfor_; apply noexit_pfor; intros; exact I|]. intros _.
  apply praces_bind_l. apply online_races; auto; lia.
Qed.

Lemma online_safe_iff so F ar q M N K p c mcu kcu ncu A B m0 :
  legal F ar KMN c M N K p mcu kcu ncu -> 0 < M -> 0 < N -> caller m0 M N K A B ->
  (~ pexec (cake_sgemm_online S so F ar q M N K p (Some c) mcu kcu ncu) m0 Undef <->
   (so = true -> one_thread M N K p (mr c)) /\ A_rim m0 M K (mr c) /\ B_rim m0 N K (nr c) 0).
Proof.
  intros L HM HN Hc. split.
  - intros H. split; [|split].
    + intros ->. unfold one_thread.
      destruct (Z.eq_dec p 1); [auto|]. destruct (Z_le_gt_dec M (mr c)); [auto|].
      destruct (Z.eq_dec N 0); [auto|]. destruct (Z.eq_dec K 0); [auto|].
      exfalso. apply H. apply online_race_any; auto. unfold one_thread. lia.
    + intros i k Hi Hk. destruct (missing_or m0 BufA (i * K + k)) as [Q|Q]; [|exact Q].
      exfalso. apply H. eapply online_undefined_A; eauto.
    + intros k j Hk Hj. destruct (missing_or m0 BufB (k * N + j)) as [Q|Q]; [|exact Q].
      exfalso. apply H. apply (online_undefined_B so F ar q M N K p c mcu kcu ncu m0 k j); auto; lia.
  - intros (H1 & H2 & H3) Hu.
    destruct (online_ok S so F ar q M N K p (Some c) c mcu kcu ncu eq_refl L H1) as (ord & c' & _ & _ & _ & G).
    destruct (G A B m0 Hc H2 H3) as (_ & G2). destruct (G2 _ Hu) as (r & m' & E & _). discriminate.
Qed.

(** operands of exactly the documented sizes *)
Lemma A_rim_exact (m : mem T) A B M N K mr ba : 0 < mr -> 0 <= M -> 0 < K -> caller m M N K A B ->
  live m BufA = Some ba -> blen ba = M * K -> (A_rim m M K mr <-> (mr | M)).
Proof.
  intros Hmr HM HK Hc El Eb. split.
  - intros H. pose proof (Z.div_mod M mr ltac:(lia)) as E. pose proof (Z.mod_pos_bound M mr Hmr) as Bm.
    destruct (Z.eq_dec (M mod mr) 0) as [E0|N0]; [exists (M / mr); lia|exfalso].
    assert (R : M < round_up M mr).
    { unfold round_up. rewrite ceil_div_cdiv by auto. pose proof (cdiv_spec M mr Hmr) as Q.
      destruct (Z.eq_dec M (cdiv M mr * mr)) as [E2|]; [|lia]. exfalso. apply N0. rewrite E2. apply Z.mod_mul. lia. }
    destruct (H M 0 ltac:(lia) ltac:(lia)) as (bi & v & E1 & E2 & _). rewrite El in E1. injection E1 as <-. lia.
  - intros (q & ->) i k Hi Hk. exfalso.
    rewrite (roundup_uniq (q * mr) mr (q * mr)) in Hi; auto; [lia|exists q; auto|lia].
Qed.

Lemma B_rim_exact (m : mem T) A B M N K nr bi : 0 < nr -> 0 < N -> 0 < K -> caller m M N K A B ->
  live m BufB = Some bi -> blen bi = K * N -> (B_rim m N K nr 0 <-> (nr | N)).
Proof.
  intros Hnr HN HK Hc El Eb. rewrite (rim_exact S m A B M N K nr 0 bi) by (auto; lia). split.
  - intros [H|H]; [lia|]. unfold round_up in H. rewrite ceil_div_cdiv in H by auto.
    pose proof (cdiv_spec N nr Hnr). exists (cdiv N nr). nia.
  - intros (q & E). right. rewrite (roundup_uniq N nr N); auto; [lia|exists q; auto|lia].
Qed.

Lemma online_exact so F ar q M N K p c mcu kcu ncu A B m0 ba bb :
  legal F ar KMN c M N K p mcu kcu ncu -> 0 < M -> 0 < N -> 0 < K -> caller m0 M N K A B ->
  live m0 BufA = Some ba -> blen ba = M * K -> live m0 BufB = Some bb -> blen bb = K * N ->
  (~ pexec (cake_sgemm_online S so F ar q M N K p (Some c) mcu kcu ncu) m0 Undef <->
   (so = true -> p = 1 \/ M <= mr c) /\ (mr c | M) /\ (nr c | N)).
Proof.
  intros L HM HN HK Hc LA EA LB EB. rewrite (online_safe_iff so F ar q M N K p c mcu kcu ncu A B m0) by auto.
  destruct L as (Har & Hc0 & _ & _ & _ & Hp & Ht). destruct (ctx_for_pos ar KMN c Har Hc0) as (Hmr & Hnr).
  rewrite (A_rim_exact m0 A B M N K (mr c) ba) by (auto; lia). rewrite (B_rim_exact m0 A B M N K (nr c) bb) by auto.
  unfold one_thread. intuition lia.
Qed.

End Calls.
