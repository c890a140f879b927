(** * The M-first and N-first calls read B in whole register tiles: an exact condition. *)

From Coq Require Import ZArith List Bool Lia.
From Verif Require Import Lang Lang_facts Spec SpecTop ModelSizing ModelKernel ModelPack ModelSched ModelTop
     Loop_facts Sizing_facts SizingMN_facts PackMN_facts Frame_facts Init_facts TopK_facts TopMN_facts CallAll_facts Mult_facts Touch_facts.
Import ListNotations.
Open Scope Z_scope.

Local Transparent tbind tload tstore pbind.

Section TouchMN.

Variable S : scalar.
Notation T := (elt S).

(** ** Copies *)
Lemma copy0_keeps b pad dst i src j : fst dst <> b -> keeps b (copy0 S pad dst i src j).
Proof. intros H. unfold copy0, pstore, pload, tstore, tload. destruct pad; cbn; auto. Qed.

Lemma copy0_touches b dst i src j k : fst src = b -> snd src + j = k -> touches b k (copy0 S false dst i src j).
Proof. intros H1 H2. unfold copy0, pstore, pload, tstore, tload. cbn. auto. Qed.

Ltac kp := repeat first [apply keeps_bind; intros | apply keeps_tfor; intros | apply copy0_keeps | exact I].

Lemma pack_ob_A_keeps b A A_p M K m1 m2 mc kc m_r : fst A_p <> b ->
  keeps b (pack_ob_A_single_buf S A A_p M K m1 m2 mc kc m_r).
Proof. intros H. unfold pack_ob_A_single_buf. kp. auto. Qed.

Lemma pack_ob_B_keeps b B B_p K N n1 kc nc n_r pad : fst B_p <> b ->
  keeps b (pack_ob_B_single_buf S B B_p K N n1 kc nc n_r pad).
Proof. intros H. unfold pack_ob_B_single_buf. kp. auto. Qed.

Lemma pack_ob_B_touches b B B_p K N n1 kc nc n_r pad q i j k :
  fst B = b -> 0 < n_r -> 0 <= q -> q * n_r < nc -> 0 <= i < kc -> 0 <= j < n_r ->
  (pad = true -> n1 + q * n_r + j < N) -> snd B + (q * n_r + i * N + j) = k ->
  touches b k (pack_ob_B_single_buf S B B_p K N n1 kc nc n_r pad).
Proof.
  intros Hb Hn Hq Hq' Hi Hj Hp Hk. unfold pack_ob_B_single_buf. apply touches_bind_l.
  apply (touches_tfor b k 0 nc n_r _ _ q); auto. intros s1.
  apply (touches_tfor1 b k 0 kc _ _ i); auto. intros s2.
  apply (touches_tfor1 b k 0 n_r _ _ j); auto. intros s3. apply touches_bind_l.
  replace (pad && (N <=? n1 + (0 + q * n_r) + j)) with false.
  - apply copy0_touches; [auto|rewrite <- Hk; ring].
  - symmetry. destruct pad; [|auto]. specialize (Hp eq_refl). cbn. lia.
Qed.

(** ** Packing *)
Variables (M N K p : Z) (x : blk_dims) (c : cntx) (swap : bool).
Hypothesis Hp : 0 < p.
Hypothesis HN0 : 0 <= N.
Hypothesis Hnr : 0 < nr c.
Hypothesis F : bf M N K p (mr c) (nr c) (tM_s p x swap) (mt_s p x swap) x.

Ltac pk := repeat first [apply pkeeps_bind; intros | apply pkeeps_pfor; intros | apply pkeeps_ppar; intros | exact I].

Lemma pack_A_keeps b A A_p : fst A_p <> b -> pkeeps b (pack_A S A A_p M K p x c (sch_s swap)).
Proof.
  clear F. intros H. unfold pack_A, sch_s, pack_A_single_buf_m_first, pack_A_single_buf_n_first.
  destruct swap; cbv zeta; pk; apply pack_ob_A_keeps; exact H.
Qed.

Lemma pack_B_touches B_p k0 j0 : fst B_p <> BufB ->
  kguard K x <= K -> 0 <= k0 < kguard K x -> N <= j0 < N_padded x ->
  ptouches BufB (k0 * N + j0) (pack_B S (BufB, 0) B_p K N p x c (sch_s swap)).
Proof.
  intros Hb Hg Hk0 Hj0.
  assert (D : exists k n core q i j, 0 <= k < Kb x /\ 0 <= n < Nb x /\ 0 <= core < blk_pk x p k /\
    0 <= q /\ q * nr c < blk_nt x n /\ 0 <= i < core_kt x k core /\ 0 <= j < nr c /\
    k * (p * k_c x) + core * core_kx x k + i = k0 /\ n * n_c x + (q * nr c + j) = j0).
  { destruct (part_cover _ _ _ _ (bf_K _ _ _ _ _ _ _ _ _ F) k0 ltac:(lia)) as (k & Hk & Hk').
    destruct (part_cover _ _ _ _ (bf_N _ _ _ _ _ _ _ _ _ F) j0 ltac:(lia)) as (n & Hn & Hn').
    destruct (part_cover _ _ _ _ (bf_C _ _ _ _ _ _ _ _ _ F k Hk) (k0 - k * (p * k_c x)) ltac:(lia)) as (core & Hc & Hc').
    set (r := j0 - n * n_c x).
    exists k, n, core, (r / nr c), (k0 - k * (p * k_c x) - core * core_kx x k), (r mod nr c).
    pose proof (Z.div_mod r (nr c) ltac:(lia)) as E. pose proof (Z.mod_pos_bound r (nr c) Hnr) as Bm.
    assert (0 <= r / nr c) by (apply Z.div_pos; lia).
    repeat (split; [lia|]). lia. }
  destruct D as (k & n & core & q & i & j & Hk & Hn & Hc & Hq & Hq' & Hi & Hj & Ek & En).
  pose proof (core_kpad_iff M N K p (mr c) (nr c) _ _ x F Hp k core i Hk Hc Hi) as Hpad. rewrite Ek in Hpad.
  assert (Epad : core_kpad x k core = false) by (rewrite Hpad; lia).
  assert (Eidx : k0 * N + j0 = k * p * k_c x * N + n * n_c x + core * core_kx x k * N + (q * nr c + i * N + j))
    by (rewrite <- Ek, <- En; ring).
  unfold pack_B, sch_s, pack_B_m_first, pack_B_n_first. destruct swap; cbv zeta; apply ptouches_bind_l.
  - apply (ptouches_pfor1 _ _ 0 (Kb x) _ _ k); auto. { intros. pk. apply pack_ob_B_keeps. exact Hb. }
    intros s1. apply (ptouches_pfor1 _ _ 0 (Nb x) _ _ n); auto. { intros. pk. apply pack_ob_B_keeps. exact Hb. }
    intros s2. apply ptouches_bind_l. apply (ptouches_ppar1 _ _ 0 (blk_pk x p k) _ core); auto.
    { intros. apply pack_ob_B_keeps. exact Hb. }
    apply (pack_ob_B_touches _ _ _ _ _ _ _ _ _ _ q i j); auto; try congruence; unfold padd; cbn [fst snd]; lia.
  - apply (ptouches_pfor1 _ _ 0 (Nb x) _ _ n); auto. { intros. pk. apply pack_ob_B_keeps. exact Hb. }
    intros s1. apply (ptouches_pfor1 _ _ 0 (Kb x) _ _ k); auto. { intros. pk. apply pack_ob_B_keeps. exact Hb. }
    intros s2. apply ptouches_bind_l. apply (ptouches_ppar1 _ _ 0 (blk_pk x p k) _ core); auto.
    { intros. apply pack_ob_B_keeps. exact Hb. }
    apply (pack_ob_B_touches _ _ _ _ _ _ _ _ _ _ q i j); auto; try congruence; unfold padd; cbn [fst snd]; lia.
Qed.

End TouchMN.

Section Calls.

Variable S : scalar.
Notation T := (elt S).

(** the element k*N+j of B cannot be read *)
Lemma unreadable_intro (m : mem T) i :
  (forall bi v, live m BufB = Some bi -> i < blen bi -> dat m BufB i <> Some v) -> unreadable BufB i m.
Proof.
  intros H al. unfold load. destruct (live m BufB) as [bi|] eqn:E; auto.
  destruct (Z.ltb_spec i (blen bi)); [|rewrite andb_false_r; auto].
  destruct (_ && _); auto. destruct (dat m BufB i) as [v|] eqn:Ed; auto. exfalso. eapply H; eauto.
Qed.

Lemma MN_undefined F ar q nz M N K p c al be s mcu kcu ncu x c' m0 k j :
  legal F ar s c M N K p mcu kcu ncu ->
  init_block_dims F M N K p c s mcu kcu ncu = CRet (x, c') -> sch x <> KMN ->
  0 <= k < K - k_tail K p (k_c x) -> N <= j < round_up N (nr c) ->
  (forall bi v, live m0 BufB = Some bi -> k * N + j < blen bi -> dat m0 BufB (k * N + j) <> Some v) ->
  pexec (cake_sgemm S F ar q nz M N K p (Some c) false false al be s mcu kcu ncu) m0 Undef /\
  forall o, pexec (cake_sgemm S F ar q nz M N K p (Some c) false false al be s mcu kcu ncu) m0 o -> o = Undef.
Proof.
  intros (Har & Hc & HM & HN & HK & Hp & Ht) E Hs Hk Hj Hu.
  destruct (plan_ok F ar M N K p c s mcu kcu ncu) as (s' & x' & c2 & N1 & N2 & Hc' & Hi & Hsame & HP & _ & Hg & Hg2); auto.
  rewrite E in Hi. injection Hi as <- <-.
  apply (ptouches_exec BufB (k * N + j)); [|now apply unreadable_intro].
  rewrite cake_sgemm_unfold. unfold get_ctx. cbn [pbind]. unfold palloc. cbn [pbind ptouches].
  split; [discriminate|]. rewrite E. cbn [lift pbind]. unfold sgemm_after, sgemm_rest. cbn [fst snd].
  assert (Enr : nr c' = nr c) by apply Hsame.
  destruct (ctx_for_pos ar s' c' Har Hc') as (Hmr & Hnr).
  destruct s'; cbn [plan] in HP; [destruct HP; congruence| | |destruct HP].
  all: destruct HP as (Fb & Es & S1 & S2 & S3); rewrite Es, S1; cbn [lift pbind]; unfold palloc; cbn [pbind ptouches];
    (split; [discriminate|]).
  all: pose proof (bf_Np _ _ _ _ _ _ _ _ _ Fb) as HNp; pose proof (bf_Npd _ _ _ _ _ _ _ _ _ Fb) as HNd;
    pose proof (roundup_uniq N (nr c') (N_padded x) Hnr HNd HNp) as Eru;
    destruct (Hg ltac:(discriminate)) as (G1 & _); specialize (Hg2 ltac:(discriminate)).
  all: apply ptouches_bind_r; [apply pkeeps_bind; [apply pack_A_keeps; discriminate|intros; exact I]|].
  all: intros A_p; apply ptouches_bind_l; rewrite S2; cbn [lift pbind]; unfold palloc; cbn [pbind ptouches];
    (split; [discriminate|]); apply ptouches_bind_l;
    apply (pack_B_touches S M N K p x c'); auto; try discriminate; rewrite <- ?Eru, ?Enr; lia.
Qed.

Lemma MN_ok_gen F ar q nz M N K p c al be s mcu kcu ncu x c' :
  s = MKN \/ s = NKM -> legal F ar s c M N K p mcu kcu ncu -> nz be = false ->
  init_block_dims F M N K p c s mcu kcu ncu = CRet (x, c') ->
  exists ord c2, orders K ord /\ same_ctx c c2 /\
    forall A B m0, caller m0 M N K A B -> B_rim m0 N K (nr c) (k_tail K p (k_c x)) ->
    pok (cake_sgemm S F ar q nz M N K p (Some c) false false al be s mcu kcu ncu) m0
      (fun r m' => r = c2 /\ holds m' BufC M N (product S A B ord) /\ only_C_changed m0 m' M N).
Proof.
  intros Hs L Hnz E. pose proof L as (Har & Hc0 & HM & HN & HK & Hp & Ht).
  assert (Hk : 0 < k_c x).
  { destruct (plan_ok F ar M N K p c s mcu kcu ncu) as (s' & x' & c2 & N1 & N2 & Hc' & Hi & Hsame & HP & _); auto.
    rewrite E in Hi. injection Hi as <- <-. rewrite N2 in HP by (destruct Hs as [-> | ->]; discriminate).
    destruct Hs as [-> | ->]; destruct HP as (Fb & _); exact (bf_kc _ _ _ _ _ _ _ _ _ Fb). }
  destruct (cake_sgemm_ok_gen S F ar q nz M N K p (Some c) al be s mcu kcu ncu (k_tail K p (k_c x)))
    as (ord & c2 & H1 & H2 & _ & H3); auto; try congruence.
  { intros x' c3 E'. change (init_block_dims F M N K p c s mcu kcu ncu = CRet (x', c3)) in E'.
    rewrite E in E'. injection E' as <- <-. left. pose proof (k_tail_nonneg K p (k_c x) HK Hp Hk). lia. }
  exists ord, c2. split; [auto|split; [auto|]]. intros A B m0 Hc Hr.
  eapply pok_mono; [apply (H3 A B (fun _ _ => zero S) m0 Hc); auto; congruence|]. cbv beta.
  intros r m' (E1 & E2 & E3). split; [auto|split; [|exact E3]]. rewrite Hnz in E2.
  intros i j Hi Hj. rewrite (E2 i j Hi Hj). unfold product_plus, product. now rewrite acc0_false.
Qed.

Lemma MN_safe_gen F ar q nz M N K p c al be s mcu kcu ncu x c' A B m0 :
  s = MKN \/ s = NKM -> legal F ar s c M N K p mcu kcu ncu -> nz be = false ->
  init_block_dims F M N K p c s mcu kcu ncu = CRet (x, c') -> caller m0 M N K A B ->
  B_rim m0 N K (nr c) (k_tail K p (k_c x)) ->
  exists ord, orders K ord /\
    always (cake_sgemm S F ar q nz M N K p (Some c) false false al be s mcu kcu ncu) m0
      (fun _ m' => holds m' BufC M N (product S A B ord) /\ only_C_changed m0 m' M N).
Proof.
  intros Hs L Hnz E Hc Hr.
  destruct (MN_ok_gen F ar q nz M N K p c al be s mcu kcu ncu x c' Hs L Hnz E) as (ord & c2 & H1 & _ & H3).
  exists ord. split; auto. apply pok_always. eapply pok_mono; [apply (H3 A B m0 Hc Hr)|]. cbv beta. tauto.
Qed.

(** the call is safe exactly when the elements it reads beyond column N exist *)
Lemma MN_safe_iff F ar q nz M N K p c al be s mcu kcu ncu x c' A B m0 :
  s = MKN \/ s = NKM -> legal F ar s c M N K p mcu kcu ncu -> nz be = false ->
  init_block_dims F M N K p c s mcu kcu ncu = CRet (x, c') -> caller m0 M N K A B ->
  (~ pexec (cake_sgemm S F ar q nz M N K p (Some c) false false al be s mcu kcu ncu) m0 Undef <->
   B_rim m0 N K (nr c) (k_tail K p (k_c x))).
Proof.
  intros Hs L Hnz E Hc. split.
  - intros H k j Hk Hj.
    assert (Es : sch x <> KMN).
    { pose proof L as (Har & Hc0 & HM & HN & HK & Hp & Ht).
      destruct (plan_ok F ar M N K p c s mcu kcu ncu) as (s' & x' & c2 & N1 & N2 & Hc' & Hi & Hsame & HP & _); auto.
      rewrite E in Hi. injection Hi as <- <-. rewrite N2 in HP by (destruct Hs as [-> | ->]; discriminate).
      destruct Hs as [-> | ->]; destruct HP as (_ & -> & _); discriminate. }
    destruct (live m0 BufB) as [bi|] eqn:El.
    + destruct (Z_lt_le_dec (k * N + j) (blen bi)) as [Hl|Hl].
      * destruct (dat m0 BufB (k * N + j)) as [v|] eqn:Ed; [exists bi, v; auto|].
        exfalso. apply H. eapply MN_undefined; eauto. congruence.
      * exfalso. apply H. eapply MN_undefined; eauto. intros bi' v E1 H1. rewrite El in E1. injection E1 as <-. lia.
    + exfalso. apply H. eapply MN_undefined; eauto. congruence.
  - intros Hr Hu. destruct (MN_safe_gen F ar q nz M N K p c al be s mcu kcu ncu x c' A B m0 Hs L Hnz E Hc Hr)
      as (ord & _ & (_ & G)). destruct (G _ Hu) as (r & m' & E' & _). discriminate.
Qed.

(** the same for a B of exactly K*N elements *)
Lemma rim_exact (m : mem T) A B M N K nr t bi : 0 < nr -> 0 <= t <= K -> 0 <= N -> caller m M N K A B ->
  live m BufB = Some bi -> blen bi = K * N ->
  (B_rim m N K nr t <-> K = t \/ round_up N nr <= (t + 1) * N).
Proof.
  intros Hnr Ht HN Hc El Eb. split.
  - intros H. destruct (Z.eq_dec K t) as [->|Hne]; [auto|right].
    destruct (Z_le_gt_dec (round_up N nr) ((t + 1) * N)) as [|G]; [auto|exfalso].
    destruct (H (K - t - 1) (round_up N nr - 1)) as (bi' & v & E1 & E2 & _); [lia|nia|].
    rewrite El in E1. injection E1 as <-. rewrite Eb in E2. nia.
  - intros H k j Hk Hj. destruct H as [->|H]; [lia|].
    destruct Hc as (_ & _ & _ & HB & _).
    assert (Hn : 0 < N) by nia.
    assert (Q : k * N + j < K * N) by nia.
    assert (Q0 : 0 <= k * N + j) by nia.
    exists bi, (B ((k * N + j) / N) ((k * N + j) mod N)).
    split; [auto|split; [lia|]].
    rewrite <- (HB ((k * N + j) / N) ((k * N + j) mod N)).
    + f_equal. pose proof (Z.div_mod (k * N + j) N). nia.
    + split; [apply Z.div_pos; lia|apply Z.div_lt_upper_bound; lia].
    + apply Z.mod_pos_bound. lia.
Qed.

Lemma k_tail_le K p kc : 0 <= K -> 0 < p -> 0 < kc -> k_tail K p kc <= K.
Proof.
  intros HK Hp Hkc. unfold k_tail. cbv zeta. assert (H : 0 < p * kc) by nia.
  pose proof (Z.mod_pos_bound K (p * kc) H) as B. pose proof (Z.mod_le K (p * kc) HK H) as B2.
  set (r := K mod (p * kc)) in *. destruct (Z.eqb_spec r 0); [lia|].
  rewrite (ceil_div_cdiv r p) by auto. assert (H0 : 0 < cdiv r p) by (apply cdiv_pos; lia).
  rewrite ceil_div_cdiv by auto. assert (0 < cdiv r (cdiv r p)) by (apply cdiv_pos; lia). nia.
Qed.

(** the tile height the library works with *)
Lemma MN_kc F ar M N K p c s mcu kcu ncu x c' :
  s = MKN \/ s = NKM -> legal F ar s c M N K p mcu kcu ncu ->
  init_block_dims F M N K p c s mcu kcu ncu = CRet (x, c') ->
  0 < k_c x /\ sch x <> KMN /\ (user_tiles c mcu kcu ncu -> k_c x = kcu).
Proof.
  intros Hs (Har & Hc0 & HM & HN & HK & Hp & Ht) E.
  destruct (plan_ok F ar M N K p c s mcu kcu ncu) as (s' & x' & c2 & N1 & N2 & Hc' & Hi & Hsame & HP & Hu & _); auto.
  rewrite E in Hi. injection Hi as <- <-. rewrite N2 in HP by (destruct Hs as [-> | ->]; discriminate).
  split; [|split].
  - destruct Hs as [-> | ->]; destruct HP as (Fb & _); exact (bf_kc _ _ _ _ _ _ _ _ _ Fb).
  - destruct Hs as [-> | ->]; destruct HP as (_ & -> & _); discriminate.
  - intros U. now destruct (Hu U) as (_ & -> & _).
Qed.

Lemma MN_exact F ar q nz M N K p c al be s mcu kcu ncu x c' A B m0 bi :
  s = MKN \/ s = NKM -> legal F ar s c M N K p mcu kcu ncu -> nz be = false ->
  init_block_dims F M N K p c s mcu kcu ncu = CRet (x, c') -> caller m0 M N K A B ->
  live m0 BufB = Some bi -> blen bi = K * N ->
  (~ pexec (cake_sgemm S F ar q nz M N K p (Some c) false false al be s mcu kcu ncu) m0 Undef <->
   K = k_tail K p (k_c x) \/ round_up N (nr c) <= (k_tail K p (k_c x) + 1) * N).
Proof.
  intros Hs L Hnz E Hc El Eb. destruct (MN_kc F ar M N K p c s mcu kcu ncu x c' Hs L E) as (Hk & _).
  rewrite (MN_safe_iff F ar q nz M N K p c al be s mcu kcu ncu x c' A B m0) by auto.
  pose proof L as (Har & Hc0 & HM & HN & HK & Hp & Ht).
  destruct (ctx_for_pos ar s c Har Hc0) as (_ & Hnr).
  eapply rim_exact; eauto. pose proof (k_tail_nonneg K p (k_c x) HK Hp Hk). pose proof (k_tail_le K p (k_c x) HK Hp Hk). lia.
Qed.

Lemma legal_plan F ar M N K p c s mcu kcu ncu : legal F ar s c M N K p mcu kcu ncu ->
  exists x c', init_block_dims F M N K p c s mcu kcu ncu = CRet (x, c').
Proof.
  intros (Har & Hc0 & HM & HN & HK & Hp & Ht).
  destruct (plan_ok F ar M N K p c s mcu kcu ncu) as (s' & x' & c2 & _ & _ & _ & Hi & _); eauto.
Qed.

(** with tiles chosen by the caller *)
Lemma MN_safe_iff_user F ar q nz M N K p c al be s mcu kcu ncu A B m0 :
  s = MKN \/ s = NKM -> legal F ar s c M N K p mcu kcu ncu -> nz be = false ->
  user_tiles c mcu kcu ncu -> caller m0 M N K A B ->
  (~ pexec (cake_sgemm S F ar q nz M N K p (Some c) false false al be s mcu kcu ncu) m0 Undef <->
   B_rim m0 N K (nr c) (k_tail K p kcu)).
Proof.
  intros Hs L Hnz U Hc. destruct (legal_plan _ _ _ _ _ _ _ _ _ _ _ L) as (x & c' & E).
  destruct (MN_kc F ar M N K p c s mcu kcu ncu x c' Hs L E) as (_ & _ & Eu). replace (k_tail K p kcu) with (k_tail K p (k_c x)) by now rewrite (Eu U).
  eapply MN_safe_iff; eauto.
Qed.

Lemma MN_exact_user F ar q nz M N K p c al be s mcu kcu ncu A B m0 bi :
  s = MKN \/ s = NKM -> legal F ar s c M N K p mcu kcu ncu -> nz be = false ->
  user_tiles c mcu kcu ncu -> caller m0 M N K A B ->
  live m0 BufB = Some bi -> blen bi = K * N ->
  (~ pexec (cake_sgemm S F ar q nz M N K p (Some c) false false al be s mcu kcu ncu) m0 Undef <->
   K = k_tail K p kcu \/ round_up N (nr c) <= (k_tail K p kcu + 1) * N).
Proof.
  intros Hs L Hnz U Hc El Eb. destruct (legal_plan _ _ _ _ _ _ _ _ _ _ _ L) as (x & c' & E).
  destruct (MN_kc F ar M N K p c s mcu kcu ncu x c' Hs L E) as (_ & _ & Eu). replace (k_tail K p kcu) with (k_tail K p (k_c x)) by now rewrite (Eu U).
  eapply MN_exact; eauto.
Qed.

(** ... and every execution goes wrong, when one does *)
Lemma MN_undefined_user F ar q nz M N K p c al be s mcu kcu ncu m0 k j :
  s = MKN \/ s = NKM -> legal F ar s c M N K p mcu kcu ncu -> user_tiles c mcu kcu ncu ->
  0 <= k < K - k_tail K p kcu -> N <= j < round_up N (nr c) ->
  (forall bi v, live m0 BufB = Some bi -> k * N + j < blen bi -> dat m0 BufB (k * N + j) <> Some v) ->
  pexec (cake_sgemm S F ar q nz M N K p (Some c) false false al be s mcu kcu ncu) m0 Undef /\
  forall o, pexec (cake_sgemm S F ar q nz M N K p (Some c) false false al be s mcu kcu ncu) m0 o -> o = Undef.
Proof.
  intros Hs L U Hk Hj Hu. destruct (legal_plan _ _ _ _ _ _ _ _ _ _ _ L) as (x & c' & E).
  destruct (MN_kc F ar M N K p c s mcu kcu ncu x c' Hs L E) as (_ & Es & Eu).
  eapply MN_undefined; eauto. now rewrite (Eu U).
Qed.

End Calls.
