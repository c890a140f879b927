(** * The K-first schedule that writes straight into C: the elements of a wide C it never writes. *)

From Coq Require Import ZArith List Bool Lia.
From Verif Require Import Lang Lang_facts Spec SpecTop ModelSizing ModelKernel ModelPack ModelSched ModelTop
     ModelUnpacked Sizing_facts Mult_facts PackCall_facts Prepack_facts Unpacked_facts Keep_facts Stale_facts Resid_facts.
Import ListNotations.
Open Scope Z_scope.

Section Wide.
Variable S : scalar.
Notation T := (elt S).
Variables (m_r n_r Np : Z) (m0 : mem T).
Hypothesis Hmr : 0 < m_r.
Hypothesis Hnr : 0 < n_r.

(** Of each row of register tiles the elements from number Np + (m_r - 1) * n_r on are as they were. *)
Definition Iw : cellinv T := fun b x v =>
  match b with BufC => Np + (m_r - 1) * n_r <= x mod (m_r * Np) -> v = dat m0 BufC x | _ => True end.

Lemma Iw_any b : b <> BufC -> anything S Iw b.
Proof. intros H i v. destruct b; cbn; tauto. Qed.

Lemma Iw_tile u col e v : 0 <= col -> col + n_r <= Np -> 0 <= e < m_r * n_r -> Iw BufC (u * m_r * Np + col + e) (Some v).
Proof.
  intros H1 H2 He. cbn [Iw]. intros H. exfalso.
  replace (u * m_r * Np + col + e) with (col + e + u * (m_r * Np)) in H by ring. rewrite Z.mod_add in H by nia.
  rewrite Z.mod_small in H; [lia|]. split; [lia|]. assert (0 <= (m_r - 1) * (Np - n_r)) by (apply Z.mul_nonneg_nonneg; lia). nia.
Qed.

Lemma keep_unpacked ar c M N K p x A_p B_p : mr c = m_r -> nr c = n_r -> ctx_min ar c -> N_padded x = Np ->
  0 < p -> kmn_facts M N K p m_r n_r x ->
  pkeep Iw (schedule_KMN_C_unpacked S ar A_p B_p (BufC, 0) M N K p c x) (fun _ => True).
Proof.
  intros E1 E2 (G1 & G2) EN Hp F. unfold schedule_KMN_C_unpacked, pfor_. apply pkeep_any; [|auto]. intros n _ Hn. cbv zeta.
  unfold pfor_ne_. apply pkeep_any_ne; [|auto]. intros g _ Hg. pose proof (sn_in' (Mb x) (odd2 n) g Hg) as Hm. cbv zeta in Hm.
  set (m := sn_start _ + g * _) in *. apply pkeep_par; [|auto]. intros core Hcore. unfold unpacked_core, tfor_ne_, tfor_. cbv zeta.
  apply tkeep_any_ne. intros k _ _. apply tkeep_any. intros a _ Ha. apply tkeep_any. intros b _ Hb.
  apply (within_min S Iw ar). intros e v He. rewrite <- G1, <- G2, E1, E2 in He. cbn [padd fst snd]. rewrite E1, E2, EN in *.
  pose proof (kf_N _ _ _ _ _ _ _ F) as PN. rewrite EN in PN. pose proof (part_end _ _ _ _ PN n Hn) as Hend.
  pose proof (kf_nc _ _ _ _ _ _ _ F) as Hnc. pose proof (pt_w _ _ _ _ PN n Hn) as Hw.
  destruct (kf_mcd _ _ _ _ _ _ _ F) as (u1 & U1). destruct (kf_mxr _ _ _ _ _ _ _ F m Hm) as (u2 & U2).
  destruct (kf_nr _ _ _ _ _ _ _ F n Hn) as (w & W). rewrite W in *. rewrite Z.quot_mul in Ha by lia.
  rewrite U1, U2.
  replace (0 + (n * n_c x + m * p * (u1 * m_r) * Np + core * (u2 * m_r) * Np + a * n_r + b * m_r * Np) + e)
    with ((m * p * u1 + core * u2 + b) * m_r * Np + (n * n_c x + a * n_r) + e) by ring.
  apply Iw_tile; [|nia|exact He]. assert (0 <= n * n_c x) by nia. nia.
Qed.
End Wide.

Section Flow.
Variable S : scalar.
Notation T := (elt S).

Lemma wide_stale F ar c M N K p mcu kcu ncu x c1 (m0 : mem T) r m' :
  legal F ar KMN c M N K p mcu kcu ncu -> ctx_min ar c ->
  init_block_dims F M N K p c KMN mcu kcu ncu = CRet (x, c1) ->
  pexec (pack_and_multiply S ar M N K p c1 x) m0 (Done r m') ->
  forall i j, 0 <= i -> 0 <= j < round_up N (nr c) -> round_up N (nr c) + (mr c - 1) * nr c <= (i mod mr c) * round_up N (nr c) + j ->
  dat m' BufC (i * round_up N (nr c) + j) = dat m0 BufC (i * round_up N (nr c) + j).
Proof.
  intros L Hmin E H i j Hi Hj Hij.
  destruct (legal_plan _ _ _ _ _ _ _ _ _ _ _ _ _ L E) as (Hc1 & HP & Hs & Hsch & Hmr & Hnr & _).
  destruct L as (Har & Hc & HM & HN & HK & Hp & Ht).
  rewrite Hsch in * by discriminate. clear Hsch.
  destruct (plan_padded _ _ _ _ _ _ _ Hmr Hnr HP) as (E1 & E2). destruct HP as (Fk & _).
  assert (Emr : mr c1 = mr c) by apply Hs. assert (Enr : nr c1 = nr c) by apply Hs.
  assert (Hmin1 : ctx_min ar c1) by (unfold ctx_min in *; now rewrite Emr, Enr).
  rewrite <- Emr, <- Enr in *. rewrite <- E2 in *.
  set (I := Iw S (mr c1) (nr c1) (N_padded x) m0).
  assert (HI : minv I m').
  { pose proof (keep_exec I _ _ _ H (fun _ => True)) as G. cbv beta iota in G. apply G.
    - unfold pack_and_multiply. apply pkeep_seq2; [apply keep_pack_A, Iw_any; discriminate|].
      apply pkeep_seq2; [apply keep_pack_B, Iw_any; discriminate|]. now apply keep_unpacked.
    - intros b y _. destruct b; cbn; auto. }
  specialize (HI BufC (i * N_padded x + j) (or_intror eq_refl)). cbn [I Iw] in HI. apply HI.
  pose proof (Z.div_mod i (mr c1) ltac:(lia)) as D. pose proof (Z.mod_pos_bound i (mr c1) Hmr) as B.
  set (q := i / mr c1) in *. set (t := i mod mr c1) in *.
  replace (i * N_padded x + j) with (t * N_padded x + j + q * (mr c1 * N_padded x)) by (rewrite D at 1; ring).
  rewrite Z.mod_add by nia. rewrite Z.mod_small by nia. exact Hij.
Qed.

(** The last element of the last row of a register tile is such an element. *)
Lemma wide_element m_r n_r N i : 0 < n_r -> 1 < m_r -> n_r < N -> 0 <= i -> i mod m_r = m_r - 1 ->
  round_up N n_r + (m_r - 1) * n_r <= (i mod m_r) * round_up N n_r + (N - 1).
Proof.
  intros Hn Hm HN Hi ->. assert (2 * n_r <= round_up N n_r).
  { unfold round_up, ceil_div. pose proof (Z.div_le_lower_bound (N + n_r - 1) n_r 2 Hn ltac:(lia)). nia. }
  set (P := round_up N n_r) in *. assert (0 <= (m_r - 2) * (P - n_r)) by (apply Z.mul_nonneg_nonneg; lia). nia.
Qed.

Lemma wide_stale_row F ar c M N K p mcu kcu ncu x c1 (m0 : mem T) r m' :
  legal F ar KMN c M N K p mcu kcu ncu -> ctx_min ar c -> 1 < mr c -> nr c < N ->
  init_block_dims F M N K p c KMN mcu kcu ncu = CRet (x, c1) ->
  pexec (pack_and_multiply S ar M N K p c1 x) m0 (Done r m') ->
  forall i, 0 <= i < M -> i mod mr c = mr c - 1 ->
  dat m' BufC (i * round_up N (nr c) + (N - 1)) = dat m0 BufC (i * round_up N (nr c) + (N - 1)).
Proof.
  intros L Hmin Hm HN E H i Hi Hr.
  assert (Hnr : 0 < nr c). { destruct (legal_plan _ _ _ _ _ _ _ _ _ _ _ _ _ L E) as (_ & _ & Hs & _ & _ & G & _). assert (nr c1 = nr c) by apply Hs. lia. }
  eapply wide_stale; eauto; try lia.
  - split; [lia|]. unfold round_up, ceil_div. pose proof (Z.mul_succ_div_gt (N + nr c - 1) (nr c) Hnr). lia.
  - apply wide_element; auto; lia.
Qed.
End Flow.
