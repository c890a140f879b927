(** * The K-first program in 32-bit arithmetic. *)

From Coq Require Import ZArith List Bool Lia.
From Verif Require Import Lang ModelSizing ModelKernel ModelPack ModelSched ModelTop ModelInt Sizing_facts
  Int_facts IntPack_facts IntTile_facts.
Open Scope Z_scope.

Section K.
Variable S : scalar.
Variables (M N K p m_r n_r : Z) (x : blk_dims).
Hypothesis HM : 0 <= M.
Hypothesis HN : 0 <= N.
Hypothesis HK : 0 <= K.
Hypothesis Hp : 0 < p < 2 ^ 31.
Hypothesis Hmr : 0 < m_r < 2 ^ 31.
Hypothesis Hnr : 0 < n_r < 2 ^ 31.
Hypothesis H : kmn_facts M N K p m_r n_r x.
Hypothesis LM : M_padded x < 2 ^ 31.
Hypothesis LN : N_padded x < 2 ^ 31.
Hypothesis LK : K < 2 ^ 31.
Hypothesis LA : M_padded x * K < 2 ^ 31.
Hypothesis LB : K * N_padded x < 2 ^ 31.
Hypothesis LC : M_padded x * N_padded x < 2 ^ 31.
Hypothesis Lpm : p * m_c x < 2 ^ 31.
Hypothesis Lmn : m_c x * n_c x < 2 ^ 31.
Hypothesis Lk : k_c x < 2 ^ 31.
Hypothesis Ln : n_c x < 2 ^ 31.

Notation Mp := (M_padded x).
Notation Np := (N_padded x).

Lemma k_Mb m : 0 <= m < Mb x -> let t := p * m_c x in
  0 < t /\ 0 < blk_mcb x p m_r m <= t /\ m * t + blk_mcb x p m_r m <= Mp /\
  0 < core_mx x m /\ 1 <= blk_pu x p m <= p.
Proof.
  intros Hm. pose proof (kf_mc _ _ _ _ _ _ _ H). pose proof (kf_M _ _ _ _ _ _ _ H) as P.
  pose proof (pt_w _ _ _ _ P m Hm). pose proof (part_end _ _ _ _ P m Hm).
  pose proof (kf_mx _ _ _ _ _ _ _ H m Hm). pose proof (kf_pu _ _ _ _ _ _ _ H m Hm). cbv zeta. lia.
Qed.

Lemma k_core m core : 0 <= m < Mb x -> 0 <= core < blk_pu x p m ->
  0 < core_mt x m core <= core_mx x m /\ core * core_mx x m + core_mt x m core <= blk_mcb x p m_r m /\
  (m_r | core_mt x m core).
Proof.
  intros Hm Hc. pose proof (kf_C _ _ _ _ _ _ _ H m Hm) as P.
  pose proof (pt_w _ _ _ _ P core Hc). pose proof (part_end _ _ _ _ P core Hc).
  pose proof (kf_mr _ _ _ _ _ _ _ H m core Hm Hc). auto.
Qed.

Lemma k_Kb k : 0 <= k < Kb x -> 0 < blk_kt x k <= k_c x /\ k * k_c x + blk_kt x k <= K.
Proof.
  intros Hk. pose proof (kf_K _ _ _ _ _ _ _ H) as P.
  pose proof (pt_w _ _ _ _ P k Hk). pose proof (part_end _ _ _ _ P k Hk). auto.
Qed.

Lemma k_Nb n : 0 <= n < Nb x -> 0 < blk_nt x n <= n_c x /\ n * n_c x + blk_nt x n <= Np /\ (n_r | blk_nt x n).
Proof.
  intros Hn. pose proof (kf_N _ _ _ _ _ _ _ H) as P.
  pose proof (pt_w _ _ _ _ P n Hn). pose proof (part_end _ _ _ _ P n Hn).
  pose proof (kf_nr _ _ _ _ _ _ _ H n Hn). auto.
Qed.

Lemma nb_le nb t D w : part nb t D w -> nb <= D.
Proof.
  intros P. destruct (Z.eq_dec nb 0) as [E|E]. { pose proof (part_D _ _ _ _ P). lia. }
  pose proof (pt_nb _ _ _ _ P). pose proof (pt_w _ _ _ _ P (nb - 1) ltac:(lia)).
  pose proof (pt_last _ _ _ _ P ltac:(lia)). nia.
Qed.

Lemma mcb_32 m : 0 <= m < Mb x -> psame (fun v => v = blk_mcb x p m_r m) (V := S) (blk_mcb32 S x p m_r m) (PRet (blk_mcb x p m_r m)).
Proof.
  intros Hm. destruct (k_Mb m Hm) as (H1 & H2 & H3 & _). unfold blk_mcb32. unfold blk_mcb in *.
  pose proof (kf_mc _ _ _ _ _ _ _ H).
  destruct (is_last m (Mb x) (m_pad x)); apply ps_int_ret; auto; safe; nia.
Qed.

Lemma pack_A_32 A A_p :
  pack_A_single_buf_k_first32 S A A_p M K p x m_r = pack_A_single_buf_k_first S A A_p M K p x m_r.
Proof.
  pose proof (kf_M _ _ _ _ _ _ _ H) as PM. pose proof (kf_K _ _ _ _ _ _ _ H) as PK.
  pose proof (nb_le _ _ _ _ PM). pose proof (nb_le _ _ _ _ PK).
  pose proof (pt_nb _ _ _ _ PM). pose proof (pt_nb _ _ _ _ PK).
  pose proof (kf_mc _ _ _ _ _ _ _ H). pose proof (kf_kc _ _ _ _ _ _ _ H).
  assert (E : psame (fun _ => True) (pack_A_single_buf_k_first32 S A A_p M K p x m_r)
                (pack_A_single_buf_k_first S A A_p M K p x m_r)); [|apply E].
  unfold pack_A_single_buf_k_first32, pack_A_single_buf_k_first.
  eapply ps_bind; [|intros; now apply ps_ret].
  set (offM := off (Mb x) (p * m_c x) Mp). set (offK := off (Kb x) (k_c x) K).
  apply (ps_for (fun m o => o = offM m * K)); try lia; [apply divide_1|unfold offM; now rewrite (off_0 _ _ _ _ PM)|].
  intros m o Hm0 Hm1 _ ->. assert (Hm : 0 <= m < Mb x) by lia.
  destruct (k_Mb m Hm) as (B1 & B2 & B3 & B4 & B5). set (W := blk_mcb x p m_r m) in *.
  replace (offM m) with (m * (p * m_c x)) by (unfold offM; now rewrite off_lt by lia).
  assert (E0 : forall f g, psame (fun o => o = offM (m + 1) * K) (f W) g ->
     psame (fun o => o = offM (m + 1) * K) (pbind (blk_mcb32 S x p m_r m) f) (R := Z) g).
  { intros f g Hfg. destruct (mcb_32 m Hm) as [-> _]. exact Hfg. }
  apply E0. clear E0.
  eapply ps_weak.
  { apply (ps_for (fun k o => o = m * (p * m_c x) * K + W * offK k)); try lia;
      [apply divide_1|unfold offK; rewrite (off_0 _ _ _ _ PK); lia|].
    intros k o Hk0 Hk1 _ ->. assert (Hk : 0 <= k < Kb x) by lia.
    destruct (k_Kb k Hk) as (C1 & C2).
    replace (offK k) with (k * k_c x) by (unfold offK; now rewrite off_lt by lia).
    assert (P1 : 0 <= m * (p * m_c x)) by (apply mul_ge0; lia).
    assert (P2 : 0 <= k * k_c x) by (apply mul_ge0; lia).
    pose proof (blk_bound (m * (p * m_c x)) W (k * k_c x) (blk_kt x k) W Mp K
      ltac:(lia) ltac:(lia) ltac:(lia) ltac:(lia) B3 C2 ltac:(lia)) as BB.
    pose proof (row_bound (m * (p * m_c x)) K (k * k_c x) Mp ltac:(lia) ltac:(lia) ltac:(lia)) as BK.
    apply ps_int; [safe; lia|]. cbn [ival].
    eapply ps_bind with (P := fun _ => True).
    - apply ps_par; try lia; [apply divide_1|]. intros core Hc0 Hc1 _.
      destruct (k_core m core Hm ltac:(lia)) as (D1 & D2 & D3).
      assert (P3 : 0 <= core * core_mx x m) by (apply mul_ge0; lia).
      pose proof (row_bound (m * (p * m_c x) + core * core_mx x m) K (k * k_c x) Mp ltac:(lia) ltac:(lia) ltac:(lia)) as T1.
      pose proof (prod_bound (core * core_mx x m) (blk_kt x k) W (blk_kt x k) ltac:(lia) ltac:(lia)) as T2.
      pose proof (prod_bound (core_mt x m core) K Mp K ltac:(lia) ltac:(lia)) as T3.
      apply ts_int; [safe; lia|]. apply ts_int; [safe; lia|].
      apply ts_int; [safe; lia|]. apply ts_int; [safe; lia|]. cbn [ival].
      apply pack_ob_A_32; try lia; auto.
    - intros _ _. apply ps_int_ret; [safe; lia|reflexivity|].
      unfold offK. rewrite (off_S _ _ _ _ PK) by lia. ring. }
  cbv beta. intros o ->. unfold offM, offK. rewrite (off_S _ _ _ _ PM), (off_n _ _ _) by lia. fold W. ring.
Qed.

Lemma packB_elt_32 guard B B_p n1 k1 ind1 base b0 n2 i j ind :
  grows base -> 0 <= ind1 -> 0 <= ind -> 0 <= n1 -> 0 <= k1 -> 0 <= n2 -> 0 <= i -> 0 <= j ->
  k1 + i < K -> n1 + n2 + j < Np -> ind1 + ind + ival base < K * Np -> b0 = ind1 + ival base ->
  tsame (fun r => r = ind + 1) (packB_elt32 S guard B B_p N n1 k1 ind1 base n2 i j ind)
    (packB_elt S guard B B_p N n1 k1 b0 n2 i j ind).
Proof.
  intros G H1 H2 H3 H4 H5 H6 H7 L1 L2 L3 ->. pose proof (grows_pos _ G).
  assert (N <= Np) by apply (kf_Np _ _ _ _ _ _ _ H).
  assert (R : n1 + k1 * N + n2 + i * N + j < K * Np).
  { pose proof (prod_bound (k1 + i) N (K - 1) Np ltac:(lia) ltac:(lia)). lia. }
  unfold packB_elt32, packB_elt.
  eapply ts_bind with (P := fun _ => True).
  - eapply ts_bind with (P := fun o => o = (guard && (N <=? n1 + n2 + j))%bool)
      (t' := TRet (guard && (N <=? n1 + n2 + j))%bool)
      (f' := fun o => copy0 S o B_p (ind1 + ival base + ind) B (n1 + k1 * N + n2 + i * N + j)).
    + destruct guard; [|now apply ts_ret]. apply ts_int; [safe; lia|]. now apply ts_ret.
    + intros o _. apply ts_int.
      { apply ix_ok; [cbn [grows]; auto|cbn [ival]; lia]. }
      cbn [ival]. replace (ind1 + ind + ival base) with (ind1 + ival base + ind) by ring.
      unfold copy0. destruct o; [now apply ts_eq|].
      apply ts_int; [safe; lia|now apply ts_eq].
  - intros _ _. apply ts_int_ret; [safe; lia|reflexivity|lia].
Qed.

Lemma Kf_facts : let Kf := K - Z.rem K (k_c x) in
  0 <= Kf <= K /\ (k_c x | Kf) /\ 0 <= k_c1 x /\ Kf + k_c1 x = K /\ isafe (K - (K rem k_c x))%ix = true.
Proof.
  pose proof (kf_kc _ _ _ _ _ _ _ H) as Hk. pose proof (kf_kc1 _ _ _ _ _ _ _ H) as E.
  pose proof (Z.rem_bound_pos K (k_c x) HK Hk). pose proof (Z.quot_rem K (k_c x) ltac:(lia)) as Q.
  assert (Z.rem K (k_c x) <= K). { rewrite Z.rem_mod_nonneg by lia. apply Z.mod_le; lia. }
  cbv zeta. repeat split; try lia.
  - exists (Z.quot K (k_c x)). lia.
  - safe; lia.
Qed.

Lemma packB_main_32 guard B B_p n1 ind1 nt :
  0 <= n1 -> 0 <= nt -> n1 + nt <= Np -> (n_r | nt) -> ind1 = K * n1 ->
  psame (fun _ => True) (packB_main32 S guard B B_p K N x n_r n1 ind1 nt) (packB_main S guard B B_p K N x n_r n1 ind1 nt).
Proof.
  intros H1 H2 H3 H4 ->. destruct Kf_facts as (F1 & F2 & F3 & F4 & F5).
  pose proof (kf_kc _ _ _ _ _ _ _ H) as Hk.
  assert (Hkk : forall k1, 0 <= k1 < K - Z.rem K (k_c x) -> (k_c x | k1) -> k1 + k_c x <= K).
  { intros k1 Hk1 Dk. pose proof (mult_step _ _ _ Hk Dk F2 ltac:(lia)). lia. }
  unfold packB_main32, packB_main. apply ps_int; [exact F5|]. cbn [ival].
  apply ps_par; try lia; [now rewrite Z.sub_0_r|]. intros k1 Hk0 Hk1 Dk. rewrite Z.sub_0_r in Dk.
  destruct (quot_div k1 (k_c x) Hk Hk0 Dk) as [Q1 Q2].
  eapply ts_bind; [|intros; now apply ts_ret].
  apply (ts_for (fun n2 ind => ind = n2 * k_c x)); try lia; [now rewrite Z.sub_0_r|].
  intros n2 ind Hn0 Hn1 _ ->. eapply ts_weak.
  { apply (ts_for (fun i ind => ind = n2 * k_c x + i * n_r)); try lia; [apply divide_1|].
    intros i ind Hi0 Hi1 _ ->. eapply ts_weak.
    { apply (ts_for (fun j ind => ind = n2 * k_c x + i * n_r + j)); try lia; [apply divide_1|].
      intros j ind Hj0 Hj1 _ ->. eapply ts_weak.
      { pose proof (panel_bound n2 i j n_r (k_c x) nt ltac:(lia) ltac:(lia) ltac:(lia) ltac:(lia)).
        assert (k1 + k_c x <= K) by (apply Hkk; auto; lia).
        pose proof (prod_bound (k1 + k_c x) nt K nt ltac:(lia) ltac:(lia)).
        pose proof (prod_bound K (n1 + nt) K Np ltac:(lia) ltac:(lia)).
        pose proof (mul_ge0 n2 (k_c x) ltac:(lia) ltac:(lia)). pose proof (mul_ge0 i n_r ltac:(lia) ltac:(lia)).
        pose proof (mul_ge0 K n1 ltac:(lia) ltac:(lia)).
        apply packB_elt_32; try (cbn [ival]; rewrite Q1); try lia.
        gr; lia. }
      cbv beta. intros; lia. }
    cbv beta. intros; lia. }
  cbv beta. intros; lia.
Qed.

Lemma packB_tail_32 guard B B_p n1 ind1 nt :
  0 <= n1 -> 0 <= nt -> n1 + nt <= Np -> (n_r | nt) -> ind1 = K * n1 + (K - Z.rem K (k_c x)) * nt ->
  psame (fun _ => True) (packB_tail32 S guard B B_p K N x n_r n1 ind1 nt) (packB_tail S guard B B_p K N x n_r n1 ind1 nt).
Proof.
  intros H1 H2 H3 H4 ->. destruct Kf_facts as (F1 & F2 & F3 & F4 & F5).
  pose proof (kf_kc _ _ _ _ _ _ _ H) as Hk. set (Kf := K - Z.rem K (k_c x)) in *.
  unfold packB_tail32, packB_tail. apply ps_int; [exact F5|]. cbn [ival]. fold Kf.
  apply ps_par; try lia; [now rewrite Z.sub_0_r|]. intros n2 Hn0 Hn1 _.
  eapply ts_bind; [|intros; now apply ts_ret].
  apply (ts_for (fun i ind => ind = i * n_r)); try lia; [apply divide_1|].
  intros i ind Hi0 Hi1 _ ->. eapply ts_weak.
  { apply (ts_for (fun j ind => ind = i * n_r + j)); try lia; [apply divide_1|].
    intros j ind Hj0 Hj1 _ ->. eapply ts_weak.
    { pose proof (panel_bound n2 i j n_r (k_c1 x) nt ltac:(lia) ltac:(lia) ltac:(lia) ltac:(lia)).
      pose proof (prod_bound K (n1 + nt) K Np ltac:(lia) ltac:(lia)).
      pose proof (mul_ge0 n2 (k_c1 x) ltac:(lia) ltac:(lia)). pose proof (mul_ge0 i n_r ltac:(lia) ltac:(lia)).
      pose proof (mul_ge0 K n1 ltac:(lia) ltac:(lia)). pose proof (mul_ge0 Kf nt ltac:(lia) ltac:(lia)).
      assert (Kf * nt + nt * k_c1 x = nt * K) by (rewrite <- F4; ring).
      apply packB_elt_32; cbn [ival]; try lia. gr; lia. }
    cbv beta. intros; lia. }
  cbv beta. intros; lia.
Qed.

Lemma Nf_facts : let Nf := N - Z.rem N (n_c x) in
  0 <= Nf <= N /\ (n_c x | Nf) /\ 0 <= n_c1 x /\ (n_r | n_c1 x) /\ (n_c1 x <> 0 -> Nf + n_c1 x = Np) /\
  isafe (N - (N rem n_c x))%ix = true.
Proof.
  pose proof (kf_nc _ _ _ _ _ _ _ H) as Hk. pose proof (kf_nc1 _ _ _ _ _ _ _ H) as E.
  pose proof (Z.rem_bound_pos N (n_c x) HN Hk). pose proof (Z.quot_rem N (n_c x) ltac:(lia)) as Q.
  assert (Z.rem N (n_c x) <= N). { rewrite Z.rem_mod_nonneg by lia. apply Z.mod_le; lia. }
  pose proof (kf_Np _ _ _ _ _ _ _ H).
  pose proof (cdiv_spec (Z.rem N (n_c x)) n_r ltac:(lia)) as C.
  cbv zeta. repeat split; try lia.
  - exists (Z.quot N (n_c x)). lia.
  - rewrite E. apply Z.divide_factor_r.
  - intros E0. pose proof (kf_N _ _ _ _ _ _ _ H) as P.
    assert (R0 : Z.rem N (n_c x) <> 0). { intros Z0. rewrite Z0, cdiv_0 in E by lia. lia. }
    pose proof (kf_npad _ _ _ _ _ _ _ H) as Ep. unfold pad01, truthy in Ep.
    destruct (Z.eqb_spec (Z.rem N (n_c x)) 0); [lia|]. cbn in Ep.
    pose proof (kf_Nq _ _ _ _ _ _ _ H) as En. rewrite Ep in En.
    assert (0 <= Z.quot N (n_c x)) by (apply Z.quot_pos; lia).
    pose proof (pt_last _ _ _ _ P ltac:(lia)) as L.
    unfold blk_nt, is_last in L. rewrite Z.eqb_refl, Ep in L. cbn in L.
    replace (Nb x - 1) with (Z.quot N (n_c x)) in L by lia. lia.
  - safe; lia.
Qed.

Lemma pack_B_32 B B_p : pack_B_k_first32 S B B_p K N x n_r = pack_B_k_first S B B_p K N x n_r.
Proof.
  destruct Kf_facts as (F1 & F2 & F3 & F4 & F5). destruct Nf_facts as (G1 & G2 & G3 & G4 & G5 & G6).
  pose proof (kf_kc _ _ _ _ _ _ _ H) as Hk. pose proof (kf_nc _ _ _ _ _ _ _ H) as Hn.
  pose proof (kf_Np _ _ _ _ _ _ _ H) as HNp. pose proof (kf_ncd _ _ _ _ _ _ _ H) as Dn.
  assert (E : psame (fun _ => True) (pack_B_k_first32 S B B_p K N x n_r) (pack_B_k_first S B B_p K N x n_r)); [|apply E].
  unfold pack_B_k_first32, pack_B_k_first.
  destruct (Z.eqb_spec (n_c x) 0); [lia|]. destruct (Z.eqb_spec (k_c x) 0); [lia|]. cbn [orb].
  apply ps_int; [exact G6|]. cbn [ival].
  set (Kf := K - Z.rem K (k_c x)) in *. set (Nf := N - Z.rem N (n_c x)) in *.
  eapply ps_bind.
  - apply (ps_for (fun n1 ind1 => ind1 = K * n1)); try lia; [now rewrite Z.sub_0_r|].
    intros n1 ind1 Hn0 Hn1 Dn1 ->.
    assert (Tn : n1 + n_c x <= Nf).
    { rewrite Z.sub_0_r in Dn1. apply (mult_step _ _ _ Hn Dn1 G2). lia. }
    pose proof (prod_bound K (n1 + n_c x) K Np ltac:(lia) ltac:(lia)) as T.
    pose proof (mul_ge0 K n1 ltac:(lia) ltac:(lia)). pose proof (mul_ge0 Kf (n_c x) ltac:(lia) ltac:(lia)).
    pose proof (mul_ge0 (k_c1 x) (n_c x) ltac:(lia) ltac:(lia)).
    assert (T' : Kf * n_c x + k_c1 x * n_c x = K * n_c x) by (rewrite <- F4; ring).
    eapply ps_bind.
    { apply packB_main_32; auto; lia. }
    intros _ _. apply ps_int.
    { apply ix_ok; [|cbn [ival]; fold Kf; lia]. gr; fold Kf; try lia. }
    cbn [ival]. fold Kf. unfold truthy. destruct (Z.eqb_spec (k_c1 x) 0) as [E0|E0]; cbn [negb].
    + apply ps_ret; auto. rewrite E0 in T'. lia.
    + eapply ps_bind.
      { apply packB_tail_32; auto; try lia. }
      intros _ _. apply ps_int_ret; [safe; lia|reflexivity|lia].
  - cbv beta. intros ind1 ->. unfold truthy. destruct (Z.eqb_spec (n_c1 x) 0) as [E0|E0]; cbn [negb].
    + now apply ps_eq.
    + specialize (G5 E0).
      pose proof (prod_bound K (Nf + n_c1 x) K Np ltac:(lia) ltac:(lia)) as T.
      pose proof (mul_ge0 K Nf ltac:(lia) ltac:(lia)). pose proof (mul_ge0 Kf (n_c1 x) ltac:(lia) ltac:(lia)).
      pose proof (mul_ge0 (k_c1 x) (n_c1 x) ltac:(lia) ltac:(lia)).
      assert (T' : Kf * n_c1 x + k_c1 x * n_c1 x = K * n_c1 x) by (rewrite <- F4; ring).
      eapply ps_bind.
      { apply packB_main_32; auto; lia. }
      intros _ _. apply ps_int.
      { apply ix_ok; [|cbn [ival]; fold Kf; lia]. gr; fold Kf; try lia. }
      cbn [ival]. fold Kf. destruct (Z.eqb_spec (k_c1 x) 0) as [E1|E1]; cbn [negb].
      * now apply ps_eq.
      * apply packB_tail_32; auto; lia.
Qed.

Lemma n1_32 n : 0 <= n < Nb x ->
  blk_n1_32 (pint (V := S)) x N n = PRet (blk_n1 x N n) /\ blk_n1_32 (tint (V := S)) x N n = TRet (blk_n1 x N n).
Proof.
  intros Hn. destruct Nf_facts as (G1 & G2 & G3 & G4 & G5 & G6). destruct (k_Nb n Hn) as (N1 & N2 & N3).
  unfold blk_n1_32, blk_n1, pint, tint. destruct (is_last n (Nb x) (n_pad x)).
  - now rewrite G6.
  - assert (E : isafe (n * n_c x)%ix = true) by (safe; lia). now rewrite E.
Qed.

Lemma m1_32 m : 0 <= m < Mb x ->
  blk_m1_32 (pint (V := S)) x M p m = PRet (blk_m1 x M p m).
Proof.
  intros Hm. destruct (k_Mb m Hm) as (B1 & B2 & B3 & B4 & B5). pose proof (kf_mc _ _ _ _ _ _ _ H).
  pose proof (kf_Mp _ _ _ _ _ _ _ H).
  unfold blk_m1_32, blk_m1, pint. destruct (is_last m (Mb x) (m_pad x)).
  - pose proof (Z.rem_bound_pos M (p * m_c x) HM B1).
    assert (Z.rem M (p * m_c x) <= M). { rewrite Z.rem_mod_nonneg by lia. apply Z.mod_le; lia. }
    assert (E : isafe (M - (M rem (p * m_c x)))%ix = true) by (safe; lia). now rewrite E.
  - assert (E : isafe (m * p * m_c x)%ix = true) by (safe; lia). now rewrite E.
Qed.

Lemma core_32 ar A_p B_p c n m core :
  mr c = m_r -> nr c = n_r -> 0 <= n < Nb x -> 0 <= m < Mb x -> 0 <= core < blk_pu x p m ->
  tsame (fun _ => True) (kmn_core32 S ar A_p B_p K p c x n m (blk_mcb x p m_r m) core)
    (kmn_core S ar A_p B_p K p c x n m core).
Proof.
  intros Em En Hn Hm Hc. unfold kmn_core32, kmn_core. rewrite Em, En.
  destruct (k_Mb m Hm) as (B1 & B2 & B3 & B4 & B5). destruct (k_core m core Hm Hc) as (D1 & D2 & D3).
  destruct (k_Nb n Hn) as (N1 & N2 & N3). pose proof (kf_mc _ _ _ _ _ _ _ H). pose proof (kf_kc _ _ _ _ _ _ _ H).
  pose proof (kf_K _ _ _ _ _ _ _ H) as PK. pose proof (pt_nb _ _ _ _ PK).
  pose proof (kf_mx _ _ _ _ _ _ _ H m Hm). pose proof (kf_nc _ _ _ _ _ _ _ H).
  set (W := blk_mcb x p m_r m) in *. set (mx := core_mx x m) in *. set (mt := core_mt x m core) in *.
  set (nt := blk_nt x n) in *.
  pose proof (mul_ge0 p (m_c x) ltac:(lia) ltac:(lia)). pose proof (mul_ge0 m (p * m_c x) ltac:(lia) ltac:(lia)).
  pose proof (mul_ge0 core mx ltac:(lia) ltac:(lia)). pose proof (mul_ge0 n (n_c x) ltac:(lia) ltac:(lia)).
  apply ts_snake_; [lia|]. intros k Hk. destruct (k_Kb k Hk) as (C1 & C2). set (kt := blk_kt x k) in *.
  pose proof (mul_ge0 k (k_c x) ltac:(lia) ltac:(lia)).
  pose proof (blk_bound (m * (p * m_c x)) W (k * k_c x) kt (core * mx + mt) Mp K
      ltac:(lia) ltac:(lia) ltac:(lia) ltac:(lia) B3 C2 ltac:(lia)) as BA.
  pose proof (blk_bound (n * n_c x) nt (k * k_c x) kt nt Np K
      ltac:(lia) ltac:(lia) ltac:(lia) ltac:(lia) N2 C2 ltac:(lia)) as BB.
  pose proof (prod_bound mt nt Mp Np ltac:(lia) ltac:(lia)) as BC.
  pose proof (mul_ge0 mt kt ltac:(lia) ltac:(lia)). pose proof (mul_ge0 nt kt ltac:(lia) ltac:(lia)).
  pose proof (mul_ge0 (m * (p * m_c x)) K ltac:(lia) ltac:(lia)). pose proof (mul_ge0 (n * n_c x) K ltac:(lia) ltac:(lia)).
  pose proof (mul_ge0 W (k * k_c x) ltac:(lia) ltac:(lia)). pose proof (mul_ge0 nt (k * k_c x) ltac:(lia) ltac:(lia)).
  pose proof (mul_ge0 (core * mx) kt ltac:(lia) ltac:(lia)).
  pose proof (blk_bound (n * n_c x) nt (m * (p * m_c x) + core * mx) mt 0 Np Mp
      ltac:(lia) ltac:(lia) ltac:(lia) ltac:(lia) N2 ltac:(lia) ltac:(lia)) as BD.
  pose proof (mul_ge0 (n * n_c x) Mp ltac:(lia) ltac:(lia)). pose proof (mul_ge0 nt (m * (p * m_c x) + core * mx) ltac:(lia) ltac:(lia)).
  apply ts_int; [safe; lia|]. apply ts_int; [safe; lia|]. apply ts_int; [safe; lia|]. cbn [ival].
  replace (BufCp core, 0) with (padd (BufCp core, 0) 0) at 2 by reflexivity.
  apply tile_loops_32; auto; try lia.
  intros. apply (cix_plain mt nt); auto; lia.
Qed.

Lemma unpack_32 C c n m core :
  mr c = m_r -> nr c = n_r -> 0 <= n < Nb x -> 0 <= m < Mb x -> 0 <= core < blk_pu x p m ->
  tsame (fun _ => True)
    (kmn_unpack32 S C M N c x n m (blk_n1 x N n) (blk_m1 x M p m) (m * p * m_c x * N + n * n_c x) core)
    (kmn_unpack S C M N p c x n m core).
Proof.
  intros Em En Hn Hm Hc. unfold kmn_unpack32, kmn_unpack. rewrite Em, En.
  destruct (k_Mb m Hm) as (B1 & B2 & B3 & B4 & B5). destruct (k_core m core Hm Hc) as (D1 & D2 & D3).
  destruct (k_Nb n Hn) as (N1 & N2 & N3). pose proof (kf_mc _ _ _ _ _ _ _ H).
  pose proof (kf_mx _ _ _ _ _ _ _ H m Hm). pose proof (kf_nc _ _ _ _ _ _ _ H).
  pose proof (kf_Mp _ _ _ _ _ _ _ H). pose proof (kf_Np _ _ _ _ _ _ _ H).
  destruct (kf_n1 _ _ _ _ _ _ _ H n Hn) as [E1 L1]. destruct (kf_m1 _ _ _ _ _ _ _ H m Hm) as [E2 L2].
  set (W := blk_mcb x p m_r m) in *. set (mx := core_mx x m) in *. set (mt := core_mt x m core) in *.
  set (nt := blk_nt x n) in *.
  pose proof (mul_ge0 p (m_c x) ltac:(lia) ltac:(lia)). pose proof (mul_ge0 m (p * m_c x) ltac:(lia) ltac:(lia)).
  pose proof (mul_ge0 core mx ltac:(lia) ltac:(lia)). pose proof (mul_ge0 n (n_c x) ltac:(lia) ltac:(lia)).
  pose proof (prod_bound (m * (p * m_c x) + core * mx) N (Mp - 1) Np ltac:(lia) ltac:(lia)) as BO.
  pose proof (prod_bound mt nt Mp Np ltac:(lia) ltac:(lia)) as BC.
  apply ts_int; [safe; lia|]. apply ts_int; [safe; lia|]. cbn [ival].
  eapply ts_bind.
  - apply (unpack_ob_C_32 S) with (Mp := Mp) (Np := Np); auto; try lia.
  - intros _ _. apply ts_int; [safe; lia|]. now apply ts_eq.
Qed.

Lemma schedule_32 ar A_p B_p C c :
  mr c = m_r -> nr c = n_r ->
  schedule_KMN32 S ar A_p B_p C M N K p c x = schedule_KMN S ar A_p B_p C M N K p c x.
Proof.
  intros Em En.
  pose proof (kf_N _ _ _ _ _ _ _ H) as PN. pose proof (nb_le _ _ _ _ PN). pose proof (pt_nb _ _ _ _ PN).
  pose proof (kf_M _ _ _ _ _ _ _ H) as PM. pose proof (pt_nb _ _ _ _ PM).
  assert (E : psame (fun _ => True) (schedule_KMN32 S ar A_p B_p C M N K p c x)
    (schedule_KMN S ar A_p B_p C M N K p c x)); [|apply E].
  unfold schedule_KMN32, schedule_KMN.
  apply ps_for_; try lia; [apply divide_1|]. intros n Hn0 Hn1 _. assert (Hn : 0 <= n < Nb x) by lia.
  destruct (n1_32 n Hn) as [-> _]. cbn [pbind].
  apply ps_snake_; [lia|]. intros m Hm.
  destruct (k_Mb m Hm) as (B1 & B2 & B3 & B4 & B5). destruct (k_Nb n Hn) as (N1 & N2 & N3).
  pose proof (kf_mc _ _ _ _ _ _ _ H). pose proof (kf_nc _ _ _ _ _ _ _ H).
  pose proof (kf_Mp _ _ _ _ _ _ _ H). pose proof (kf_Np _ _ _ _ _ _ _ H).
  destruct (kf_n1 _ _ _ _ _ _ _ H n Hn) as [E1 L1]. destruct (kf_m1 _ _ _ _ _ _ _ H m Hm) as [E2 L2].
  rewrite Em. destruct (mcb_32 m Hm) as [-> _]. rewrite (m1_32 m Hm). cbn [pbind].
  eapply ps_bind.
  - apply ps_par; try lia; [apply divide_1|]. intros core Hc0 Hc1 _. apply core_32; auto; lia.
  - intros _ _. apply ps_int.
    { pose proof (mul_ge0 n (n_c x) ltac:(lia) ltac:(lia)). pose proof (mul_ge0 m (p * m_c x) ltac:(lia) ltac:(lia)).
      pose proof (prod_bound (m * (p * m_c x)) N (Mp - 1) Np ltac:(lia) ltac:(lia)). safe; lia. }
    cbn [ival]. apply ps_par; try lia; [apply divide_1|]. intros core Hc0 Hc1 _. apply unpack_32; auto; lia.
Qed.

End K.
