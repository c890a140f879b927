(** * The schedules of the core grid in 32-bit arithmetic. *)

From Coq Require Import ZArith List Bool Lia.
From Verif Require Import Lang ModelSizing ModelKernel ModelPack ModelSched ModelTop ModelInt ModelIntGrid
  Sizing_facts Grid2_facts Int_facts IntPack_facts IntTile_facts IntSize_facts IntK_facts.
Open Scope Z_scope.

Lemma dim_blk D g t r nb pad Dp pu mcb mx mt b : dimf D g t r nb pad Dp pu mcb mx mt -> 0 <= b < nb ->
  0 < g * t -> 0 <= b * (g * t) /\ 0 < mcb b <= g * t /\ b * (g * t) + mcb b <= Dp /\ (r | mcb b) /\
  0 < mx b <= t /\ 1 <= pu b <= g.
Proof.
  intros F Hb Hg. pose proof (df_P _ _ _ _ _ _ _ _ _ _ _ F) as P.
  pose proof (pt_w _ _ _ _ P b Hb). pose proof (part_end _ _ _ _ P b Hb).
  pose proof (df_br _ _ _ _ _ _ _ _ _ _ _ F b Hb). pose proof (df_mx _ _ _ _ _ _ _ _ _ _ _ F b Hb).
  pose proof (df_pu _ _ _ _ _ _ _ _ _ _ _ F b Hb).
  pose proof (mul_ge0 b (g * t) ltac:(lia) ltac:(lia)). repeat split; try lia; auto.
Qed.

Lemma dim_core D g t r nb pad Dp pu mcb mx mt b c : dimf D g t r nb pad Dp pu mcb mx mt -> 0 <= b < nb -> 0 <= c < pu b ->
  0 <= c * mx b /\ 0 <= mt b c <= mx b /\ c * mx b + mt b c <= mcb b /\ (r | mt b c).
Proof.
  intros F Hb Hc. pose proof (df_C _ _ _ _ _ _ _ _ _ _ _ F b Hb) as P.
  pose proof (pz_w _ _ _ _ P c Hc). pose proof (pz_end _ _ _ _ c P Hc).
  pose proof (df_mx _ _ _ _ _ _ _ _ _ _ _ F b Hb). pose proof (df_r _ _ _ _ _ _ _ _ _ _ _ F b c Hb Hc).
  pose proof (mul_ge0 c (mx b) ltac:(lia) ltac:(lia)). auto.
Qed.

Lemma core_div core w h : 0 < w -> 0 <= core < h * w ->
  0 <= Z.quot core w < h /\ 0 <= Z.rem core w < w /\ Z.quot core w <= core.
Proof.
  intros Hw Hc. pose proof (Z.rem_bound_pos core w ltac:(lia) ltac:(lia)). pose proof (Z.quot_rem core w ltac:(lia)).
  assert (0 <= Z.quot core w) by (apply Z.quot_pos; lia). split; [nia|split; [lia|nia]].
Qed.

Section G.
Variable S : scalar.
Variables (M N K p m_r n_r : Z) (x : blk_dims).
Hypothesis HM : 0 <= M.
Hypothesis HN : 0 <= N.
Hypothesis HK : 0 <= K.
Hypothesis Hp : p < 2 ^ 31.
Hypothesis Hmr : 0 < m_r < 2 ^ 31.
Hypothesis Hnr : 0 < n_r < 2 ^ 31.
Hypothesis H : g2_facts M N K p m_r n_r x.
Hypothesis LM : M_padded x < 2 ^ 31.
Hypothesis LN : N_padded x < 2 ^ 31.
Hypothesis LK : K < 2 ^ 31.
Hypothesis LA : M_padded x * K < 2 ^ 31.
Hypothesis LB : K * N_padded x < 2 ^ 31.
Hypothesis LC : M_padded x * N_padded x < 2 ^ 31.
Hypothesis LO : (M_padded x + 1) * N_padded x < 2 ^ 31 \/
  forall m ci, 0 <= m < Mb x -> 0 <= ci < g2_pum x m -> 0 < g2_mt x m ci.
Hypothesis Lpm : pm x * m_c x < 2 ^ 31.
Hypothesis Lpn : pn x * n_c x < 2 ^ 31.
Hypothesis Lmn : m_c x * n_c x < 2 ^ 31.
Hypothesis Lk : k_c x < 2 ^ 31.

Notation Mp := (M_padded x).
Notation Np := (N_padded x).

Lemma g_pos : 0 < pm x * m_c x /\ 0 < pn x * n_c x /\ 0 < m_c x /\ 0 < n_c x /\ 0 < k_c x /\ 1 <= pm x /\ 1 <= pn x /\
  M <= Mp /\ N <= Np /\ n_c x < 2 ^ 31 /\ m_c x < 2 ^ 31 /\ pm x <= p /\ pn x <= p.
Proof.
  pose proof (gf_mc _ _ _ _ _ _ _ H). pose proof (gf_kc _ _ _ _ _ _ _ H). pose proof (gf_nc _ _ _ _ _ _ _ H).
  pose proof (gf_pm _ _ _ _ _ _ _ H). pose proof (gf_pn _ _ _ _ _ _ _ H). pose proof (gf_pp _ _ _ _ _ _ _ H).
  pose proof (df_Dp _ _ _ _ _ _ _ _ _ _ _ (gf_M _ _ _ _ _ _ _ H)).
  pose proof (df_Dp _ _ _ _ _ _ _ _ _ _ _ (gf_N _ _ _ _ _ _ _ H)).
  assert (0 < pm x * m_c x) by nia. assert (0 < pn x * n_c x) by nia.
  assert (n_c x <= pn x * n_c x) by nia. assert (m_c x <= pm x * m_c x) by nia.
  assert (pm x <= p) by nia. assert (pn x <= p) by nia. repeat split; lia.
Qed.

Lemma g_K k : 0 <= k < Kb x -> 0 < blk_kt x k <= k_c x /\ 0 <= k * k_c x /\ k * k_c x + blk_kt x k <= K.
Proof.
  intros Hk. pose proof (gf_K _ _ _ _ _ _ _ H) as P. pose proof (gf_kc _ _ _ _ _ _ _ H).
  pose proof (pt_w _ _ _ _ P k Hk). pose proof (part_end _ _ _ _ P k Hk).
  pose proof (mul_ge0 k (k_c x) ltac:(lia) ltac:(lia)). auto.
Qed.

Lemma g_ncb n : 0 <= n < Nb x -> g2_ncb32 S x n_r n = PRet (g2_ncb x n_r n).
Proof.
  intros Hn. destruct g_pos as (P1 & P2 & P3 & P4 & P5 & P6 & P7 & P8 & P9 & P10 & P11 & P12 & P13).
  destruct (dim_blk _ _ _ _ _ _ _ _ _ _ _ n (gf_N _ _ _ _ _ _ _ H) Hn P2) as (B1 & B2 & B3 & B4 & B5 & B6).
  unfold g2_ncb32. unfold g2_ncb in *. destruct (is_last n (Nb x) (n_pad x)); unfold pint.
  - assert (0 <= nr_rem x) by nia. assert (isafe (n_r * nr_rem x)%ix = true) as -> by (safe; lia). reflexivity.
  - assert (isafe (pn x * n_c x)%ix = true) as -> by (safe; lia). reflexivity.
Qed.

Lemma g_mcb m : 0 <= m < Mb x -> g2_mcb32 S x m_r m = PRet (g2_mcb x m_r m).
Proof.
  intros Hm. destruct g_pos as (P1 & P2 & P3 & P4 & P5 & P6 & P7 & P8 & P9 & P10 & P11 & P12 & P13).
  destruct (dim_blk _ _ _ _ _ _ _ _ _ _ _ m (gf_M _ _ _ _ _ _ _ H) Hm P1) as (B1 & B2 & B3 & B4 & B5 & B6).
  unfold g2_mcb32. unfold g2_mcb in *. destruct (is_last m (Mb x) (m_pad x)); unfold pint.
  - assert (0 <= mr_rem x) by nia. assert (isafe (m_r * mr_rem x)%ix = true) as -> by (safe; lia). reflexivity.
  - assert (isafe (pm x * m_c x)%ix = true) as -> by (safe; lia). reflexivity.
Qed.

Lemma g_n1 n : 0 <= n < Nb x -> g2_n1_32 S x N n = PRet (g2_n1 x N n) /\ g2_n1 x N n = n * (pn x * n_c x) /\
  n * (pn x * n_c x) < N.
Proof.
  intros Hn. destruct g_pos as (P1 & P2 & P3 & P4 & P5 & P6 & P7 & P8 & P9 & P10 & P11 & P12 & P13).
  pose proof (gf_N _ _ _ _ _ _ _ H) as FN.
  destruct (dim_blk _ _ _ _ _ _ _ _ _ _ _ n FN Hn P2) as (B1 & B2 & B3 & B4 & B5 & B6).
  pose proof (df_1 _ _ _ _ _ _ _ _ _ _ _ FN n Hn) as D1. pose proof (df_last _ _ _ _ _ _ _ _ _ _ _ FN n Hn) as D2.
  destruct (qr N (pn x * n_c x)) as (Q1 & Q2 & Q3 & Q4 & Q5 & Q6); try lia.
  unfold g2_n1_32, g2_n1. destruct (is_last n (Nb x) (n_pad x)); unfold pint.
  - assert (isafe (N - (N rem (pn x * n_c x)))%ix = true) as -> by (safe; lia). cbn [ival]. rewrite D2 by auto. repeat split; lia.
  - assert (isafe (n * pn x * n_c x)%ix = true) as -> by (safe; nia). cbn [ival]. repeat split; lia.
Qed.

Lemma g_m1 m : 0 <= m < Mb x -> g2_m1_32 S x M m = PRet (g2_m1 x M m) /\ g2_m1 x M m = m * (pm x * m_c x) /\
  m * (pm x * m_c x) < M.
Proof.
  intros Hm. destruct g_pos as (P1 & P2 & P3 & P4 & P5 & P6 & P7 & P8 & P9 & P10 & P11 & P12 & P13).
  pose proof (gf_M _ _ _ _ _ _ _ H) as FM.
  destruct (dim_blk _ _ _ _ _ _ _ _ _ _ _ m FM Hm P1) as (B1 & B2 & B3 & B4 & B5 & B6).
  pose proof (df_1 _ _ _ _ _ _ _ _ _ _ _ FM m Hm) as D1. pose proof (df_last _ _ _ _ _ _ _ _ _ _ _ FM m Hm) as D2.
  destruct (qr M (pm x * m_c x)) as (Q1 & Q2 & Q3 & Q4 & Q5 & Q6); try lia.
  unfold g2_m1_32, g2_m1. destruct (is_last m (Mb x) (m_pad x)); unfold pint.
  - assert (isafe (M - (M rem (pm x * m_c x)))%ix = true) as -> by (safe; lia). cbn [ival]. rewrite D2 by auto. repeat split; lia.
  - assert (isafe (m * pm x * m_c x)%ix = true) as -> by (safe; nia). cbn [ival]. repeat split; lia.
Qed.

Lemma g_packB B c n k : nr c = n_r -> 0 <= n < Nb x -> 0 <= k < Kb x ->
  psame (fun _ => True) (g2_packB32 S B N c x (g2_ncb x n_r n) (n * pn x * n_c x + k * k_c x * N) k) (g2_packB S B N c x n k).
Proof.
  intros En Hn Hk. unfold g2_packB32, g2_packB. rewrite En.
  destruct g_pos as (P1 & P2 & P3 & P4 & P5 & P6 & P7 & P8 & P9 & P10 & P11 & P12 & P13).
  destruct (dim_blk _ _ _ _ _ _ _ _ _ _ _ n (gf_N _ _ _ _ _ _ _ H) Hn P2) as (B1 & B2 & B3 & B4 & B5 & B6).
  destruct (g_K k Hk) as (C1 & C2 & C3). set (kt := blk_kt x k) in *. set (W := g2_ncb x n_r n) in *.
  apply ps_par; try lia; [now rewrite Z.sub_0_r|]. intros n2 Hj0 Hj1 _.
  pose proof (prod_bound (k * k_c x) N (K - 1) Np ltac:(lia) ltac:(lia)) as T1.
  pose proof (prod_bound n2 kt Np K ltac:(lia) ltac:(lia)) as T2.
  pose proof (mul_ge0 (k * k_c x) N ltac:(lia) ltac:(lia)) as T3.
  apply ts_int; [safe; nia|]. apply ts_int; [safe; lia|]. cbn [ival]. now apply ts_eq.
Qed.

Lemma g_packA A c m k : mr c = m_r -> 0 <= m < Mb x -> 0 <= k < Kb x ->
  psame (fun _ => True) (g2_packA32 S A K c x (g2_mcb x m_r m) (m * pm x * m_c x * K + k * k_c x) k) (g2_packA S A K c x m k).
Proof.
  intros En Hm Hk. unfold g2_packA32, g2_packA. rewrite En.
  destruct g_pos as (P1 & P2 & P3 & P4 & P5 & P6 & P7 & P8 & P9 & P10 & P11 & P12 & P13).
  destruct (dim_blk _ _ _ _ _ _ _ _ _ _ _ m (gf_M _ _ _ _ _ _ _ H) Hm P1) as (B1 & B2 & B3 & B4 & B5 & B6).
  destruct (g_K k Hk) as (C1 & C2 & C3). set (kt := blk_kt x k) in *. set (W := g2_mcb x m_r m) in *.
  apply ps_par; try lia; [now rewrite Z.sub_0_r|]. intros m3 Hj0 Hj1 _.
  pose proof (row_bound (m * (pm x * m_c x) + m3) K (k * k_c x) Mp ltac:(lia) ltac:(lia) ltac:(lia)) as T1.
  pose proof (prod_bound m3 kt Mp K ltac:(lia) ltac:(lia)) as T2.
  pose proof (mul_ge0 (m * (pm x * m_c x)) K ltac:(lia) ltac:(lia)) as T3.
  apply ts_int; [safe; nia|]. apply ts_int; [safe; lia|]. cbn [ival]. now apply ts_eq.
Qed.

Lemma g_core ar c n m k core : mr c = m_r -> nr c = n_r ->
  0 <= n < Nb x -> 0 <= m < Mb x -> 0 <= k < Kb x -> 0 <= core < g2_pum x m * g2_pun x n -> core < 2 ^ 31 ->
  tsame (fun _ => True) (g2_core32 S ar c x n m k core) (g2_core S ar c x n m k core).
Proof.
  intros Em En Hn Hm Hk Hc Hc'. unfold g2_core32, g2_core. rewrite Em, En.
  destruct g_pos as (P1 & P2 & P3 & P4 & P5 & P6 & P7 & P8 & P9 & P10 & P11 & P12 & P13).
  destruct (dim_blk _ _ _ _ _ _ _ _ _ _ _ m (gf_M _ _ _ _ _ _ _ H) Hm P1) as (B1 & B2 & B3 & B4 & B5 & B6).
  destruct (dim_blk _ _ _ _ _ _ _ _ _ _ _ n (gf_N _ _ _ _ _ _ _ H) Hn P2) as (D1 & D2 & D3 & D4 & D5 & D6).
  destruct (core_div core (g2_pun x n) (g2_pum x m) ltac:(lia) Hc) as (Hi & Hj & Hij).
  destruct (qr core (g2_pun x n)) as (Q1 & Q2 & Q3 & Q4 & Q5 & Q6); try lia.
  apply ts_int; [safe; lia|]. apply ts_int; [safe; lia|]. cbn [ival].
  set (ci := Z.quot core (g2_pun x n)) in *. set (cj := Z.rem core (g2_pun x n)) in *.
  destruct (dim_core _ _ _ _ _ _ _ _ _ _ _ m ci (gf_M _ _ _ _ _ _ _ H) Hm Hi) as (E1 & E2 & E3 & E4).
  destruct (dim_core _ _ _ _ _ _ _ _ _ _ _ n cj (gf_N _ _ _ _ _ _ _ H) Hn Hj) as (F1 & F2 & F3 & F4).
  destruct (g_K k Hk) as (C1 & C2 & C3). set (kt := blk_kt x k) in *.
  set (mt := g2_mt x m ci) in *. set (nt := g2_nt x n cj) in *. set (mx := g2_mx x m) in *. set (nx := g2_nx x n) in *.
  pose proof (prod_bound (ci * mx + mt) kt Mp K ltac:(lia) ltac:(lia)) as T1.
  pose proof (prod_bound kt (cj * nx + nt) K Np ltac:(lia) ltac:(lia)) as T2.
  pose proof (prod_bound mt nt Mp Np ltac:(lia) ltac:(lia)) as T3.
  pose proof (mul_ge0 mt kt ltac:(lia) ltac:(lia)). pose proof (mul_ge0 nt kt ltac:(lia) ltac:(lia)).
  pose proof (mul_ge0 (ci * mx) kt ltac:(lia) ltac:(lia)). pose proof (mul_ge0 (cj * nx) kt ltac:(lia) ltac:(lia)).
  apply ts_int; [safe; lia|]. apply ts_int; [safe; lia|]. cbn [ival].
  change (BufCp core, 0) with (padd (BufCp core, 0) 0) at 2.
  change (BufAp 0, ci * mx * kt) with (padd (BufAp 0, 0) (ci * mx * kt)).
  change (BufBp, cj * nx * kt) with (padd (BufBp, 0) (cj * nx * kt)).
  apply tile_loops_32; auto; try lia.
  intros. apply (cix_plain mt nt); auto; lia.
Qed.

(** the first element of C a core writes *)
Lemma g_corner n m ci cj : 0 <= n < Nb x -> 0 <= m < Mb x -> 0 <= ci < g2_pum x m -> 0 <= cj < g2_pun x n ->
  (m * (pm x * m_c x) + ci * g2_mx x m) * N + (n * (pn x * n_c x) + cj * g2_nx x n) < 2 ^ 31.
Proof.
  intros Hn Hm Hi Hj.
  destruct g_pos as (P1 & P2 & P3 & P4 & P5 & P6 & P7 & P8 & P9 & P10 & P11 & P12 & P13).
  destruct (dim_blk _ _ _ _ _ _ _ _ _ _ _ m (gf_M _ _ _ _ _ _ _ H) Hm P1) as (B1 & B2 & B3 & B4 & B5 & B6).
  destruct (dim_blk _ _ _ _ _ _ _ _ _ _ _ n (gf_N _ _ _ _ _ _ _ H) Hn P2) as (D1 & D2 & D3 & D4 & D5 & D6).
  destruct (dim_core _ _ _ _ _ _ _ _ _ _ _ m ci (gf_M _ _ _ _ _ _ _ H) Hm Hi) as (E1 & E2 & E3 & E4).
  destruct (dim_core _ _ _ _ _ _ _ _ _ _ _ n cj (gf_N _ _ _ _ _ _ _ H) Hn Hj) as (F1 & F2 & F3 & F4).
  set (r := m * (pm x * m_c x) + ci * g2_mx x m) in *. set (s := n * (pn x * n_c x) + cj * g2_nx x n) in *.
  assert (0 <= r <= Mp) by lia. assert (s <= Np) by lia.
  destruct LO as [L|L].
  - pose proof (prod_bound r N Mp Np ltac:(lia) ltac:(lia)). lia.
  - specialize (L m ci Hm Hi). pose proof (prod_bound r N (Mp - 1) Np ltac:(lia) ltac:(lia)). lia.
Qed.

Lemma g_unpack C c n m core : mr c = m_r -> nr c = n_r ->
  0 <= n < Nb x -> 0 <= m < Mb x -> 0 <= core < g2_pum x m * g2_pun x n -> core < 2 ^ 31 ->
  tsame (fun _ => True)
    (g2_unpack32 S C M N c x n m (g2_n1 x N n) (g2_m1 x M m) (m * pm x * m_c x * N + n * pn x * n_c x) core)
    (g2_unpack S C M N c x n m core).
Proof.
  intros Em En Hn Hm Hc Hc'. unfold g2_unpack32, g2_unpack. rewrite Em, En.
  destruct g_pos as (P1 & P2 & P3 & P4 & P5 & P6 & P7 & P8 & P9 & P10 & P11 & P12 & P13).
  destruct (dim_blk _ _ _ _ _ _ _ _ _ _ _ m (gf_M _ _ _ _ _ _ _ H) Hm P1) as (B1 & B2 & B3 & B4 & B5 & B6).
  destruct (dim_blk _ _ _ _ _ _ _ _ _ _ _ n (gf_N _ _ _ _ _ _ _ H) Hn P2) as (D1 & D2 & D3 & D4 & D5 & D6).
  destruct (core_div core (g2_pun x n) (g2_pum x m) ltac:(lia) Hc) as (Hi & Hj & Hij).
  destruct (qr core (g2_pun x n)) as (Q1 & Q2 & Q3 & Q4 & Q5 & Q6); try lia.
  destruct (g_n1 n Hn) as (_ & N1 & N2). destruct (g_m1 m Hm) as (_ & M1 & M2).
  apply ts_int; [safe; lia|]. apply ts_int; [safe; lia|]. cbn [ival].
  set (ci := Z.quot core (g2_pun x n)) in *. set (cj := Z.rem core (g2_pun x n)) in *.
  pose proof (g_corner n m ci cj Hn Hm Hi Hj) as Co.
  destruct (dim_core _ _ _ _ _ _ _ _ _ _ _ m ci (gf_M _ _ _ _ _ _ _ H) Hm Hi) as (E1 & E2 & E3 & E4).
  destruct (dim_core _ _ _ _ _ _ _ _ _ _ _ n cj (gf_N _ _ _ _ _ _ _ H) Hn Hj) as (F1 & F2 & F3 & F4).
  set (mt := g2_mt x m ci) in *. set (nt := g2_nt x n cj) in *. set (mx := g2_mx x m) in *. set (nx := g2_nx x n) in *.
  pose proof (prod_bound mt nt Mp Np ltac:(lia) ltac:(lia)) as T3.
  pose proof (mul_ge0 (m * (pm x * m_c x)) N ltac:(lia) ltac:(lia)). pose proof (mul_ge0 (ci * mx) N ltac:(lia) ltac:(lia)).
  pose proof (mul_ge0 (m_c x) (n_c x) ltac:(lia) ltac:(lia)).
  rewrite N1, M1.
  apply ts_int; [safe; nia|]. apply ts_int; [safe; lia|]. apply ts_int; [safe; lia|]. cbn [ival].
  eapply ts_bind.
  - apply (unpack_ob_C_32 S) with (Mp := Mp) (Np := Np); auto; try lia.
  - intros _ _. apply ts_int; [safe; lia|]. now apply ts_eq.
Qed.

Lemma g_schedule ar A B C c : mr c = m_r -> nr c = n_r ->
  schedule_KMN_2d32 S ar A B C M N K c x = schedule_KMN_2d S ar A B C M N K c x.
Proof.
  intros Em En.
  destruct g_pos as (P1 & P2 & P3 & P4 & P5 & P6 & P7 & P8 & P9 & P10 & P11 & P12 & P13).
  pose proof (df_P _ _ _ _ _ _ _ _ _ _ _ (gf_N _ _ _ _ _ _ _ H)) as PN. pose proof (nb_le _ _ _ _ PN). pose proof (pt_nb _ _ _ _ PN).
  pose proof (df_P _ _ _ _ _ _ _ _ _ _ _ (gf_M _ _ _ _ _ _ _ H)) as PM. pose proof (pt_nb _ _ _ _ PM).
  pose proof (gf_K _ _ _ _ _ _ _ H) as PK. pose proof (pt_nb _ _ _ _ PK). pose proof (gf_pp _ _ _ _ _ _ _ H).
  assert (E : psame (fun _ => True) (schedule_KMN_2d32 S ar A B C M N K c x)
    (schedule_KMN_2d S ar A B C M N K c x)); [|apply E].
  unfold schedule_KMN_2d32, schedule_KMN_2d.
  apply ps_for_; try lia; [apply divide_1|]. intros n Hn0 Hn1 _. assert (Hn : 0 <= n < Nb x) by lia.
  rewrite En, (g_ncb n Hn). destruct (g_n1 n Hn) as (-> & N1 & N2). cbn [pbind].
  apply ps_snake_; [lia|]. intros m Hm.
  rewrite Em, (g_mcb m Hm). destruct (g_m1 m Hm) as (-> & M1 & M2). cbn [pbind].
  destruct (dim_blk _ _ _ _ _ _ _ _ _ _ _ m (gf_M _ _ _ _ _ _ _ H) Hm P1) as (B1 & B2 & B3 & B4 & B5 & B6).
  destruct (dim_blk _ _ _ _ _ _ _ _ _ _ _ n (gf_N _ _ _ _ _ _ _ H) Hn P2) as (D1 & D2 & D3 & D4 & D5 & D6).
  pose proof (prod_bound (g2_pum x m) (g2_pun x n) (pm x) (pn x) ltac:(lia) ltac:(lia)) as PU.
  pose proof (mul_ge0 (g2_pum x m) (g2_pun x n) ltac:(lia) ltac:(lia)) as PU0.
  apply ps_int; [safe; lia|]. cbn [ival].
  eapply ps_bind with (P := fun _ => True).
  - apply ps_snake_; [lia|]. intros k Hk. destruct (g_K k Hk) as (C1 & C2 & C3).
    pose proof (row_bound (m * (pm x * m_c x)) K (k * k_c x) Mp ltac:(lia) ltac:(lia) ltac:(lia)) as T1.
    pose proof (prod_bound (k * k_c x) N (K - 1) Np ltac:(lia) ltac:(lia)) as T2.
    pose proof (mul_ge0 (m * (pm x * m_c x)) K ltac:(lia) ltac:(lia)). pose proof (mul_ge0 (k * k_c x) N ltac:(lia) ltac:(lia)).
    apply ps_int; [safe; nia|]. apply ps_int; [safe; nia|]. cbn [ival].
    eapply ps_bind with (P := fun _ => True).
    { destruct (_ && _)%bool; [now apply ps_eq|now apply g_packB]. }
    intros _ _. eapply ps_bind with (P := fun _ => True).
    { destruct (_ && _)%bool; [now apply ps_eq|now apply g_packA]. }
    intros _ _. apply ps_par; try lia; [apply divide_1|]. intros core Hc0 Hc1 _. apply g_core; auto; lia.
  - intros _ _.
    pose proof (prod_bound (m * (pm x * m_c x)) N (Mp - 1) Np ltac:(lia) ltac:(lia)) as T1.
    pose proof (mul_ge0 (m * (pm x * m_c x)) N ltac:(lia) ltac:(lia)).
    apply ps_int; [safe; nia|]. cbn [ival].
    apply ps_par; try lia; [apply divide_1|]. intros core Hc0 Hc1 _. apply g_unpack; auto; lia.
Qed.

End G.
