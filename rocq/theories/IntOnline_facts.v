(** * schedule_KMN_online and cake_sgemm_online in 32-bit arithmetic. *)

From Coq Require Import ZArith List Bool Lia.
From Verif Require Import SpecInt Lang Spec SpecTop ModelSizing ModelKernel ModelPack ModelSched ModelTop ModelInt ModelIntGrid
  Sizing_facts CallAll_facts Int_facts IntPack_facts IntTile_facts IntSize_facts IntK_facts.
Open Scope Z_scope.

Section K.
Variable S : scalar.
Variables (M N K p m_r n_r : Z) (x : blk_dims).
Hypothesis HM : 0 <= M.
Hypothesis HN : 0 <= N.
Hypothesis HK : 0 <= K.
Hypothesis Hp : 0 < p < 2 ^ 31.
Hypothesis Hmr : 0 < m_r < 2 ^ 31.
Hypothesis Hnr : 0 < n_r < 2 ^ 31.
Hypothesis H : kmn_facts M N K p m_r n_r x.
Hypothesis LM : M_padded x < 2 ^ 31.
Hypothesis LN : N_padded x < 2 ^ 31.
Hypothesis LK : K < 2 ^ 31.
Hypothesis LA : M_padded x * K < 2 ^ 31.
Hypothesis LB : K * N_padded x < 2 ^ 31.
Hypothesis LC : M_padded x * N_padded x < 2 ^ 31.
Hypothesis Lpm : p * m_c x < 2 ^ 31.
Hypothesis Lmn : m_c x * n_c x < 2 ^ 31.
Hypothesis Lk : k_c x < 2 ^ 31.
Hypothesis Ln : n_c x < 2 ^ 31.

Notation Mp := (M_padded x).
Notation Np := (N_padded x).

Lemma on_packB_32 B c n k : mr c = m_r -> nr c = n_r -> 0 <= n < Nb x -> 0 <= k < Kb x ->
  psame (fun _ => True) (online_packB32 S B N c x n (blk_n1 x N n) k) (online_packB S B N c x n k).
Proof.
  intros Em En Hn Hk. unfold online_packB32, online_packB. rewrite En.
  destruct (k_Nb M N K p m_r n_r x H n Hn) as (N1 & N2 & N3).
  destruct (k_Kb M N K p m_r n_r x H k Hk) as (C1 & C2).
  pose proof (kf_kc _ _ _ _ _ _ _ H). pose proof (kf_nc _ _ _ _ _ _ _ H). pose proof (kf_Np _ _ _ _ _ _ _ H).
  destruct (kf_n1 _ _ _ _ _ _ _ H n Hn) as [E1 L1].
  set (nt := blk_nt x n) in *. set (kt := blk_kt x k) in *.
  apply ps_par; try lia; [now rewrite Z.sub_0_r|]. intros n2 Hj0 Hj1 _.
  pose proof (mul_ge0 n (n_c x) ltac:(lia) ltac:(lia)). pose proof (mul_ge0 k (k_c x) ltac:(lia) ltac:(lia)).
  pose proof (prod_bound (k * k_c x) N (K - 1) Np ltac:(lia) ltac:(lia)) as B1.
  pose proof (prod_bound n2 kt Np K ltac:(lia) ltac:(lia)) as B2.
  rewrite E1. apply ts_int; [safe; lia|]. apply ts_int; [safe; lia|]. cbn [ival]. now apply ts_eq.
Qed.

Lemma on_core_32 so ar A c n m k reuse core :
  mr c = m_r -> nr c = n_r -> 0 <= n < Nb x -> 0 <= m < Mb x -> 0 <= k < Kb x -> 0 <= core < blk_pu x p m ->
  tsame (fun _ => True) (online_core32 S so ar A K p c x n m k reuse core)
    (online_core S so ar A K p c x n m k reuse core).
Proof.
  intros Em En Hn Hm Hk Hc. unfold online_core32, online_core. rewrite Em, En.
  destruct (k_Mb M N K p m_r n_r x Hp H m Hm) as (B1 & B2 & B3 & B4 & B5).
  destruct (k_core M N K p m_r n_r x H m core Hm Hc) as (D1 & D2 & D3).
  destruct (k_Nb M N K p m_r n_r x H n Hn) as (N1 & N2 & N3).
  destruct (k_Kb M N K p m_r n_r x H k Hk) as (C1 & C2).
  pose proof (kf_mc _ _ _ _ _ _ _ H). pose proof (kf_kc _ _ _ _ _ _ _ H).
  pose proof (kf_mx _ _ _ _ _ _ _ H m Hm). pose proof (kf_nc _ _ _ _ _ _ _ H).
  set (W := blk_mcb x p m_r m) in *. set (mx := core_mx x m) in *. set (mt := core_mt x m core) in *.
  set (nt := blk_nt x n) in *. set (kt := blk_kt x k) in *.
  pose proof (mul_ge0 p (m_c x) ltac:(lia) ltac:(lia)). pose proof (mul_ge0 m (p * m_c x) ltac:(lia) ltac:(lia)).
  pose proof (mul_ge0 core mx ltac:(lia) ltac:(lia)). pose proof (mul_ge0 n (n_c x) ltac:(lia) ltac:(lia)).
  pose proof (mul_ge0 k (k_c x) ltac:(lia) ltac:(lia)).
  pose proof (row_bound (m * (p * m_c x)) K (k * k_c x) Mp ltac:(lia) ltac:(lia) ltac:(lia)) as BK.
  apply ts_int; [safe; lia|]. cbn [ival].
  eapply ts_bind with (P := fun _ => True); [now apply ts_eq|]. intros _ _.
  eapply ts_bind with (P := fun _ => True).
  - destruct reuse; [now apply ts_eq|].
    apply ts_for_; try lia; [now rewrite Z.sub_0_r|]. intros m3 Hj0 Hj1 _.
    pose proof (row_bound (m * (p * m_c x) + core * mx + m3) K (k * k_c x) Mp ltac:(lia) ltac:(lia) ltac:(lia)) as T1.
    pose proof (prod_bound m3 kt Mp K ltac:(lia) ltac:(lia)) as T2.
    apply ts_int; [safe; lia|]. apply ts_int; [safe; lia|]. cbn [ival]. now apply ts_eq.
  - intros _ _.
    pose proof (prod_bound mt nt Mp Np ltac:(lia) ltac:(lia)) as BC.
    pose proof (prod_bound mt kt Mp K ltac:(lia) ltac:(lia)) as T1.
    pose proof (prod_bound kt nt K Np ltac:(lia) ltac:(lia)) as T2.
    change (BufAp core, 0) with (padd (BufAp core, 0) 0) at 2.
    change (BufBp, 0) with (padd (BufBp, 0) 0) at 2.
    change (BufCp core, 0) with (padd (BufCp core, 0) 0) at 2.
    apply tile_loops_32; auto; try lia.
    intros. apply (cix_plain mt nt); auto; lia.
Qed.

Lemma on_schedule_32 so ar A B C c : mr c = m_r -> nr c = n_r ->
  schedule_KMN_online32 S so ar A B C M N K p c x = schedule_KMN_online S so ar A B C M N K p c x.
Proof.
  intros Em En.
  pose proof (kf_N _ _ _ _ _ _ _ H) as PN. pose proof (nb_le _ _ _ _ PN). pose proof (pt_nb _ _ _ _ PN).
  pose proof (kf_M _ _ _ _ _ _ _ H) as PM. pose proof (pt_nb _ _ _ _ PM).
  pose proof (kf_K _ _ _ _ _ _ _ H) as PK. pose proof (pt_nb _ _ _ _ PK).
  assert (E : psame (fun _ => True) (schedule_KMN_online32 S so ar A B C M N K p c x)
    (schedule_KMN_online S so ar A B C M N K p c x)); [|apply E].
  unfold schedule_KMN_online32, schedule_KMN_online.
  apply ps_for_; try lia; [apply divide_1|]. intros n Hn0 Hn1 _. assert (Hn : 0 <= n < Nb x) by lia.
  assert (G1 : blk_n1_32 (pint (V := S)) x N n = PRet (blk_n1 x N n)) by (apply (n1_32 S M N K p m_r n_r x); auto; lia). rewrite G1. cbn [pbind].
  apply ps_snake_; [lia|]. intros m Hm.
  destruct (k_Mb M N K p m_r n_r x Hp H m Hm) as (B1 & B2 & B3 & B4 & B5).
  destruct (k_Nb M N K p m_r n_r x H n Hn) as (N1 & N2 & N3).
  pose proof (kf_mc _ _ _ _ _ _ _ H). pose proof (kf_nc _ _ _ _ _ _ _ H).
  pose proof (kf_Mp _ _ _ _ _ _ _ H). pose proof (kf_Np _ _ _ _ _ _ _ H).
  destruct (kf_n1 _ _ _ _ _ _ _ H n Hn) as [E1 L1]. destruct (kf_m1 _ _ _ _ _ _ _ H m Hm) as [E2 L2].
  rewrite Em. assert (G2 : blk_mcb32 S x p m_r m = PRet (blk_mcb x p m_r m)) by (apply (mcb_32 S M N K p m_r n_r x); auto; lia). rewrite G2.
  rewrite (m1_32 S M N K p m_r n_r x) by (auto; lia). cbn [pbind].
  eapply ps_bind.
  - apply ps_snake_; [lia|]. intros k Hk.
    eapply ps_bind with (P := fun _ => True).
    + destruct (_ && _)%bool; [now apply ps_eq|now apply on_packB_32].
    + intros _ _. apply ps_par; try lia; [apply divide_1|]. intros core Hc0 Hc1 _. apply on_core_32; auto; lia.
  - intros _ _. apply ps_int.
    { pose proof (mul_ge0 n (n_c x) ltac:(lia) ltac:(lia)). pose proof (mul_ge0 m (p * m_c x) ltac:(lia) ltac:(lia)).
      pose proof (prod_bound (m * (p * m_c x)) N (Mp - 1) Np ltac:(lia) ltac:(lia)). safe; lia. }
    cbn [ival]. apply ps_par; try lia; [apply divide_1|]. intros core Hc0 Hc1 _.
    apply (unpack_32 S M N K p m_r n_r x); auto; lia.
Qed.

End K.
