(** * The schedule of cake_sgemm_2d_small in 32-bit arithmetic. *)

From Coq Require Import ZArith List Bool Lia.
From Verif Require Import Lang ModelSizing ModelKernel ModelPack ModelSched ModelTop ModelInt ModelIntGrid
  Sizing_facts Grid2_facts Int_facts IntPack_facts IntTile_facts IntSize_facts IntK_facts IntGrid_facts Small2d_facts.
Open Scope Z_scope.

Section G.
Variable S : scalar.
Variables (M N K p m_r n_r : Z) (x : blk_dims).
Hypothesis HM : 0 < M.
Hypothesis HN : 0 < N.
Hypothesis HK : 0 <= K.
Hypothesis Hp : p < 2 ^ 31.
Hypothesis Hmr : 0 < m_r < 2 ^ 31.
Hypothesis Hnr : 0 < n_r < 2 ^ 31.
Hypothesis H : g2_facts M N K p m_r n_r (as_2d x m_r n_r).
Hypothesis Ep : p = pm x * pn x.
Hypothesis DM : (m_r | M_padded x).
Hypothesis DN : (n_r | N_padded x).
Hypothesis Em0 : truthy (m_pad x) = true.
Hypothesis En0 : truthy (n_pad x) = true.
Hypothesis LM : M_padded x < 2 ^ 31.
Hypothesis LN : N_padded x < 2 ^ 31.
Hypothesis LK : K < 2 ^ 31.
Hypothesis LA : M_padded x * K < 2 ^ 31.
Hypothesis LB : K * N_padded x < 2 ^ 31.
Hypothesis LC : (M_padded x + 1) * N_padded x < 2 ^ 31.
Hypothesis Lmn : m_c x * n_c x < 2 ^ 31.
Hypothesis Lk : k_c x < 2 ^ 31.

Notation Mp := (M_padded x).
Notation Np := (N_padded x).
Notation y := (as_2d x m_r n_r).

Lemma s_facts : 0 < m_c x < 2 ^ 31 /\ 0 < n_c x < 2 ^ 31 /\ 0 < k_c x /\ 1 <= pm x <= p /\ 1 <= pn x <= p /\
  0 <= M <= Mp /\ 0 <= N <= Np /\ Mp * Np < 2 ^ 31 /\ part (Kb x) (k_c x) K (blk_kt x).
Proof.
  pose proof (gf_mc _ _ _ _ _ _ _ H) as G1. pose proof (gf_kc _ _ _ _ _ _ _ H) as G2. pose proof (gf_nc _ _ _ _ _ _ _ H) as G3.
  pose proof (gf_pm _ _ _ _ _ _ _ H) as G4. pose proof (gf_pn _ _ _ _ _ _ _ H) as G5.
  pose proof (df_Dp _ _ _ _ _ _ _ _ _ _ _ (gf_M _ _ _ _ _ _ _ H)) as G6.
  pose proof (df_Dp _ _ _ _ _ _ _ _ _ _ _ (gf_N _ _ _ _ _ _ _ H)) as G7.
  pose proof (gf_K _ _ _ _ _ _ _ H) as G8.
  cbn [as_2d m_c n_c k_c pm pn M_padded N_padded Kb] in G1, G2, G3, G4, G5, G6, G7, G8.
  assert (m_c x <= m_c x * n_c x) by nia. assert (n_c x <= m_c x * n_c x) by nia.
  assert (pm x <= p) by nia. assert (pn x <= p) by nia. 
  split; [lia|split; [lia|split; [lia|split; [lia|split; [lia|split; [lia|split; [lia|split; [lia|]]]]]]]].
  exact G8.
Qed.

Lemma s_core core : 0 <= core < p ->
  let ci := Z.quot core (pn x) in let cj := Z.rem core (pn x) in
  0 <= ci <= core /\ ci < pm x /\ 0 <= cj < pn x /\
  0 <= ci * m_c x /\ 0 <= sm_mt x core <= m_c x /\ ci * m_c x + sm_mt x core <= Mp /\ (m_r | sm_mt x core) /\
  0 <= cj * n_c x /\ 0 <= sm_nt x core <= n_c x /\ cj * n_c x + sm_nt x core <= Np /\ (n_r | sm_nt x core).
Proof.
  intros Hc ci cj. destruct s_facts as (S1 & S2 & S3 & S4 & S5 & S6 & S7 & S8 & _).
  destruct (core_div core (pn x) (pm x) ltac:(lia) ltac:(lia)) as (Hi & Hj & Hij).
  assert (Hm : 0 <= 0 < Mb y) by (cbn; lia). assert (Hn : 0 <= 0 < Nb y) by (cbn; lia).
  destruct (dim_core _ _ _ _ _ _ _ _ _ _ _ 0 ci (gf_M _ _ _ _ _ _ _ H) Hm Hi) as (E1 & E2 & E3 & E4).
  destruct (dim_core _ _ _ _ _ _ _ _ _ _ _ 0 cj (gf_N _ _ _ _ _ _ _ H) Hn Hj) as (F1 & F2 & F3 & F4).
  assert (T1 : g2_mt y 0 ci = sm_mt x core).
  { unfold sm_mt, g2_mt. rewrite Em0, andb_true_r. reflexivity. }
  assert (T2 : g2_nt y 0 cj = sm_nt x core).
  { unfold sm_nt, g2_nt. rewrite En0, andb_true_r. reflexivity. }
  assert (T3 : g2_mcb y m_r 0 = Mp).
  { unfold g2_mcb. cbn. destruct DM as [u ->]. rewrite Z.div_mul by lia. ring. }
  assert (T4 : g2_ncb y n_r 0 = Np).
  { unfold g2_ncb. cbn. destruct DN as [u ->]. rewrite Z.div_mul by lia. ring. }
  assert (T5 : g2_mx y 0 = m_c x) by reflexivity. assert (T6 : g2_nx y 0 = n_c x) by reflexivity.
  rewrite T1, T3, T5 in *. rewrite T2, T4, T6 in *. repeat split; auto; try lia.
Qed.

Lemma s_K k : 0 <= k < Kb x -> 0 < blk_kt x k <= k_c x /\ 0 <= k * k_c x /\ k * k_c x + blk_kt x k <= K.
Proof.
  intros Hk. destruct s_facts as (S1 & S2 & S3 & S4 & S5 & S6 & S7 & S8 & P).
  pose proof (pt_w _ _ _ _ P k Hk). pose proof (part_end _ _ _ _ P k Hk).
  pose proof (mul_ge0 k (k_c x) ltac:(lia) ltac:(lia)). auto.
Qed.

Lemma s_core_32 ar c k core : mr c = m_r -> nr c = n_r -> 0 <= k < Kb x -> 0 <= core < p ->
  tsame (fun _ => True) (sm_core32 S ar N c x k core) (sm_core S ar c x k core).
Proof.
  intros Em En Hk Hc. unfold sm_core32, sm_core. rewrite Em, En.
  destruct s_facts as (S1 & S2 & S3 & S4 & S5 & S6 & S7 & S8 & _).
  destruct (s_core core Hc) as (C1 & C2 & C3 & E1 & E2 & E3 & E4 & F1 & F2 & F3 & F4).
  destruct (qr core (pn x)) as (Q1 & Q2 & Q3 & Q4 & Q5 & Q6); try lia.
  destruct (qr N (n_c x)) as (R1 & R2 & R3 & R4 & R5 & R6); try lia.
  destruct (s_K k Hk) as (K1 & K2 & K3).
  apply ts_int; [safe; lia|]. apply ts_int; [safe; lia|]. cbn [ival].
  set (ci := Z.quot core (pn x)) in *. set (cj := Z.rem core (pn x)) in *. set (kt := blk_kt x k) in *.
  set (mt := sm_mt x core) in *. set (nt := sm_nt x core) in *.
  pose proof (prod_bound (ci * m_c x + mt) kt Mp K ltac:(lia) ltac:(lia)) as T1.
  pose proof (prod_bound kt (cj * n_c x + nt) K Np ltac:(lia) ltac:(lia)) as T2.
  pose proof (prod_bound mt nt Mp Np ltac:(lia) ltac:(lia)) as T3.
  pose proof (mul_ge0 mt kt ltac:(lia) ltac:(lia)). pose proof (mul_ge0 nt kt ltac:(lia) ltac:(lia)).
  pose proof (mul_ge0 (ci * m_c x) kt ltac:(lia) ltac:(lia)). pose proof (mul_ge0 (cj * n_c x) kt ltac:(lia) ltac:(lia)).
  assert (U : forall f t', (forall v, tsame (fun _ : unit => True) (f v) t') -> tsame (fun _ => True)
     (tbind (if ((cj =? pn x - 1) && truthy (n_pad x))%bool then tint (V := elt S) (N - (N rem n_c x))%ix else tint (cj * n_c x)%ix) f) t').
  { intros f t' Hf. destruct (_ && _)%bool; apply ts_int; auto; safe; lia. }
  apply U. intros _.
  apply ts_int; [safe; lia|]. apply ts_int; [safe; lia|]. cbn [ival].
  change (BufCp core, 0) with (padd (BufCp core, 0) 0) at 2.
  change (BufAp 0, ci * m_c x * kt) with (padd (BufAp 0, 0) (ci * m_c x * kt)).
  change (BufBp, cj * n_c x * kt) with (padd (BufBp, 0) (cj * n_c x * kt)).
  apply tile_loops_32; auto; try lia.
  intros. apply (cix_plain mt nt); auto; lia.
Qed.

Lemma s_unpack_32 C c core : mr c = m_r -> nr c = n_r -> 0 <= core < p ->
  tsame (fun _ => True) (sm_unpack32 S C M N c x core) (sm_unpack S C M N c x core).
Proof.
  intros Em En Hc. unfold sm_unpack32, sm_unpack. rewrite Em, En.
  destruct s_facts as (S1 & S2 & S3 & S4 & S5 & S6 & S7 & S8 & _).
  destruct (s_core core Hc) as (C1 & C2 & C3 & E1 & E2 & E3 & E4 & F1 & F2 & F3 & F4).
  destruct (qr core (pn x)) as (Q1 & Q2 & Q3 & Q4 & Q5 & Q6); try lia.
  apply ts_int; [safe; lia|]. apply ts_int; [safe; lia|]. cbn [ival].
  set (ci := Z.quot core (pn x)) in *. set (cj := Z.rem core (pn x)) in *.
  set (mt := sm_mt x core) in *. set (nt := sm_nt x core) in *.
  pose proof (prod_bound (ci * m_c x) N Mp Np ltac:(lia) ltac:(lia)) as T1.
  pose proof (mul_ge0 (ci * m_c x) N ltac:(lia) ltac:(lia)).
  pose proof (prod_bound mt nt Mp Np ltac:(lia) ltac:(lia)) as T3.
  pose proof (mul_ge0 (m_c x) (n_c x) ltac:(lia) ltac:(lia)).
  apply ts_int; [safe; lia|]. apply ts_int; [safe; lia|]. apply ts_int; [safe; lia|]. cbn [ival].
  eapply ts_bind.
  - apply (unpack_ob_C_32 S) with (Mp := Mp) (Np := Np); auto; try lia.
  - intros _ _. apply ts_int; [safe; lia|]. now apply ts_eq.
Qed.

Lemma s_schedule ar A B C c : mr c = m_r -> nr c = n_r ->
  schedule_KMN_2d_small32 S ar A B C M N K p c x = schedule_KMN_2d_small S ar A B C M N K p c x.
Proof.
  intros Em En.
  destruct s_facts as (S1 & S2 & S3 & S4 & S5 & S6 & S7 & S8 & PK).
  pose proof (nb_le _ _ _ _ PK). pose proof (pt_nb _ _ _ _ PK).
  assert (E : psame (fun _ => True) (schedule_KMN_2d_small32 S ar A B C M N K p c x)
    (schedule_KMN_2d_small S ar A B C M N K p c x)); [|apply E].
  unfold schedule_KMN_2d_small32, schedule_KMN_2d_small.
  eapply ps_bind with (P := fun _ => True).
  - apply ps_for_; try lia; [apply divide_1|]. intros k Hk0 Hk1 _. assert (Hk : 0 <= k < Kb x) by lia. cbv zeta.
    destruct (s_K k Hk) as (K1 & K2 & K3). rewrite Em, En.
    eapply ps_bind with (P := fun _ => True); [|intros _ _; eapply ps_bind with (P := fun _ => True); [|intros _ _]].
    + apply ps_par; try lia; [now rewrite Z.sub_0_r|]. intros n2 Hj0 Hj1 _.
      pose proof (prod_bound (k * k_c x) N (K - 1) Np ltac:(lia) ltac:(lia)) as T1.
      pose proof (prod_bound n2 (blk_kt x k) Np K ltac:(lia) ltac:(lia)) as T2.
      pose proof (mul_ge0 (k * k_c x) N ltac:(lia) ltac:(lia)) as T3.
      apply ts_int; [safe; lia|]. apply ts_int; [safe; lia|]. cbn [ival]. now apply ts_eq.
    + apply ps_par; try lia; [now rewrite Z.sub_0_r|]. intros m3 Hj0 Hj1 _.
      pose proof (row_bound m3 K (k * k_c x) Mp ltac:(lia) ltac:(lia) ltac:(lia)) as T1.
      pose proof (prod_bound m3 (blk_kt x k) Mp K ltac:(lia) ltac:(lia)) as T2.
      apply ts_int; [safe; lia|]. apply ts_int; [safe; lia|]. cbn [ival]. now apply ts_eq.
    + apply ps_par; try lia; [apply divide_1|]. intros core Hc0 Hc1 _. apply s_core_32; auto; lia.
  - intros _ _. apply ps_par; try lia; [apply divide_1|]. intros core Hc0 Hc1 _. apply s_unpack_32; auto; lia.
Qed.

End G.
