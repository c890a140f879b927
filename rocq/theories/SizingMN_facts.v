(** * Block sizes of the M-first and N-first schedules. *)

From Coq Require Import ZArith List Bool Lia.
From Verif Require Import ModelSizing ModelPack ModelSched Sizing_facts.
Import ListNotations.
Open Scope Z_scope.

(** Facts shared by the two schedules.  [tM] is the height of a block of rows (m_c or
    p*m_c) and [mt] the height of each one. *)
Record bf (M N K p m_r n_r tM : Z) (mt : Z -> Z) (x : blk_dims) : Prop := BF {
  bf_tM : 0 < tM; bf_kc : 0 < k_c x; bf_nc : 0 < n_c x;
  bf_M : part (Mb x) tM (M_padded x) mt;
  bf_N : part (Nb x) (n_c x) (N_padded x) (blk_nt x);
  bf_K : part (Kb x) (p * k_c x) K (blk_kcb x p);
  bf_C : forall k, 0 <= k < Kb x -> part (blk_pk x p k) (core_kx x k) (blk_kcb x p k) (core_kt x k);
  bf_mr : forall m, 0 <= m < Mb x -> (m_r | mt m);
  bf_nr : forall n, 0 <= n < Nb x -> (n_r | blk_nt x n);
  bf_mcd : (m_r | tM); bf_ncd : (n_r | n_c x);
  bf_n1 : forall n, 0 <= n < Nb x -> blk_n1 x N n = n * n_c x /\ n * n_c x < N;
  bf_m1 : forall m, 0 <= m < Mb x -> m * tM < M;
  bf_ml : forall m, 0 <= m < Mb x -> is_last m (Mb x) (m_pad x) = true -> m * tM = M - Z.rem M tM;
  bf_mf : forall m, 0 <= m < Mb x -> is_last m (Mb x) (m_pad x) = false -> mt m = tM /\ (m + 1) * tM <= M;
  bf_nf : forall n, 0 <= n < Nb x -> is_last n (Nb x) (n_pad x) = false -> blk_nt x n = n_c x /\ (n + 1) * n_c x <= N;
  bf_Mp : M <= M_padded x < M + m_r; bf_Np : N <= N_padded x < N + n_r;
  bf_Npd : (n_r | N_padded x);
  bf_kpad : k_pad x = pad01 (Z.rem K (p * k_c x));
  bf_mpad : m_pad x = pad01 (Z.rem M tM); bf_npad : n_pad x = pad01 (Z.rem N (n_c x));
  bf_pk : forall k, 0 <= k < Kb x -> 1 <= blk_pk x p k <= p }.

Section Dims.

Variables (M N K p mc kc nc m_r n_r tM : Z).
Hypothesis HM : 0 <= M.
Hypothesis HN : 0 <= N.
Hypothesis HK : 0 <= K.
Hypothesis Hp : 0 < p.
Hypothesis HtM : 0 < tM.
Hypothesis Hkc : 0 < kc.
Hypothesis Hnc : 0 < nc.
Hypothesis Hmr : 0 < m_r.
Hypothesis Hnr : 0 < n_r.
Hypothesis Dm : (m_r | tM).
Hypothesis Dn : (n_r | nc).

Let mrm := Z.rem M tM.
Let nrm := Z.rem N nc.
Let kr := Z.rem K (p * kc).
Let kc1 := cdiv kr p.
Let pl := if truthy kc1 then cdiv kr kc1 else 0.

Lemma bf_intro (x : blk_dims) (mt : Z -> Z) :
  n_c x = nc -> k_c x = kc ->
  m_c1 x = cdiv mrm m_r * m_r -> n_c1 x = cdiv nrm n_r * n_r -> k_c1 x = kc1 -> p_l x = pl ->
  k_c1_last_core x = kr - kc1 * (pl - 1) -> k_rem x = kr ->
  m_pad x = pad01 mrm -> n_pad x = pad01 nrm -> k_pad x = pad01 kr ->
  Mb x = Z.quot M tM + pad01 mrm -> Nb x = Z.quot N nc + pad01 nrm -> Kb x = Z.quot K (p * kc) + pad01 kr ->
  M_padded x = Z.quot M tM * tM + m_c1 x -> N_padded x = N - nrm + n_c1 x ->
  (forall m, mt m = if is_last m (Mb x) (m_pad x) then m_c1 x else tM) ->
  bf M N K p m_r n_r tM mt x.
Proof.
  intros Enc Ekc Em1 En1 Ek1 Epl Ekl Ekr Emp Enp Ekp EMb ENb EKb EMP ENP Emt.
  assert (Hpk : 0 < p * kc) by nia.
  pose proof (Z.rem_bound_pos M tM HM HtM) as Bm. fold mrm in Bm.
  pose proof (Z.rem_bound_pos N nc HN Hnc) as Bn. fold nrm in Bn.
  pose proof (Z.rem_bound_pos K (p * kc) HK Hpk) as Bk. fold kr in Bk.
  pose proof (Z.quot_rem M tM ltac:(lia)) as QM. fold mrm in QM.
  pose proof (Z.quot_rem N nc ltac:(lia)) as QN. fold nrm in QN.
  pose proof (Z.quot_rem K (p * kc) ltac:(lia)) as QK. fold kr in QK.
  assert (Bnr : nrm <= n_c1 x <= nc /\ n_c1 x < nrm + n_r /\ (n_r | n_c1 x)).
  { rewrite En1. destruct Dn as [u Eu]. pose proof (cdiv_spec nrm n_r Hnr) as C.
    assert (cdiv nrm n_r <= u) by nia. repeat split; try nia. apply Z.divide_factor_r. }
  assert (Bmr : mrm <= m_c1 x <= tM /\ m_c1 x < mrm + m_r /\ (m_r | m_c1 x)).
  { rewrite Em1. destruct Dm as [u Eu]. pose proof (cdiv_spec mrm m_r Hmr) as C.
    assert (cdiv mrm m_r <= u) by nia. repeat split; try nia. apply Z.divide_factor_r. }
  assert (Bn0 : nrm = 0 -> n_c1 x = 0) by (intros E; rewrite En1, E, cdiv_0; lia).
  assert (Bm0 : mrm = 0 -> m_c1 x = 0) by (intros E; rewrite Em1, E, cdiv_0; lia).
  assert (Lm : 0 < m_c1 x <= tM \/ Z.rem M tM = 0) by (fold mrm; lia).
  assert (Ln : 0 < n_c1 x <= nc \/ Z.rem N nc = 0) by (fold nrm; lia).
  assert (Lk : 0 < kr <= p * kc \/ Z.rem K (p * kc) = 0) by (fold kr; lia).
  destruct (part_quot M tM (m_c1 x) HM HtM Lm) as (PM & PM1 & PM2 & PM3 & PM4 & PM5).
  destruct (part_quot N nc (n_c1 x) HN Hnc Ln) as (PN & PN1 & PN2 & PN3 & PN4 & PN5).
  destruct (part_quot K (p * kc) kr HK Hpk Lk) as (PK & PK1 & PK2 & PK3 & PK4 & PK5).
  fold mrm in PM, PM1, PM2, PM3, PM4, PM5. fold nrm in PN, PN1, PN2, PN3, PN4, PN5.
  fold kr in PK, PK1, PK2, PK3, PK4, PK5. cbv zeta in *.
  rewrite <- EMb in PM, PM1, PM2, PM5. rewrite <- Emp in PM, PM2, PM3, PM4, PM5.
  rewrite <- ENb in PN, PN1, PN2, PN5. rewrite <- Enp in PN, PN2, PN3, PN4, PN5.
  rewrite <- EKb in PK, PK1, PK2, PK5. rewrite <- Ekp in PK, PK2, PK3, PK4, PK5.
  constructor; rewrite ?Enc, ?Ekc; auto.
  - eapply part_ext; [| | |exact PM]; auto.
    rewrite EMP. destruct (Z.eq_dec mrm 0) as [E|E].
    + rewrite PM3 by auto. cbn. rewrite (Bm0 E). lia.
    + rewrite PM4 by auto. cbn. lia.
  - eapply part_ext; [| | |exact PN]; auto.
    + intros b Hb. unfold blk_nt. now rewrite Enc.
    + rewrite ENP. destruct (Z.eq_dec nrm 0) as [E|E].
      * rewrite PN3 by auto. cbn. rewrite (Bn0 E). lia.
      * rewrite PN4 by auto. cbn. lia.
  - eapply part_ext; [| | |exact PK]; auto.
    + intros b Hb. unfold blk_kcb. now rewrite Ekr, Ekc.
    + destruct (Z.eq_dec kr 0) as [E|E].
      * now rewrite PK3 by auto.
      * rewrite PK4 by auto. cbn. lia.
  - intros k Hk. unfold blk_pk, core_kx, blk_kcb, core_kt.
    destruct (is_last k (Kb x) (k_pad x)) eqn:El.
    + destruct (PK2 k Hk El) as (_ & H0). rewrite Epl, Ek1, Ekr, Ekl.
      assert (Hc0 : 0 < kc1) by (apply cdiv_pos; lia).
      unfold pl, truthy. destruct (Z.eqb_spec kc1 0) as [?|_]; [lia|]. cbn [negb].
      eapply part_ext; [| | |apply (part_ceil kr kc1 H0 Hc0)]; auto.
      intros b Hb. cbv beta. destruct (Z.eqb_spec b (cdiv kr kc1 - 1)); [ring|auto].
    + rewrite Ekc. apply part_const; lia.
  - intros m Hm. rewrite Emt. destruct (is_last m (Mb x) (m_pad x)); [apply Bmr|auto].
  - intros n Hn. unfold blk_nt. rewrite Enc. destruct (is_last n (Nb x) (n_pad x)); [apply Bnr|auto].
  - intros n Hn. unfold blk_n1. rewrite Enc. fold nrm. split; [|auto].
    destruct (is_last n (Nb x) (n_pad x)) eqn:El; auto. destruct (PN2 n Hn El). lia.
  - intros m Hm El. destruct (PM2 m Hm El). fold mrm. lia.
  - intros m Hm El. rewrite Emt, El. split; auto.
  - intros n Hn El. unfold blk_nt. rewrite El, Enc. split; auto.
  - rewrite EMP. lia.
  - rewrite ENP. lia.
  - rewrite ENP. replace (N - nrm + n_c1 x) with (nc * Z.quot N nc + n_c1 x) by lia.
    apply Z.divide_add_r; [apply Z.divide_mul_l; auto|apply Bnr].
  - intros k Hk. unfold blk_pk. destruct (is_last k (Kb x) (k_pad x)) eqn:El; [|lia].
    destruct (PK2 k Hk El) as (_ & H0). rewrite Epl.
    assert (Hc0 : 0 < kc1) by (apply cdiv_pos; lia).
    unfold pl, truthy. destruct (Z.eqb_spec kc1 0) as [?|_]; [lia|]. cbn [negb].
    pose proof (cdiv_spec kr p Hp) as C1. fold kc1 in C1. pose proof (cdiv_spec kr kc1 Hc0) as C2.
    pose proof (cdiv_pos kr kc1 H0 Hc0). nia.
Qed.

End Dims.

Section MKN.
Variables (M N K p mc kc nc m_r n_r : Z).
Hypothesis HM : 0 <= M.
Hypothesis HN : 0 <= N.
Hypothesis HK : 0 <= K.
Hypothesis Hp : 0 < p.
Hypothesis Hmc : 0 < mc.
Hypothesis Hkc : 0 < kc.
Hypothesis Hnc : 0 < nc.
Hypothesis Hmr : 0 < m_r.
Hypothesis Hnr : 0 < n_r.
Hypothesis Dm : (m_r | mc).
Hypothesis Dn : (n_r | nc).

Lemma pl_comp kr : 0 <= kr -> 
  (if truthy (cdiv kr p) then iceil kr (cdiv kr p) else CRet 0)
  = CRet (if truthy (cdiv kr p) then cdiv kr (cdiv kr p) else 0).
Proof.
  intros H. unfold truthy. destruct (Z.eqb_spec (cdiv kr p) 0); cbn [negb]; auto.
  unfold iceil. destruct (Z.eqb_spec (cdiv kr p) 0); [contradiction|reflexivity].
Qed.

Lemma dims_MKN_facts :
  exists x, dims_MKN M N K p mc kc nc m_r n_r = CRet x /\
    bf M N K p m_r n_r mc (mf_mt x) x /\ m_c x = mc /\ k_c x = kc /\ n_c x = nc /\ sch x = MKN /\
    packed_A_size M K p x m_r MKN = CRet (M_padded x * K) /\
    packed_B_size K N x n_r = CRet (K * N_padded x) /\
    packed_C_size M N p x m_r n_r MKN = CRet (M_padded x * N_padded x).
Proof.
  unfold dims_MKN. assert (Hpk : 0 < p * kc) by nia.
  rewrite !imod_pos, !idiv_pos by lia. cbn [cbind].
  rewrite !(iceil_pos _ m_r), !(iceil_pos _ n_r) by lia. rewrite (iceil_pos _ p) by lia. cbn [cbind].
  pose proof (Z.rem_bound_pos K (p * kc) HK Hpk) as Bk.
  rewrite pl_comp by lia. cbn [cbind].
  eexists. split; [reflexivity|].
  split; [|split; [reflexivity|split; [reflexivity|split; [reflexivity|split; [reflexivity|]]]]].
  - eapply (bf_intro M N K p kc nc m_r n_r mc HM HN HK Hp Hmc Hkc Hnc Hmr Hnr Dm Dn); cbn; try reflexivity.
  - unfold packed_A_size, packed_B_size, packed_C_size. cbn [m_c n_c M_padded N_padded].
    rewrite !imod_pos, !idiv_pos by lia. cbn [cbind]. rewrite !iceil_pos by lia. cbn [cbind]. auto.
Qed.

Lemma dims_NKM_facts :
  exists x, dims_NKM M N K p mc kc nc m_r n_r = CRet x /\
    bf M N K p m_r n_r (p * mc) (nf_mt x p) x /\ m_c x = mc /\ k_c x = kc /\ n_c x = nc /\ sch x = NKM /\
    packed_A_size M K p x m_r NKM = CRet (M_padded x * K) /\
    packed_B_size K N x n_r = CRet (K * N_padded x) /\
    packed_C_size M N p x m_r n_r NKM = CRet (M_padded x * N_padded x).
Proof.
  unfold dims_NKM. assert (Hpk : 0 < p * kc) by nia. assert (Hpm : 0 < p * mc) by nia.
  rewrite !imod_pos, !idiv_pos by lia. cbn [cbind].
  rewrite !(iceil_pos _ m_r), !(iceil_pos _ n_r) by lia. rewrite (iceil_pos _ p) by lia. cbn [cbind].
  pose proof (Z.rem_bound_pos K (p * kc) HK Hpk) as Bk.
  rewrite pl_comp by lia. cbn [cbind].
  eexists. split; [reflexivity|].
  split; [|split; [reflexivity|split; [reflexivity|split; [reflexivity|split; [reflexivity|]]]]].
  - eapply (bf_intro M N K p kc nc m_r n_r (p * mc) HM HN HK Hp Hpm Hkc Hnc Hmr Hnr (Z.divide_mul_r _ _ _ Dm) Dn);
      cbn; try reflexivity.
  - unfold packed_A_size, packed_B_size, packed_C_size. cbn [m_c n_c M_padded N_padded].
    rewrite !imod_pos, !idiv_pos by lia. cbn [cbind]. rewrite !iceil_pos by lia. cbn [cbind].
    repeat split; auto; do 2 f_equal; ring.
Qed.

End MKN.
