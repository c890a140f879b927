(** * The K-first schedule on a two-dimensional grid of cores. *)

From Coq Require Import ZArith List Bool Lia Permutation.
From Verif Require Import Lang Lang_facts Spec ModelSizing ModelKernel ModelPack ModelSched
     Kernel_facts Tile_facts Loop_facts Pack_facts Unpack_facts Sizing_facts PackMat_facts
     Order_facts Cphase_facts SchedK_facts PackBlis_facts Reuse_facts Grid2_facts.
Import ListNotations.
Open Scope Z_scope.

Lemma panels_slice {V} (m : mem V) b base r nq kd f s nq' : 0 < r -> 0 <= s -> s + nq' <= nq ->
  panels m b base r nq kd f -> panels m b (base + s * r * kd) r nq' kd (fun i kk => f (s * r + i) kk).
Proof.
  intros Hr Hs Hn H q i kk Hq Hi Hk. specialize (H (s + q) i kk ltac:(lia) Hi Hk).
  replace (base + s * r * kd + q * r * kd + kk * r + i) with (base + (s + q) * r * kd + kk * r + i) by ring.
  rewrite H. do 2 f_equal. ring.
Qed.

Section G2.

Variable S : scalar.
Notation T := (elt S).
Variables (M N K p : Z) (x : blk_dims) (ar : arch) (c : cntx).
Hypothesis F : g2_facts M N K p (mr c) (nr c) x.
Hypothesis HN0 : 0 <= N.
Hypothesis HK0 : 0 <= K.
Hypothesis Hmr : 0 < mr c.
Hypothesis Hnr : 0 < nr c.
Hypothesis Hkern : kern_is S ar (cake_sgemm_ukernel S ar) (mr c) (nr c).
Hypothesis Hln : 0 < lanes ar.
Hypothesis Hlk : (nr c) mod lanes ar = 0.
Variables (fA fB : Z -> Z -> T) (mm : mem T) (ba bi bpa bpk bc : binfo).
Hypothesis HLa : live mm BufA = Some ba.
Hypothesis HLb : live mm BufB = Some bi.
Hypothesis HA : forall i k, 0 <= i < M_padded x -> 0 <= k < K ->
  dat mm BufA (i * K + k) = Some (fA i k) /\ i * K + k < blen ba.
Hypothesis HB : forall k j, 0 <= k < K -> 0 <= j < N_padded x ->
  dat mm BufB (k * N + j) = Some (fB k j) /\ k * N + j < blen bi.
Hypothesis HLap : live mm (BufAp 0) = Some bpa.
Hypothesis Hbpa : forall m, 0 <= m < Mb x -> g2_mcb x (mr c) m * k_c x <= blen bpa.
Hypothesis HLbp : live mm BufBp = Some bpk.
Hypothesis Hbpk : forall n, 0 <= n < Nb x -> g2_ncb x (nr c) n * k_c x <= blen bpk.
Hypothesis Hal : lanes ar = 1 \/ b64 bpk = true.
Hypothesis HLc : live mm BufC = Some bc.
Hypothesis Hbc : M * N <= blen bc.
Hypothesis HLcp : forall i, 0 <= i < p -> exists bk, live mm (BufCp i) = Some bk /\ m_c x * n_c x <= blen bk.

Let FM := gf_M _ _ _ _ _ _ _ F.
Let FN := gf_N _ _ _ _ _ _ _ F.
Let PK := gf_K _ _ _ _ _ _ _ F.
Let PM := df_P _ _ _ _ _ _ _ _ _ _ _ FM.
Let PN := df_P _ _ _ _ _ _ _ _ _ _ _ FN.
Let Hmc := gf_mc _ _ _ _ _ _ _ F.
Let Hkc := gf_kc _ _ _ _ _ _ _ F.
Let Hnc := gf_nc _ _ _ _ _ _ _ F.
Let Hpm := gf_pm _ _ _ _ _ _ _ F.
Let Hpn := gf_pn _ _ _ _ _ _ _ F.
Let Hpp := gf_pp _ _ _ _ _ _ _ F.

Definition gwrites : region := fun b i => cwrites M N p b i \/ b = BufAp 0 \/ b = BufBp.

Definition g2_ord (i j : Z) : list Z :=
  kord (k_c x) (blk_kt x) (inner_rev (j / (pn x * n_c x)) (i / (pm x * m_c x))) (Kb x) (Kb x).

Lemma g2_ord_perm i j : Permutation (g2_ord i j) (zrange 0 K).
Proof. apply kord_perm. exact PK. Qed.

Definition g2_val (i j : Z) : T := dot S (fA i) (fun k => fB k j) (g2_ord i j) (zero S).

Definition gA (m k : Z) (m' : mem T) : Prop :=
  panels m' (BufAp 0) 0 (mr c) (g2_mcb x (mr c) m / mr c) (blk_kt x k)
    (fun row kk => fA (m * (pm x * m_c x) + row) (k * k_c x + kk)).
Definition gB (n k : Z) (m' : mem T) : Prop :=
  panels m' BufBp 0 (nr c) (g2_ncb x (nr c) n / nr c) (blk_kt x k)
    (fun col kk => fB (k * k_c x + kk) (n * (pn x * n_c x) + col)).
Definition gBase (m' : mem T) : Prop := live m' = live mm /\ same_out gwrites mm m'.

Definition ci n core := Z.quot core (g2_pun x n).
Definition cj n core := Z.rem core (g2_pun x n).
Definition gr0 n m core := m * (pm x * m_c x) + ci n core * g2_mx x m.
Definition gc0 n core := n * (pn x * n_c x) + cj n core * g2_nx x n.
Definition gmt n m core := g2_mt x m (ci n core).
Definition gnt n core := g2_nt x n (cj n core).
Definition gval (n m core j row col : Z) : T :=
  dot S (fA (gr0 n m core + row)) (fun k => fB k (gc0 n core + col))
    (kord (k_c x) (blk_kt x) (inner_rev n m) (Kb x) j) (zero S).
Definition gp n m := g2_pum x m * g2_pun x n.
Definition gAcc (n m j : Z) (m' : mem T) : Prop :=
  (forall core, 0 <= core < gp n m ->
     ctiles m' (BufCp core) 0 (mr c) (nr c) (gmt n m core / mr c) (gnt n core / nr c) (gval n m core j)) /\
  (forall core i, gp n m <= core < p -> 0 <= i < m_c x * n_c x -> dat m' (BufCp core) i = Some (zero S)).

Lemma gp_le n m : 0 <= n < Nb x -> 0 <= m < Mb x -> 0 <= gp n m <= p.
Proof.
  intros Hn Hm. unfold gp. pose proof (df_pu _ _ _ _ _ _ _ _ _ _ _ FM m Hm). pose proof (df_pu _ _ _ _ _ _ _ _ _ _ _ FN n Hn).
  split; [nia|]. transitivity (pm x * pn x); [apply Z.mul_le_mono_nonneg; lia|auto].
Qed.

Lemma core_ij n m core : 0 <= n < Nb x -> 0 <= m < Mb x -> 0 <= core < gp n m ->
  0 <= ci n core < g2_pum x m /\ 0 <= cj n core < g2_pun x n /\ core = ci n core * g2_pun x n + cj n core.
Proof.
  intros Hn Hm Hc. unfold gp in Hc. pose proof (df_pu _ _ _ _ _ _ _ _ _ _ _ FN n Hn) as Hp'.
  pose proof (Z.quot_rem core (g2_pun x n) ltac:(lia)) as Q. fold (ci n core) in Q. fold (cj n core) in Q.
  pose proof (Z.rem_bound_pos core (g2_pun x n) ltac:(lia) ltac:(lia)) as B. fold (cj n core) in B.
  assert (0 <= ci n core) by (apply Z.quot_pos; lia). split; [|split; [auto|lia]]. split; [auto|nia].
Qed.

(** everything about one core of one block *)
Record cf (n m core : Z) : Prop := CF {
  cf_mt : 0 <= gmt n m core <= m_c x; cf_nt : 0 <= gnt n core <= n_c x;
  cf_dm : (mr c | gmt n m core); cf_dn : (nr c | gnt n core);
  cf_sz : gmt n m core * gnt n core <= m_c x * n_c x;
  cf_me : ci n core * g2_mx x m + gmt n m core <= g2_mcb x (mr c) m;
  cf_ne : cj n core * g2_nx x n + gnt n core <= g2_ncb x (nr c) n;
  cf_i0 : 0 <= ci n core * g2_mx x m; cf_j0 : 0 <= cj n core * g2_nx x n;
  cf_xm : (mr c | g2_mx x m); cf_xn : (nr c | g2_nx x n) }.

Lemma cf_of n m core : 0 <= n < Nb x -> 0 <= m < Mb x -> 0 <= core < gp n m -> cf n m core.
Proof.
  intros Hn Hm Hc. destruct (core_ij n m core Hn Hm Hc) as (Hi & Hj & _).
  pose proof (df_C _ _ _ _ _ _ _ _ _ _ _ FM m Hm) as CM. pose proof (df_C _ _ _ _ _ _ _ _ _ _ _ FN n Hn) as CN.
  pose proof (df_mx _ _ _ _ _ _ _ _ _ _ _ FM m Hm) as XM. pose proof (df_mx _ _ _ _ _ _ _ _ _ _ _ FN n Hn) as XN.
  pose proof (pz_w _ _ _ _ CM _ Hi) as WM. pose proof (pz_w _ _ _ _ CN _ Hj) as WN.
  fold (gmt n m core) in WM. fold (gnt n core) in WN.
  constructor; auto; try lia.
  - apply (df_r _ _ _ _ _ _ _ _ _ _ _ FM m _ Hm Hi).
  - apply (df_r _ _ _ _ _ _ _ _ _ _ _ FN n _ Hn Hj).
  - apply Z.mul_le_mono_nonneg; lia.
  - apply (pz_end _ _ _ _ _ CM Hi).
  - apply (pz_end _ _ _ _ _ CN Hj).
  - apply (df_xr _ _ _ _ _ _ _ _ _ _ _ FM m Hm).
  - apply (df_xr _ _ _ _ _ _ _ _ _ _ _ FN n Hn).
Qed.

Lemma gA_ok m' i k : gBase m' -> 0 <= i < M_padded x -> 0 <= k < K ->
  src_ok S m' (fun b _ => b = BufA) false BufA (i * K + k) (fA i k).
Proof.
  intros (HL & HF) Hi Hk. destruct (HA i k Hi Hk) as (E & Hb).
  split; [auto|split].
  - rewrite HF; auto. intros [[(E1 & _)|(? & E1 & _)]|[E1|E1]]; discriminate.
  - exists ba. rewrite HL. split; [auto|]. split; [|auto]. nn.
Qed.
Lemma gB_ok m' k j : gBase m' -> 0 <= k < K -> 0 <= j < N_padded x ->
  src_ok S m' (fun b _ => b = BufB) false BufB (k * N + j) (fB k j).
Proof.
  intros (HL & HF) Hi Hk. destruct (HB k j Hi Hk) as (E & Hb).
  split; [auto|split].
  - rewrite HF; auto. intros [[(E1 & _)|(? & E1 & _)]|[E1|E1]]; discriminate.
  - exists bi. rewrite HL. split; [auto|]. split; [|auto]. nn.
Qed.

Lemma g2_packB_spec n k m' : 0 <= n < Nb x -> 0 <= k < Kb x -> gBase m' ->
  pok (g2_packB S (BufB, 0) N c x n k) m' (fun _ m'' =>
     live m'' = live m' /\ same_out (fun b _ => b = BufBp) m' m'' /\ gB n k m'').
Proof.
  intros Hn Hk HBs.
  pose proof (df_br _ _ _ _ _ _ _ _ _ _ _ FN n Hn) as Dn. pose proof (div_exact_of _ _ Hnr Dn) as En.
  pose proof (pt_w _ _ _ _ PN n Hn) as Hnt. pose proof (pt_w _ _ _ _ PK k Hk) as Hkt.
  pose proof (part_end _ _ _ _ PN n Hn) as Hne. pose proof (part_end _ _ _ _ PK k Hk) as Hke.
  unfold g2_packB. cbv zeta. rewrite En at 1.
  assert (Hnn : 0 <= g2_ncb x (nr c) n / nr c) by (apply Z.div_pos; lia).
  eapply pok_mono.
  - eapply (par_packB_panels S _ BufB BufBp (n * pn x * n_c x + k * k_c x * N) 0 N (blk_kt x k) (nr c) (g2_ncb x (nr c) n / nr c)
      (fun kk col => fB (k * k_c x + kk) (n * (pn x * n_c x) + col)) bpk m'); try lia; try easy.
    + destruct HBs as (HL & _). now rewrite HL.
    + rewrite <- En. specialize (Hbpk n Hn). assert (g2_ncb x (nr c) n * blk_kt x k <= g2_ncb x (nr c) n * k_c x) by (apply Z.mul_le_mono_nonneg; lia). lia.
    + intros kk col Hc Hkk. rewrite <- En in Hc.
      replace (n * pn x * n_c x + k * k_c x * N + (kk * N + col)) with ((k * k_c x + kk) * N + (n * (pn x * n_c x) + col)) by ring.
      assert (0 <= k * k_c x) by nn. assert (0 <= n * (pn x * n_c x)) by nn.
      apply gB_ok; auto; lia.
  - cbn. intros _ m2 (HL2 & HF2 & HP2). split; [auto|split; [|auto]].
    intros b i Hb. apply HF2. intros (-> & _). auto.
Qed.

Lemma g2_packA_spec m k m' : 0 <= m < Mb x -> 0 <= k < Kb x -> gBase m' ->
  pok (g2_packA S (BufA, 0) K c x m k) m' (fun _ m'' =>
     live m'' = live m' /\ same_out (fun b _ => b = BufAp 0) m' m'' /\ gA m k m'').
Proof.
  intros Hm Hk HBs.
  pose proof (df_br _ _ _ _ _ _ _ _ _ _ _ FM m Hm) as Dm. pose proof (div_exact_of _ _ Hmr Dm) as Em.
  pose proof (pt_w _ _ _ _ PM m Hm) as Hmt. pose proof (pt_w _ _ _ _ PK k Hk) as Hkt.
  pose proof (part_end _ _ _ _ PM m Hm) as Hme. pose proof (part_end _ _ _ _ PK k Hk) as Hke.
  unfold g2_packA. cbv zeta. rewrite Em at 1.
  assert (Hnn : 0 <= g2_mcb x (mr c) m / mr c) by (apply Z.div_pos; lia).
  eapply pok_mono.
  - eapply (par_packA_panels S _ BufA (BufAp 0) (m * pm x * m_c x * K + k * k_c x) 0 K (blk_kt x k) (mr c) (g2_mcb x (mr c) m / mr c)
      (fun row kk => fA (m * (pm x * m_c x) + row) (k * k_c x + kk)) bpa m'); try lia; try easy.
    + destruct HBs as (HL & _). now rewrite HL.
    + rewrite <- Em. specialize (Hbpa m Hm). assert (g2_mcb x (mr c) m * blk_kt x k <= g2_mcb x (mr c) m * k_c x) by (apply Z.mul_le_mono_nonneg; lia). lia.
    + intros row kk Hc Hkk. rewrite <- Em in Hc.
      replace (m * pm x * m_c x * K + k * k_c x + (row * K + kk)) with ((m * (pm x * m_c x) + row) * K + (k * k_c x + kk)) by ring.
      assert (0 <= k * k_c x) by nn. assert (0 <= m * (pm x * m_c x)) by nn.
      apply gA_ok; auto; lia.
  - cbn. intros _ m2 (HL2 & HF2 & HP2). split; [auto|split; [|auto]].
    intros b i Hb. apply HF2. intros (-> & _). auto.
Qed.

Lemma gBase_step m' m'' (W : region) : gBase m' -> live m'' = live m' ->
  (forall b i, ~ W b i -> dat m'' b i = dat m' b i) -> (forall b i, W b i -> gwrites b i) -> gBase m''.
Proof.
  intros (HL & HF) HL' HF' HW. split; [congruence|].
  intros b i Hb. rewrite HF'; auto.
Qed.

Lemma g2_core_spec n m j core m' :
  0 <= n < Nb x -> 0 <= m < Mb x -> 0 <= j < Kb x -> 0 <= core < gp n m ->
  gBase m' -> 
  let k := sn_at (inner_rev n m) (Kb x) j in 0 <= k < Kb x ->
  ctiles m' (BufCp core) 0 (mr c) (nr c) (gmt n m core / mr c) (gnt n core / nr c) (gval n m core j) ->
  gB n k m' -> gA m k m' ->
  twp (rng (BufCp core) 0 (m_c x * n_c x)) (fun b _ => b = BufAp 0 \/ b = BufBp)
    (g2_core S ar c x n m k core)
    (fun _ m'' =>
       ctiles m'' (BufCp core) 0 (mr c) (nr c) (gmt n m core / mr c) (gnt n core / nr c) (gval n m core (j + 1))) m'.
Proof.
  intros Hn Hm Hj Hc HBs k Hk HT HPB HPA. pose proof HBs as (HL & HF0).
  destruct (cf_of n m core Hn Hm Hc) as [C1 C2 C3 C4 C5 C6 C7 C8 C9 C10 C11].
  pose proof (pt_w _ _ _ _ PK k Hk) as Hkt. pose proof (pt_w _ _ _ _ PM m Hm) as Hwm. pose proof (pt_w _ _ _ _ PN n Hn) as Hwn.
  pose proof (gp_le n m Hn Hm) as Hgp.
  destruct (HLcp core ltac:(lia)) as (bkc & HLkc & Hbkc).
  pose proof (div_exact_of _ _ Hmr C3) as Em. pose proof (div_exact_of _ _ Hnr C4) as En.
  pose proof (div_exact_of _ _ Hmr C10) as Exm. pose proof (div_exact_of _ _ Hnr C11) as Exn.
  pose proof (div_exact_of _ _ Hmr (df_br _ _ _ _ _ _ _ _ _ _ _ FM m Hm)) as Ebm.
  pose proof (div_exact_of _ _ Hnr (df_br _ _ _ _ _ _ _ _ _ _ _ FN n Hn)) as Ebn.
  unfold g2_core. cbv zeta. fold (ci n core) (cj n core). fold (gmt n m core) (gnt n core).
  set (kt := blk_kt x k) in *.
  set (si := ci n core * (g2_mx x m / mr c)). set (sj := cj n core * (g2_nx x n / nr c)).
  assert (Ei : ci n core * g2_mx x m = si * mr c) by (unfold si; rewrite Exm at 1; ring).
  assert (Ej : cj n core * g2_nx x n = sj * nr c) by (unfold sj; rewrite Exn at 1; ring).
  assert (Si : 0 <= si /\ si + gmt n m core / mr c <= g2_mcb x (mr c) m / mr c).
  { rewrite Ei in C6, C8. set (a := gmt n m core / mr c) in *. set (b := g2_mcb x (mr c) m / mr c) in *. clearbody si a b.
    split; nia. }
  assert (Sj : 0 <= sj /\ sj + gnt n core / nr c <= g2_ncb x (nr c) n / nr c).
  { rewrite Ej in C7, C9. set (a := gnt n core / nr c) in *. set (b := g2_ncb x (nr c) n / nr c) in *. clearbody sj a b.
    split; nia. }
  pose proof (panels_slice _ _ _ _ _ _ _ si (gmt n m core / mr c) Hmr (proj1 Si) (proj2 Si) HPA) as PA'.
  pose proof (panels_slice _ _ _ _ _ _ _ sj (gnt n core / nr c) Hnr (proj1 Sj) (proj2 Sj) HPB) as PB'.
  cbn [Z.add] in PA', PB'. fold kt in PA', PB'. rewrite <- Ei in PA'. rewrite <- Ej in PB'.
  assert (B1 : ci n core * g2_mx x m * kt + gmt n m core * kt <= blen bpa).
  { etransitivity; [|apply (Hbpa m Hm)]. rewrite <- Z.mul_add_distr_r. apply Z.mul_le_mono_nonneg; lia. }
  assert (B2 : cj n core * g2_nx x n * kt + gnt n core * kt <= blen bpk).
  { etransitivity; [|apply (Hbpk n Hn)]. rewrite <- Z.mul_add_distr_r. apply Z.mul_le_mono_nonneg; lia. }
  assert (B3 : 0 <= ci n core * g2_mx x m * kt) by (clearbody kt; nia).
  assert (B4 : 0 <= cj n core * g2_nx x n * kt) by (clearbody kt; nia).
  eapply twp_call.
  - eapply (tile_loops_spec S ar _ (BufAp 0) BufBp (BufCp core) _ _ 0 (gmt n m core) (gnt n core) kt (mr c) (nr c)
       (gmt n m core / mr c) (gnt n core / nr c)
       (fun row kk => fA (gr0 n m core + row) (k * k_c x + kk)) (fun kk col => fB (k * k_c x + kk) (gc0 n core + col))
       (gval n m core j) bpa bpk bkc m'); auto; try (rewrite HL; auto); try lia; try discriminate; try (apply Z.div_pos; lia).
    + destruct Hal as [H|H]; [left; auto|right; split; auto].
      rewrite Ej. replace (sj * nr c * kt) with (sj * kt * nr c) by ring.
      rewrite Z.mul_mod, Hlk, Z.mul_0_r by lia. reflexivity.
    + unfold gr0. intros q i kk H1 H2 H3. rewrite (PA' q i kk H1 H2 H3). do 2 f_equal. ring.
    + unfold gc0. intros q i kk H1 H2 H3. rewrite (PB' q i kk H1 H2 H3). do 2 f_equal. ring.
  - intros b i (-> & Hi). split; [auto|lia].
  - intros b i [(-> & Hi)|(-> & Hi)]; left; auto.
  - cbv beta. intros _ m3 HT3 HL3 HF3.
    intros qm i qn jj Hqm Hi Hqn Hjj. rewrite (HT3 qm i qn jj Hqm Hi Hqn Hjj). f_equal.
    unfold gval. rewrite kord_snoc by lia. rewrite dot_app. fold k. unfold blk_elems. fold kt.
    apply (dot_shift S (fA (gr0 n m core + (qm * mr c + i))) (fun k => fB k (gc0 n core + (qn * nr c + jj)))).
Qed.

Lemma schedule_2d_spec : cpzero S mm p (m_c x * n_c x) ->
  pok (schedule_KMN_2d S ar (BufA, 0) (BufB, 0) (BufC, 0) M N K c x) mm
      (fun _ m' => live m' = live mm /\ same_out gwrites mm m' /\ holds m' BufC M N g2_val).
Proof.
  intros HZ. unfold schedule_KMN_2d.
  eapply (reuse_grid S
    (fun n m k rb ra => pbind (if rb then PRet tt else g2_packB S (BufB, 0) N c x n k)
       (fun _ => pbind (if ra then PRet tt else g2_packA S (BufA, 0) K c x m k)
       (fun _ => ppar_for 0 (g2_pum x m * g2_pun x n) 1 (g2_core S ar c x n m k))))
    (fun n m => ppar_for 0 (g2_pum x m * g2_pun x n) 1 (g2_unpack S (BufC, 0) M N c x n m))
    (Nb x) (pn x * n_c x) (N_padded x) (g2_ncb x (nr c)) (Mb x) (pm x * m_c x) (M_padded x) (g2_mcb x (mr c)) (Kb x) M N
    g2_val gBase (fun m' => cpzero S m' p (m_c x * n_c x)) gAcc gA gB).
  - exact PN.
  - exact PM.
  - apply (df_Dp _ _ _ _ _ _ _ _ _ _ _ FM).
  - apply (df_Dp _ _ _ _ _ _ _ _ _ _ _ FN).
  - apply (pt_nb _ _ _ _ PK).
  - split; [auto|apply same_out_refl].
  - auto.
  - (* cleared buffers *)
    intros n m m' Hn Hm HBs HZ'. pose proof (gp_le n m Hn Hm) as Hgp. split.
    + intros core Hc. destruct (cf_of n m core Hn Hm Hc) as [C1 C2 C3 C4 C5 C6 C7 C8 C9 C10 C11].
      pose proof (div_exact_of _ _ Hmr C3) as Em. pose proof (div_exact_of _ _ Hnr C4) as En.
      apply (ctiles_zero S _ _ _ _ _ (m_c x * n_c x)); auto.
      * apply Z.div_pos; lia.
      * apply Z.div_pos; lia.
      * rewrite <- Em, <- En. auto.
      * intros i Hi. apply HZ'; auto. lia.
    + intros core i Hc Hi. apply HZ'; auto. lia.
  - (* one k block *)
    intros n m j rb ra m1 Hn Hm Hj HBs1 (HT1 & HZ1) k Hk HPB1 HPA1.
    pose proof (gp_le n m Hn Hm) as Hgp.
    apply pok_bind.
    apply (pok_mono _ _ (fun _ m2 => gBase m2 /\ gAcc n m j m2 /\ gB n k m2 /\ (ra = true -> gA m k m2) /\
       (forall i, dat m2 BufC i = dat m1 BufC i))).
    { destruct rb.
      - apply pok_ret. split; [auto|]. split; [split; auto|]. auto.
      - eapply pok_mono; [apply (g2_packB_spec n k m1 Hn Hk HBs1)|].
        cbn. intros _ m2 (HL2 & HF2 & HP2).
        assert (Eo : forall b i, b <> BufBp -> dat m2 b i = dat m1 b i) by (intros; now apply HF2).
        split; [|split; [split|split; [|split]]].
        + eapply (gBase_step m1 _ (fun b _ => b = BufBp)); auto.
          intros b i ->. right. right. auto.
        + intros core Hc qm i qn jj ? ? ? ?. rewrite Eo by discriminate. apply (HT1 core Hc); auto.
        + intros core i ? ?. rewrite Eo by discriminate. auto.
        + auto.
        + intros E q i kk ? ? ?. rewrite Eo by discriminate. apply (HPA1 E); auto.
        + intros i. apply Eo. discriminate. }
    intros _ m2 (HBs2 & (HT2 & HZ2) & HPB2 & HPA2 & HC2).
    apply pok_bind.
    apply (pok_mono _ _ (fun _ m3 => gBase m3 /\ gAcc n m j m3 /\ gB n k m3 /\ gA m k m3 /\
       (forall i, dat m3 BufC i = dat m1 BufC i))).
    { destruct ra.
      - apply pok_ret. split; [auto|]. split; [split; auto|]. auto.
      - eapply pok_mono; [apply (g2_packA_spec m k m2 Hm Hk HBs2)|].
        cbn. intros _ m3 (HL3 & HF3 & HP3).
        assert (Eo : forall b i, b <> BufAp 0 -> dat m3 b i = dat m2 b i) by (intros; now apply HF3).
        split; [|split; [split|split; [|split]]].
        + eapply (gBase_step m2 _ (fun b _ => b = BufAp 0)); auto.
          intros b i ->. right. left. auto.
        + intros core Hc qm i qn jj ? ? ? ?. rewrite Eo by discriminate. apply (HT2 core Hc); auto.
        + intros core i ? ?. rewrite Eo by discriminate. auto.
        + intros q i kk ? ? ?. rewrite Eo by discriminate. apply HPB2; auto.
        + auto.
        + intros i. rewrite Eo by discriminate. auto. }
    clear m2 HBs2 HT2 HZ2 HPB2 HPA2 HC2.
    intros _ m2 (HBs2 & (HT2 & HZ2) & HPB2 & HPA2 & HC2).
    eapply (pok_par_for 0 (gp n m) 1 (gp n m) _ m2 (fun core => rng (BufCp core) 0 (m_c x * n_c x)) (fun _ b _ => b = BufAp 0 \/ b = BufBp)
      (fun core m'' =>
         ctiles m'' (BufCp core) 0 (mr c) (nr c) (gmt n m core / mr c) (gnt n core / nr c) (gval n m core (j + 1)))); try lia.
    + intros core Hc. replace (0 + core * 1) with core by lia.
      apply (g2_core_spec n m j core m2); auto.
    + intros a d b i Ha Hd Had (-> & _) HWR.
      destruct HWR as [(E & _)|[E|E]]; try discriminate. injection E; lia.
    + intros m3 HL3 HT3 HF3.
      assert (Eo : forall b i, (forall core, b <> BufCp core) -> dat m3 b i = dat m2 b i).
      { intros b i N1. apply HF3. intros core Hc (E & _). now apply (N1 core). }
      split; [|split; [split|split; [|split]]].
      * destruct HBs2 as (HL2 & HF2). split; [congruence|].
        intros b i Hb. rewrite HF3; auto. intros core Hc (-> & Hi). apply Hb. left. right. exists core. split; [auto|lia].
      * intros core Hc. destruct (HT3 core Hc) as (ms & Hct & _ & _ & Hag).
        destruct (cf_of n m core Hn Hm Hc) as [C1 C2 C3 C4 C5 C6 C7 C8 C9 C10 C11].
        pose proof (div_exact_of _ _ Hmr C3) as Em. pose proof (div_exact_of _ _ Hnr C4) as En.
        eapply ctiles_stable; [lia|lia| | | |exact Hct].
        -- apply Z.div_pos; lia.
        -- apply Z.div_pos; lia.
        -- intros i Hi. apply Hag. split; [auto|]. rewrite <- Em, <- En in Hi. lia.
      * intros core i Hc Hi. rewrite HF3; [apply HZ2; auto|].
        intros d Hd (E & _). injection E; lia.
      * intros q i kk ? ? ?. rewrite Eo by (intros; discriminate). apply HPB2; auto.
      * intros q i kk ? ? ?. rewrite Eo by (intros; discriminate). apply HPA2; auto.
      * intros i. rewrite Eo by (intros; discriminate). auto.
  - (* unpacking *)
    intros n m Dn m2 Hn Hm HBs2 (HT2 & HZ2) HD2. pose proof HBs2 as (HL2 & HF2).
    pose proof (gp_le n m Hn Hm) as Hgp. fold (gp n m).
    pose proof (df_C _ _ _ _ _ _ _ _ _ _ _ FM m Hm) as CM. pose proof (df_C _ _ _ _ _ _ _ _ _ _ _ FN n Hn) as CN.
    pose proof (pt_w _ _ _ _ PM m Hm) as Hwm. pose proof (pt_w _ _ _ _ PN n Hn) as Hwn.
    assert (M1 : g2_m1 x M m = m * (pm x * m_c x)).
    { unfold g2_m1. destruct (is_last m (Mb x) (m_pad x)) eqn:El; [|ring].
      symmetry. apply (df_last _ _ _ _ _ _ _ _ _ _ _ FM m Hm El). }
    assert (N1 : g2_n1 x N n = n * (pn x * n_c x)).
    { unfold g2_n1. destruct (is_last n (Nb x) (n_pad x)) eqn:El; [|ring].
      symmetry. apply (df_last _ _ _ _ _ _ _ _ _ _ _ FN n Hn El). }
    eapply (unpack_phase S (g2_unpack S (BufC, 0) M N c x n m) (gp n m) p (m_c x * n_c x) M N (mr c) (nr c)
         (gr0 n m) (gc0 n) (gmt n m) (gnt n) g2_val Dn bc m2); auto; try lia.
    + intros k Hk. exists (g2_m1 x M m), (ci n k * g2_mx x m), (g2_n1 x N n + cj n k * g2_nx x n).
      split; [rewrite M1; reflexivity|split; [rewrite N1; reflexivity|]]. unfold g2_unpack. cbv zeta.
      fold (ci n k) (cj n k). fold (gmt n m k) (gnt n k).
      unfold padd. cbn [fst snd].
      replace (0 + (m * pm x * m_c x * N + n * pn x * n_c x + ci n k * g2_mx x m * N + cj n k * g2_nx x n))
        with (gr0 n m k * N + gc0 n k) by (unfold gr0, gc0; ring). reflexivity.
    + intros k Hk. destruct (cf_of n m k Hn Hm Hk) as [C1 C2 C3 C4 C5 C6 C7 C8 C9 C10 C11].
      assert (0 <= m * (pm x * m_c x)) by nn. assert (0 <= n * (pn x * n_c x)) by nn.
      unfold gr0, gc0. repeat split; auto; lia.
    + intros k d Hk Hd Hkd.
      destruct (core_ij n m k Hn Hm Hk) as (K1 & K2 & K3). destruct (core_ij n m d Hn Hm Hd) as (D1 & D2 & D3).
      unfold gr0, gc0, gmt, gnt.
      destruct (Z_lt_le_dec (ci n k) (ci n d)) as [H|H].
      { pose proof (pz_sep _ _ _ _ _ _ CM K1 H). lia. }
      destruct (Z_lt_le_dec (ci n d) (ci n k)) as [H'|H'].
      { pose proof (pz_sep _ _ _ _ _ _ CM D1 H'). lia. }
      assert (Eci : ci n k = ci n d) by lia.
      destruct (Z_lt_le_dec (cj n k) (cj n d)) as [G|G].
      { pose proof (pz_sep _ _ _ _ _ _ CN K2 G). lia. }
      destruct (Z_lt_le_dec (cj n d) (cj n k)) as [G'|G'].
      { pose proof (pz_sep _ _ _ _ _ _ CN D2 G'). lia. }
      exfalso. apply Hkd. rewrite K3, D3, Eci. f_equal. lia.
    + now rewrite HL2.
    + intros k Hk. rewrite HL2. auto.
    + intros core Hc qm i qn jj Hqm Hi Hqn Hjj. rewrite (HT2 core Hc qm i qn jj Hqm Hi Hqn Hjj).
      f_equal. unfold gval, g2_val, g2_ord.
      destruct (cf_of n m core Hn Hm Hc) as [C1 C2 C3 C4 C5 C6 C7 C8 C9 C10 C11].
      pose proof (div_exact_of _ _ Hmr C3) as Em. pose proof (div_exact_of _ _ Hnr C4) as En.
      assert (Hrow : 0 <= qm * mr c + i < gmt n m core) by (rewrite Em; nia).
      assert (Hcol : 0 <= qn * nr c + jj < gnt n core) by (rewrite En; nia).
      replace ((gc0 n core + (qn * nr c + jj)) / (pn x * n_c x)) with n.
      2:{ symmetry. apply (part_div _ _ _ _ _ _ PN Hn). unfold gc0. lia. }
      replace ((gr0 n m core + (qm * mr c + i)) / (pm x * m_c x)) with m.
      2:{ symmetry. apply (part_div _ _ _ _ _ _ PM Hm). unfold gr0. lia. }
      reflexivity.
    + intros m3 HL3 HF3 HZ3 HD3. split; [|split; [auto|split; [|split]]].
      * eapply (gBase_step m2 _ (cwrites M N p)); auto. intros b i Hb. left. auto.
      * intros r cc Hr Hcc [HDn|(Hr' & Hc')]; apply HD3; auto. right.
        destruct (pz_cover _ _ _ _ (r - m * (pm x * m_c x)) CM ltac:(lia)) as (a & Ha & Hain).
        destruct (pz_cover _ _ _ _ (cc - n * (pn x * n_c x)) CN ltac:(lia)) as (b & Hb & Hbin).
        exists (a * g2_pun x n + b).
        assert (Ec : ci n (a * g2_pun x n + b) = a).
        { unfold ci. rewrite Z.quot_div_nonneg by nia. rewrite Z.div_add_l, Z.div_small by lia. lia. }
        assert (Ed : cj n (a * g2_pun x n + b) = b).
        { unfold cj. rewrite Z.rem_mod_nonneg by nia. rewrite Z.add_comm, Z.mod_add, Z.mod_small by lia. lia. }
        split; [unfold gp; nia|]. unfold gr0, gc0, gmt, gnt. rewrite Ec, Ed. lia.
      * intros k Hk HP q i kk ? ? ?. rewrite HF3; [apply HP; auto|].
        intros [(E & _)|(? & E & _)]; discriminate.
      * intros k Hk HP q i kk ? ? ?. rewrite HF3; [apply HP; auto|].
        intros [(E & _)|(? & E & _)]; discriminate.
  - intros m' (HL & HF') HD. split; [auto|split; [auto|]].
    intros i j Hi Hj. apply HD; auto.
Qed.

End G2.
