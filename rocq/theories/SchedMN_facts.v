(** * The M-first and N-first schedules on packed operands. *)

From Coq Require Import ZArith List Bool Lia Permutation.
From Verif Require Import Lang Lang_facts Spec ModelSizing ModelKernel ModelPack ModelSched
     Kernel_facts Tile_facts Loop_facts Pack_facts Unpack_facts Sizing_facts SizingMN_facts PackMat_facts
     Order_facts Cphase_facts Grid_facts PackMN_facts.
Import ListNotations.
Open Scope Z_scope.

Section SM.

Variable S : scalar.
Notation T := (elt S).
Variables (ar : arch) (M N K p m_r n_r tM : Z) (mt : Z -> Z) (x : blk_dims).
Hypothesis F : bf M N K p m_r n_r tM mt x.
Hypothesis Hp : 0 < p.
Hypothesis HM0 : 0 <= M.
Hypothesis HN0 : 0 <= N.
Hypothesis HK0 : 0 <= K.
Hypothesis Hmr : 0 < m_r.
Hypothesis Hnr : 0 < n_r.
Hypothesis Hln : 0 < lanes ar.
Hypothesis Hlk : n_r mod lanes ar = 0.

Local Notation nt := (blk_nt x).

(** [swap = true]: N-first (rows of C outermost) *)
Variable swap : bool.
Definition abase_s : Z -> Z -> Z := if swap then abase_N K p tM mt x else abase_M p tM x.
Definition bbase_s : Z -> Z -> Z := if swap then bbase_N p x else bbase_M K p x.
Definition cbase_s (m n : Z) : Z :=
  if swap then bpos tM mt (n_c x) (N_padded x) m n else bpos (n_c x) nt tM (M_padded x) n m.

Lemma abase_bound k m core : 0 <= k < Kb x -> 0 <= m < Mb x -> 0 <= core < blk_pk x p k ->
  let o := abase_s k m + core * core_kx x k * mt m in
  0 <= o /\ o + mt m * core_kt x k core <= M_padded x * K.
Proof.
  intros Hk Hm Hc. cbv zeta.
  pose proof (bf_M _ _ _ _ _ _ _ _ _ F) as PM. pose proof (bf_K _ _ _ _ _ _ _ _ _ F) as PK.
  pose proof (bf_C _ _ _ _ _ _ _ _ _ F k Hk) as PC.
  pose proof (part_end _ _ _ _ PC core Hc). pose proof (pt_w _ _ _ _ PC core Hc).
  pose proof (pt_w _ _ _ _ PM m Hm).
  assert ((core * core_kx x k + core_kt x k core) * mt m <= blk_kcb x p k * mt m)
    by (apply Z.mul_le_mono_nonneg_r; lia).
  assert (0 <= core * core_kx x k * mt m) by nn.
  unfold abase_s. destruct swap.
  - destruct (bpos_bound _ _ _ _ _ _ _ _ PM PK m k Hm Hk). unfold abase_N. lia.
  - destruct (bpos_bound _ _ _ _ _ _ _ _ PK PM k m Hk Hm). unfold abase_M. lia.
Qed.

Lemma bbase_bound k n core : 0 <= k < Kb x -> 0 <= n < Nb x -> 0 <= core < blk_pk x p k ->
  let o := bbase_s k n + core * core_kx x k * nt n in
  0 <= o /\ o + nt n * core_kt x k core <= K * N_padded x.
Proof.
  intros Hk Hn Hc. cbv zeta.
  pose proof (bf_N _ _ _ _ _ _ _ _ _ F) as PN. pose proof (bf_K _ _ _ _ _ _ _ _ _ F) as PK.
  pose proof (bf_C _ _ _ _ _ _ _ _ _ F k Hk) as PC.
  pose proof (part_end _ _ _ _ PC core Hc). pose proof (pt_w _ _ _ _ PC core Hc).
  pose proof (pt_w _ _ _ _ PN n Hn).
  assert ((core * core_kx x k + core_kt x k core) * nt n <= blk_kcb x p k * nt n)
    by (apply Z.mul_le_mono_nonneg_r; lia).
  assert (0 <= core * core_kx x k * nt n) by nn.
  unfold bbase_s. destruct swap.
  - destruct (bpos_bound _ _ _ _ _ _ _ _ PK PN k n Hk Hn). unfold bbase_N. lia.
  - destruct (bpos_bound _ _ _ _ _ _ _ _ PN PK n k Hn Hk). unfold bbase_M. lia.
Qed.

Lemma dvd_mod0 a : (n_r | a) -> a mod lanes ar = 0.
Proof. intros [u ->]. apply mod0_mul; auto. Qed.

Lemma bbase_al k n core : 0 <= k < Kb x -> 0 <= n < Nb x ->
  (bbase_s k n + core * core_kx x k * nt n) mod lanes ar = 0.
Proof.
  intros Hk Hn. apply dvd_mod0. apply Z.divide_add_r.
  - unfold bbase_s, bbase_M, bbase_N, bpos. destruct swap; apply Z.divide_add_r.
    + apply Z.divide_mul_r, (bf_Npd _ _ _ _ _ _ _ _ _ F).
    + apply Z.divide_mul_r, Z.divide_mul_r, (bf_ncd _ _ _ _ _ _ _ _ _ F).
    + apply Z.divide_mul_l, Z.divide_mul_r, (bf_ncd _ _ _ _ _ _ _ _ _ F).
    + apply Z.divide_mul_l, (bf_nr _ _ _ _ _ _ _ _ _ F); auto.
  - apply Z.divide_mul_r, (bf_nr _ _ _ _ _ _ _ _ _ F); auto.
Qed.

Lemma cbase_bound m n : 0 <= m < Mb x -> 0 <= n < Nb x ->
  0 <= cbase_s m n /\ cbase_s m n + mt m * nt n <= M_padded x * N_padded x.
Proof.
  intros Hm Hn. pose proof (bf_M _ _ _ _ _ _ _ _ _ F) as PM. pose proof (bf_N _ _ _ _ _ _ _ _ _ F) as PN.
  unfold cbase_s. destruct swap.
  - destruct (bpos_bound _ _ _ _ _ _ _ _ PM PN m n Hm Hn). lia.
  - destruct (bpos_bound _ _ _ _ _ _ _ _ PN PM n m Hn Hm). lia.
Qed.

Lemma cbase_disj m n m' n' y : 0 <= m < Mb x -> 0 <= n < Nb x -> 0 <= m' < Mb x -> 0 <= n' < Nb x ->
  cbase_s m n <= y < cbase_s m n + mt m * nt n -> cbase_s m' n' <= y < cbase_s m' n' + mt m' * nt n' ->
  m = m' /\ n = n'.
Proof.
  intros Hm Hn Hm' Hn'. pose proof (bf_M _ _ _ _ _ _ _ _ _ F) as PM. pose proof (bf_N _ _ _ _ _ _ _ _ _ F) as PN.
  unfold cbase_s. destruct swap.
  - apply (bpos_disj _ _ _ _ _ _ _ _ PM PN); auto.
  - rewrite !(Z.mul_comm (mt _)). intros H1 H2.
    destruct (bpos_disj _ _ _ _ _ _ _ _ PN PM n m n' m' y) as (? & ?); auto.
Qed.

(** The thread of one block of C in one block of k *)
Lemma row_spec (kern : ptr -> ptr -> ptr -> Z -> Z -> Z -> thr T unit) (ab bb cb : buf) fA fB fC ba bi bc m n k
      (body : Z -> thr T unit) mm :
  kern_is S ar kern m_r n_r ->
  ab <> cb -> bb <> cb ->
  0 <= m < Mb x -> 0 <= n < Nb x -> 0 <= k < Kb x ->
  live mm ab = Some ba -> M_padded x * K <= blen ba ->
  live mm bb = Some bi -> K * N_padded x <= blen bi -> (lanes ar = 1 \/ b64 bi = true) ->
  live mm cb = Some bc -> M_padded x * N_padded x <= blen bc ->
  packedA_MN S p m_r tM mt x abase_s ab fA mm -> packedB_MN S p n_r x bbase_s bb fB mm ->
  (forall core, 0 <= core < blk_pk x p k ->
     body core = tile_loops S kern (ab, abase_s k m + core * core_kx x k * mt m)
                   (bb, bbase_s k n + core * core_kx x k * nt n) (cb, cbase_s m n)
                   (mt m) (nt n) (core_kt x k core) m_r n_r) ->
  ctiles mm cb (cbase_s m n) m_r n_r (mt m / m_r) (nt n / n_r) (fun row col => fC (m * tM + row) (n * n_c x + col)) ->
  twp (rng cb (cbase_s m n) (cbase_s m n + mt m * nt n)) (fun b _ => b = ab \/ b = bb)
      (tfor_ 0 (blk_pk x p k) 1 body)
      (fun _ m' => ctiles m' cb (cbase_s m n) m_r n_r (mt m / m_r) (nt n / n_r)
         (fun row col => dot S (fA (m * tM + row)) (fun kk => fB kk (n * n_c x + col))
                             (blk_elems (p * k_c x) (blk_kcb x p) k) (fC (m * tM + row) (n * n_c x + col)))) mm.
Proof.
  intros Hkern Nab Nbb Hm Hn Hk HLa Hba HLb Hbb Hal HLc Hbc PA PB Hbody HC.
  pose proof (div_exact_of _ _ Hmr (bf_mr _ _ _ _ _ _ _ _ _ F m Hm)) as Em.
  pose proof (div_exact_of _ _ Hnr (bf_nr _ _ _ _ _ _ _ _ _ F n Hn)) as En.
  pose proof (pt_w _ _ _ _ (bf_M _ _ _ _ _ _ _ _ _ F) m Hm) as Hmt.
  pose proof (pt_w _ _ _ _ (bf_N _ _ _ _ _ _ _ _ _ F) n Hn) as Hnt.
  pose proof (bf_C _ _ _ _ _ _ _ _ _ F k Hk) as PC.
  pose proof (pt_nb _ _ _ _ PC) as Hnb.
  destruct (cbase_bound m n Hm Hn) as (Hc0 & Hc1).
  assert (Hnm : 0 <= mt m / m_r) by (apply Z.div_pos; lia).
  assert (Hnn : 0 <= nt n / n_r) by (apply Z.div_pos; lia).
  set (O := off (blk_pk x p k) (core_kx x k) (blk_kcb x p k)).
  unfold tfor_.
  eapply (twp_tfor1 _ _ (fun core _ m' =>
     ctiles m' cb (cbase_s m n) m_r n_r (mt m / m_r) (nt n / n_r)
       (fun row col => dot S (fA (m * tM + row)) (fun kk => fB kk (n * n_c x + col))
                           (zrange (k * (p * k_c x)) (O core)) (fC (m * tM + row) (n * n_c x + col))))); [lia| | |].
  - unfold O. rewrite (off_0 _ _ _ _ PC). exact HC.
  - intros core _ m' Hc HI HL HF. rewrite Hbody by auto.
    pose proof (pt_w _ _ _ _ PC core Hc) as Hkt.
    destruct (abase_bound k m core Hk Hm Hc) as (Ha0 & Ha1).
    destruct (bbase_bound k n core Hk Hn Hc) as (Hb0 & Hb1).
    eapply twp_call.
    + eapply (tile_loops_spec S ar kern ab bb cb _ _ _ (mt m) (nt n) (core_kt x k core) m_r n_r (mt m / m_r) (nt n / n_r)
         (fun row kk => fA (m * tM + row) (k * (p * k_c x) + core * core_kx x k + kk))
         (fun kk col => fB (k * (p * k_c x) + core * core_kx x k + kk) (n * n_c x + col))
         (fun row col => dot S (fA (m * tM + row)) (fun kk => fB kk (n * n_c x + col))
                           (zrange (k * (p * k_c x)) (O core)) (fC (m * tM + row) (n * n_c x + col))) ba bi bc m');
        auto; try (rewrite HL; auto); try lia.
      * destruct Hal as [Hal|Hal]; [left; auto|right; split; [auto|]]. apply bbase_al; auto.
      * intros q i kk Hq Hi Hkk. rewrite HF by (intros (E & _); congruence).
        exact (PA k m core Hk Hm Hc q i kk Hq Hi Hkk).
      * intros q i kk Hq Hi Hkk. rewrite HF by (intros (E & _); congruence).
        exact (PB k n core Hk Hn Hc q i kk Hq Hi Hkk).
    + intros b i H. exact H.
    + intros b i [(-> & _)|(-> & _)]; auto.
    + cbn. intros _ m2 H2 _ _ qm i qn jj Hqm Hi Hqn Hjj. rewrite (H2 qm i qn jj Hqm Hi Hqn Hjj).
      f_equal. unfold O. rewrite (off_S _ _ _ _ PC core Hc), (off_lt _ _ _ core) by lia.
      assert (0 <= core * core_kx x k) by nn.
      rewrite zrange_app by lia. rewrite dot_app.
      apply (dot_shift S (fA (m * tM + (qm * m_r + i))) (fun k => fB k (n * n_c x + (qn * n_r + jj)))).
  - intros _ m' H _ _ qm i qn j Hqm Hi Hqn Hj. rewrite (H qm i qn j Hqm Hi Hqn Hj). f_equal. f_equal.
    unfold blk_elems, O. now rewrite off_n.
Qed.

(** Order of the k indices for one element of C *)
Definition mn_ord (i j : Z) : list Z :=
  kord (p * k_c x) (blk_kcb x p) (odd2 (if swap then i / tM else j / n_c x)) (Kb x) (Kb x).

Lemma mn_ord_perm i j : Permutation (mn_ord i j) (zrange 0 K).
Proof. apply kord_perm. apply (bf_K _ _ _ _ _ _ _ _ _ F). Qed.

(** packed C *)
Definition cpacked (m' : mem T) (cb : buf) (f : Z -> Z -> T) : Prop :=
  forall m n, 0 <= m < Mb x -> 0 <= n < Nb x ->
    ctiles m' cb (cbase_s m n) m_r n_r (mt m / m_r) (nt n / n_r) (fun row col => f (m * tM + row) (n * n_c x + col)).

Lemma ctile_frame cb m n (f : Z -> Z -> T) m1 m2 : 0 <= m < Mb x -> 0 <= n < Nb x ->
  (forall b i, rng cb (cbase_s m n) (cbase_s m n + mt m * nt n) b i -> dat m2 b i = dat m1 b i) ->
  ctiles m1 cb (cbase_s m n) m_r n_r (mt m / m_r) (nt n / n_r) f ->
  ctiles m2 cb (cbase_s m n) m_r n_r (mt m / m_r) (nt n / n_r) f.
Proof.
  intros Hm Hn H. apply ctiles_stable; auto; try lia.
  - apply Z.div_pos; auto. pose proof (pt_w _ _ _ _ (bf_M _ _ _ _ _ _ _ _ _ F) m Hm). lia.
  - apply Z.div_pos; auto. pose proof (pt_w _ _ _ _ (bf_N _ _ _ _ _ _ _ _ _ F) n Hn). lia.
  - intros i Hi. apply H. split; auto.
    rewrite <- (div_exact_of _ _ Hmr (bf_mr _ _ _ _ _ _ _ _ _ F m Hm)) in Hi.
    rewrite <- (div_exact_of _ _ Hnr (bf_nr _ _ _ _ _ _ _ _ _ F n Hn)) in Hi. lia.
Qed.

Lemma sched_spec (kern : ptr -> ptr -> ptr -> Z -> Z -> Z -> thr T unit) (ab bb cb : buf) fA fB f0 ba bi bc
      (body : Z -> Z -> Z -> thr T unit) (core_body : Z -> Z -> Z -> Z -> thr T unit) mm (Post : unit -> mem T -> Prop) :
  kern_is S ar kern m_r n_r ->
  ab <> cb -> bb <> cb ->
  live mm ab = Some ba -> M_padded x * K <= blen ba ->
  live mm bb = Some bi -> K * N_padded x <= blen bi -> (lanes ar = 1 \/ b64 bi = true) ->
  live mm cb = Some bc -> M_padded x * N_padded x <= blen bc ->
  packedA_MN S p m_r tM mt x abase_s ab fA mm -> packedB_MN S p n_r x bbase_s bb fB mm ->
  (forall u k v, body u k v = tfor_ 0 (blk_pk x p k) 1 (core_body u k v)) ->
  (forall m n k core, 0 <= m < Mb x -> 0 <= n < Nb x -> 0 <= k < Kb x -> 0 <= core < blk_pk x p k ->
     (if swap then core_body m k n core else core_body n k m core)
     = tile_loops S kern (ab, abase_s k m + core * core_kx x k * mt m)
                   (bb, bbase_s k n + core * core_kx x k * nt n) (cb, cbase_s m n)
                   (mt m) (nt n) (core_kt x k core) m_r n_r) ->
  cpacked mm cb f0 ->
  let nU := if swap then Mb x else Nb x in
  let nV := if swap then Nb x else Mb x in
  (forall m', live m' = live mm -> same_out (rng cb 0 (M_padded x * N_padded x)) mm m' ->
     cpacked m' cb (fun i j => dot S (fA i) (fun kk => fB kk j) (mn_ord i j) (f0 i j)) -> Post tt m') ->
  pok (pfor_ 0 nU 1 (fun u =>
         let ks := snake (odd2 u) (Kb x) in
         pfor_ne_ (sn_start ks) (sn_end ks) (sn_inc ks) (fun k =>
           let vs := snake (inner_rev u k) nV in
           ppar_for 0 nV 1 (fun vi => body u k (sn_start vs + vi * sn_inc vs))))) mm Post.
Proof.
  intros Hkern Nab Nbb HLa Hba HLb Hbb Hal HLc Hbc PA PB Hbody Hcore H0 nU nV HPost.
  pose proof (pt_nb _ _ _ _ (bf_M _ _ _ _ _ _ _ _ _ F)) as HMb.
  pose proof (pt_nb _ _ _ _ (bf_N _ _ _ _ _ _ _ _ _ F)) as HNb.
  pose proof (pt_nb _ _ _ _ (bf_K _ _ _ _ _ _ _ _ _ F)) as HKb.
  set (cm := fun u v : Z => if swap then u else v). set (cn := fun u v : Z => if swap then v else u).
  assert (Hcell : forall u v, 0 <= u < nU -> 0 <= v < nV -> 0 <= cm u v < Mb x /\ 0 <= cn u v < Nb x).
  { unfold nU, nV, cm, cn. intros u v. destruct swap; auto. }
  set (cell := fun u v j m' =>
     let m := cm u v in let n := cn u v in
     ctiles m' cb (cbase_s m n) m_r n_r (mt m / m_r) (nt n / n_r)
       (fun row col => dot S (fA (m * tM + row)) (fun kk => fB kk (n * n_c x + col))
                           (kord (p * k_c x) (blk_kcb x p) (odd2 u) (Kb x) j) (f0 (m * tM + row) (n * n_c x + col)))).
  set (W := fun u v => rng cb (cbase_s (cm u v) (cn u v)) (cbase_s (cm u v) (cn u v) + mt (cm u v) * nt (cn u v))).
  assert (HW : forall u v b i, 0 <= u < nU -> 0 <= v < nV -> W u v b i -> rng cb 0 (M_padded x * N_padded x) b i).
  { intros u v b i Hu Hv (-> & Hi). destruct (Hcell u v Hu Hv) as (Hm & Hn).
    destruct (cbase_bound _ _ Hm Hn). split; [auto|lia]. }
  eapply (grid3 body nU (Kb x) nV W (fun b _ => b = ab \/ b = bb) cell mm).
  - unfold nU; destruct swap; auto.
  - auto.
  - unfold nV; destruct swap; auto.
  - intros u v u' v' b i Hu Hv Hu' Hv' (_ & H1) (_ & H2).
    destruct (Hcell u v Hu Hv) as (Hm & Hn). destruct (Hcell u' v' Hu' Hv') as (Hm' & Hn').
    destruct (cbase_disj _ _ _ _ i Hm Hn Hm' Hn' H1 H2) as (E1 & E2).
    unfold cm, cn in E1, E2. destruct swap; auto.
  - intros u v b i Hu Hv (-> & _) [E|E]; congruence.
  - intros u v j m1 m2 Hu Hv Hs H. destruct (Hcell u v Hu Hv) as (Hm & Hn).
    unfold cell in *. cbv zeta in *. eapply ctile_frame; [auto|auto| |exact H]. exact Hs.
  - intros u v Hu Hv. destruct (Hcell u v Hu Hv) as (Hm & Hn). unfold cell. cbv zeta. rewrite kord_0.
    exact (H0 _ _ Hm Hn).
  - intros u j v m' Hu Hj Hv HL HF HI. destruct (Hcell u v Hu Hv) as (Hm & Hn).
    pose proof (sn_at_in (odd2 u) (Kb x) j Hj) as Hk.
    set (k := sn_at (odd2 u) (Kb x) j) in *. rewrite Hbody.
    assert (Hfr : forall b i, b <> cb -> dat m' b i = dat mm b i).
    { intros b i Hb. apply HF. intros (u' & v' & Hu' & Hv' & (E & _)). congruence. }
    eapply twp_mono.
    + eapply (row_spec kern ab bb cb fA fB
        (fun i jj => dot S (fA i) (fun kk => fB kk jj) (kord (p * k_c x) (blk_kcb x p) (odd2 u) (Kb x) j) (f0 i jj))
        ba bi bc (cm u v) (cn u v) k); auto; try (rewrite HL; auto).
      * intros k' m0 core Hk' Hm0 Hc q i kk Hq Hi Hkk. rewrite Hfr by auto. exact (PA k' m0 core Hk' Hm0 Hc q i kk Hq Hi Hkk).
      * intros k' m0 core Hk' Hm0 Hc q i kk Hq Hi Hkk. rewrite Hfr by auto. exact (PB k' m0 core Hk' Hm0 Hc q i kk Hq Hi Hkk).
      * intros core Hc. rewrite <- (Hcore (cm u v) (cn u v) k core Hm Hn Hk Hc). unfold cm, cn. destruct swap; auto.
    + cbn. intros _ m2 H2. unfold cell. cbv zeta. rewrite kord_snoc by lia. fold k.
      intros qm i qn jj Hqm Hi Hqn Hjj. rewrite (H2 qm i qn jj Hqm Hi Hqn Hjj). now rewrite dot_app.
  - intros m' HL HF HQ. apply HPost; auto.
    + intros b i Hb. apply HF. intros (u & v & Hu & Hv & Hw). apply Hb. eapply HW; eauto.
    + intros m n Hm Hn.
      assert (Hu : 0 <= (if swap then m else n) < nU) by (unfold nU; destruct swap; auto).
      assert (Hv : 0 <= (if swap then n else m) < nV) by (unfold nV; destruct swap; auto).
      specialize (HQ _ _ Hu Hv). unfold cell in HQ. cbv zeta in HQ.
      assert (E1 : cm (if swap then m else n) (if swap then n else m) = m) by (unfold cm; destruct swap; auto).
      assert (E2 : cn (if swap then m else n) (if swap then n else m) = n) by (unfold cn; destruct swap; auto).
      rewrite E1, E2 in HQ.
      pose proof (pt_w _ _ _ _ (bf_M _ _ _ _ _ _ _ _ _ F) m Hm) as Hmt.
      pose proof (pt_w _ _ _ _ (bf_N _ _ _ _ _ _ _ _ _ F) n Hn) as Hnt.
      pose proof (div_exact_of _ _ Hmr (bf_mr _ _ _ _ _ _ _ _ _ F m Hm)) as Em.
      pose proof (div_exact_of _ _ Hnr (bf_nr _ _ _ _ _ _ _ _ _ F n Hn)) as En.
      intros qm i qn j Hqm Hi Hqn Hj. rewrite (HQ qm i qn j Hqm Hi Hqn Hj). f_equal. f_equal.
      unfold mn_ord.
      assert (Hrow : 0 <= qm * m_r + i < mt m) by nia.
      assert (Hcol : 0 <= qn * n_r + j < nt n) by nia.
      f_equal. f_equal. destruct swap.
      * symmetry. apply (part_div _ _ _ _ _ _ (bf_M _ _ _ _ _ _ _ _ _ F) Hm). lia.
      * symmetry. apply (part_div _ _ _ _ _ _ (bf_N _ _ _ _ _ _ _ _ _ F) Hn). lia.
Qed.

(** ** Copying C in and out *)

Lemma cell_in u v : 0 <= u < (if swap then Mb x else Nb x) -> 0 <= v < (if swap then Nb x else Mb x) ->
  0 <= (if swap then u else v) < Mb x /\ 0 <= (if swap then v else u) < Nb x.
Proof. destruct swap; auto. Qed.

Lemma unpackC_spec (cb pb : buf) f bc bp (body : Z -> Z -> thr T unit) mm (Post : unit -> mem T -> Prop) :
  cb <> pb ->
  live mm cb = Some bc -> M * N <= blen bc ->
  live mm pb = Some bp -> M_padded x * N_padded x <= blen bp ->
  cpacked mm pb f ->
  (forall m n, 0 <= m < Mb x -> 0 <= n < Nb x ->
     (if swap then body m n else body n m)
     = unpack_ob_C_single_buf S (cb, m * tM * N + n * n_c x) (pb, cbase_s m n) M N (m * tM) (n * n_c x) 0
         (mt m) (nt n) m_r n_r) ->
  let nU := if swap then Mb x else Nb x in
  let nV := if swap then Nb x else Mb x in
  (forall m', live m' = live mm -> same_out (rng cb 0 (M * N)) mm m' -> holds m' cb M N f -> Post tt m') ->
  pok (pfor_ 0 nU 1 (fun u => ppar_for 0 nV 1 (body u))) mm Post.
Proof.
  intros Ncb HLc Hbc HLp Hbp HC Hbody nU nV HPost.
  pose proof (bf_M _ _ _ _ _ _ _ _ _ F) as PM. pose proof (bf_N _ _ _ _ _ _ _ _ _ F) as PN.
  pose proof (pt_nb _ _ _ _ PM) as HMb. pose proof (pt_nb _ _ _ _ PN) as HNb.
  pose proof (bf_tM _ _ _ _ _ _ _ _ _ F) as HtM. pose proof (bf_nc _ _ _ _ _ _ _ _ _ F) as Hnc.
  set (cm := fun u v : Z => if swap then u else v). set (cn := fun u v : Z => if swap then v else u).
  assert (Hcell : forall u v, 0 <= u < nU -> 0 <= v < nV -> 0 <= cm u v < Mb x /\ 0 <= cn u v < Nb x)
    by (intros; apply cell_in; auto).
  set (R := fun m n => rect cb N M (m * tM) (m * tM + mt m) (n * n_c x) (n * n_c x + nt n)).
  set (G := fun m n => rng pb (cbase_s m n) (cbase_s m n + mt m * nt n)).
  eapply (grid2 body nU nV (fun u v => R (cm u v) (cn u v)) (fun u v => G (cm u v) (cn u v))
    (fun u v m' => ctiles m' pb (cbase_s (cm u v) (cn u v)) m_r n_r (mt (cm u v) / m_r) (nt (cn u v) / n_r)
         (fun row col => f (cm u v * tM + row) (cn u v * n_c x + col)))
    (fun u v m' => boxed m' cb N M (cm u v * tM) (cm u v * tM + mt (cm u v)) (cn u v * n_c x) (cn u v * n_c x + nt (cn u v)) f)).
  - unfold nU; destruct swap; auto.
  - unfold nV; destruct swap; auto.
  - intros u v u' v' b i Hu Hv Hu' Hv' H1 H2.
    destruct (Hcell u v Hu Hv) as (Hm & Hn). destruct (Hcell u' v' Hu' Hv') as (Hm' & Hn').
    assert (E : cm u v = cm u' v' /\ cn u v = cn u' v').
    { destruct H1 as (_ & r & c & Hr & Hr2 & Hc & Hc2 & Ei). destruct H2 as (_ & r' & c' & Hr' & Hr2' & Hc' & Hc2' & Ei').
      assert (0 <= cn u v * n_c x) by nn. assert (0 <= cn u' v' * n_c x) by nn.
      destruct (rc_inj N r c r' c') as (-> & ->); try lia.
      split; [apply (part_uniq _ _ _ _ PM _ _ r')|apply (part_uniq _ _ _ _ PN _ _ c')]; auto. }
    unfold cm, cn in E. destruct swap; destruct E; auto.
  - intros u v u' v' b i _ _ _ _ (-> & _) (E & _). congruence.
  - intros u v m1 m2 Hu Hv Hs H. destruct (Hcell u v Hu Hv) as (Hm & Hn).
    eapply ctile_frame; [auto|auto| |exact H]. intros b i Hi. apply Hs. right. exact Hi.
  - intros u v m1 m2 Hu Hv Hs H. eapply boxed_stable; [|exact H]. intros y Hy. apply Hs. exact Hy.
  - intros u v Hu Hv. destruct (Hcell u v Hu Hv) as (Hm & Hn). exact (HC _ _ Hm Hn).
  - intros u v m' Hu Hv HL Hct. destruct (Hcell u v Hu Hv) as (Hm & Hn).
    assert (Eb : body u v = if swap then body (cm u v) (cn u v) else body (cn u v) (cm u v))
      by (unfold cm, cn; destruct swap; auto).
    rewrite Eb, (Hbody _ _ Hm Hn).
    destruct (cbase_bound _ _ Hm Hn) as (Hc0 & Hc1).
    pose proof (pt_w _ _ _ _ PM _ Hm) as Hmt. pose proof (pt_w _ _ _ _ PN _ Hn) as Hnt.
    assert (0 <= cm u v * tM) by nn. assert (0 <= cn u v * n_c x) by nn.
    pose proof (unpack_spec S cb pb (cm u v * tM * N + cn u v * n_c x) (cbase_s (cm u v) (cn u v)) M N (cm u v * tM) (cn u v * n_c x) 0
      (mt (cm u v)) (nt (cn u v)) m_r n_r (mt (cm u v) / m_r) (nt (cn u v) / n_r) f bc bp m') as U.
    rewrite !Z.add_0_r in U. apply U; auto.
    + apply Z.div_pos; lia.
    + apply Z.div_pos; lia.
    + apply (div_exact_of _ _ Hmr), (bf_mr _ _ _ _ _ _ _ _ _ F); auto.
    + apply (div_exact_of _ _ Hnr), (bf_nr _ _ _ _ _ _ _ _ _ F); auto.
    + now rewrite HL.
    + now rewrite HL.
    + lia.
  - intros m' HL HF HQ. apply HPost; auto.
    + intros b i Hb. apply HF. intros (u & v & Hu & Hv & (-> & r & c & Hr & Hr2 & Hc & Hc2 & ->)).
      destruct (Hcell u v Hu Hv) as (Hm & Hn).
      assert (0 <= cm u v * tM) by nn. assert (0 <= cn u v * n_c x) by nn.
      apply Hb. split; [auto|]. nia.
    + intros i j Hi Hj.
      pose proof (bf_Mp _ _ _ _ _ _ _ _ _ F). pose proof (bf_Np _ _ _ _ _ _ _ _ _ F).
      destruct (part_cover _ _ _ _ PM i ltac:(lia)) as (m & Hm & Hi').
      destruct (part_cover _ _ _ _ PN j ltac:(lia)) as (n & Hn & Hj').
      assert (Hu : 0 <= (if swap then m else n) < nU) by (unfold nU; destruct swap; auto).
      assert (Hv : 0 <= (if swap then n else m) < nV) by (unfold nV; destruct swap; auto).
      specialize (HQ _ _ Hu Hv).
      assert (E1 : cm (if swap then m else n) (if swap then n else m) = m) by (unfold cm; destruct swap; auto).
      assert (E2 : cn (if swap then m else n) (if swap then n else m) = n) by (unfold cn; destruct swap; auto).
      rewrite E1, E2 in HQ. apply HQ; lia.
Qed.

(** the padded copy of C *)
Definition padbox (f : Z -> Z -> T) (i j : Z) : T := if (i <? M) && (j <? N) then f i j else zero S.

Lemma packC_spec (cb pb : buf) f bc bp (body : Z -> Z -> thr T unit) mm (Post : unit -> mem T -> Prop) :
  cb <> pb ->
  live mm cb = Some bc -> M * N <= blen bc ->
  live mm pb = Some bp -> M_padded x * N_padded x <= blen bp ->
  holds mm cb M N f ->
  (forall m n, 0 <= m < Mb x -> 0 <= n < Nb x ->
     (if swap then body m n else body n m)
     = pack_ob_C_single_buf S (cb, m * tM * N + n * n_c x) (pb, cbase_s m n) M N (m * tM) (n * n_c x) 0
         (mt m) (nt n) m_r n_r (is_last m (Mb x) (m_pad x)) (is_last n (Nb x) (n_pad x))) ->
  let nU := if swap then Mb x else Nb x in
  let nV := if swap then Nb x else Mb x in
  (forall m', live m' = live mm -> same_out (rng pb 0 (M_padded x * N_padded x)) mm m' -> cpacked m' pb (padbox f) -> Post tt m') ->
  pok (pfor_ 0 nU 1 (fun u => ppar_for 0 nV 1 (body u))) mm Post.
Proof.
  intros Ncb HLc Hbc HLp Hbp Hh Hbody nU nV HPost.
  pose proof (bf_M _ _ _ _ _ _ _ _ _ F) as PM. pose proof (bf_N _ _ _ _ _ _ _ _ _ F) as PN.
  pose proof (pt_nb _ _ _ _ PM) as HMb. pose proof (pt_nb _ _ _ _ PN) as HNb.
  pose proof (bf_tM _ _ _ _ _ _ _ _ _ F) as HtM. pose proof (bf_nc _ _ _ _ _ _ _ _ _ F) as Hnc.
  set (cm := fun u v : Z => if swap then u else v). set (cn := fun u v : Z => if swap then v else u).
  assert (Hcell : forall u v, 0 <= u < nU -> 0 <= v < nV -> 0 <= cm u v < Mb x /\ 0 <= cn u v < Nb x)
    by (intros; apply cell_in; auto).
  set (G := fun m n => rng pb (cbase_s m n) (cbase_s m n + mt m * nt n)).
  eapply (grid2 body nU nV (fun u v => G (cm u v) (cn u v)) (fun u v b _ => b = cb)
    (fun u v m' => holds m' cb M N f)
    (fun u v m' => ctiles m' pb (cbase_s (cm u v) (cn u v)) m_r n_r (mt (cm u v) / m_r) (nt (cn u v) / n_r)
         (fun row col => padbox f (cm u v * tM + row) (cn u v * n_c x + col)))).
  - unfold nU; destruct swap; auto.
  - unfold nV; destruct swap; auto.
  - intros u v u' v' b i Hu Hv Hu' Hv' (_ & H1) (_ & H2).
    destruct (Hcell u v Hu Hv) as (Hm & Hn). destruct (Hcell u' v' Hu' Hv') as (Hm' & Hn').
    destruct (cbase_disj _ _ _ _ i Hm Hn Hm' Hn' H1 H2) as (E1 & E2).
    unfold cm, cn in E1, E2. destruct swap; auto.
  - intros u v u' v' b i _ _ _ _ (-> & _) E. congruence.
  - intros u v m1 m2 Hu Hv Hs H i j Hi Hj. rewrite Hs by auto. auto.
  - intros u v m1 m2 Hu Hv Hs H. destruct (Hcell u v Hu Hv) as (Hm & Hn).
    eapply ctile_frame; [auto|auto| |exact H]. exact Hs.
  - auto.
  - intros u v m' Hu Hv HL Hh'. destruct (Hcell u v Hu Hv) as (Hm & Hn).
    assert (Eb : body u v = if swap then body (cm u v) (cn u v) else body (cn u v) (cm u v))
      by (unfold cm, cn; destruct swap; auto).
    rewrite Eb, (Hbody _ _ Hm Hn).
    destruct (cbase_bound _ _ Hm Hn) as (Hc0 & Hc1).
    pose proof (pt_w _ _ _ _ PM _ Hm) as Hmt. pose proof (pt_w _ _ _ _ PN _ Hn) as Hnt.
    assert (0 <= cm u v * tM) by nn. assert (0 <= cn u v * n_c x) by nn.
    eapply (pack_ob_C_spec S _ cb pb _ _ M N (cm u v * tM) (cn u v * n_c x) 0
      (mt (cm u v)) (nt (cn u v)) m_r n_r (mt (cm u v) / m_r) (nt (cn u v) / n_r) _ _
      (fun row col => padbox f (cm u v * tM + row) (cn u v * n_c x + col)) bp m'); auto.
    + apply Z.div_pos; lia.
    + apply Z.div_pos; lia.
    + apply (div_exact_of _ _ Hmr), (bf_mr _ _ _ _ _ _ _ _ _ F); auto.
    + apply (div_exact_of _ _ Hnr), (bf_nr _ _ _ _ _ _ _ _ _ F); auto.
    + now rewrite HL.
    + lia.
    + intros row col Hrow Hcol. unfold src_ok, padbox. rewrite Z.add_0_r.
      assert (Hin : is_last (cm u v) (Mb x) (m_pad x) || is_last (cn u v) (Nb x) (n_pad x) = false ->
                cm u v * tM + row < M /\ cn u v * n_c x + col < N).
      { intros E. apply orb_false_iff in E. destruct E as (E1 & E2).
        destruct (bf_mf _ _ _ _ _ _ _ _ _ F _ Hm E1). destruct (bf_nf _ _ _ _ _ _ _ _ _ F _ Hn E2). lia. }
      destruct ((is_last (cm u v) (Mb x) (m_pad x) || is_last (cn u v) (Nb x) (n_pad x)) &&
                ((N <=? cn u v * n_c x + col) || (M <=? cm u v * tM + row))) eqn:E.
      * apply andb_true_iff in E. destruct E as (_ & E).
        destruct ((cm u v * tM + row <? M) && (cn u v * n_c x + col <? N)) eqn:E2; auto.
        exfalso. lia.
      * assert (HI : cm u v * tM + row < M /\ cn u v * n_c x + col < N).
        { apply andb_false_iff in E. destruct E as [E|E]; [auto|]. lia. }
        replace ((cm u v * tM + row <? M) && (cn u v * n_c x + col <? N)) with true by lia.
        replace (cm u v * tM * N + cn u v * n_c x + (row * N + col))
          with ((cm u v * tM + row) * N + (cn u v * n_c x + col)) by ring.
        split; [auto|split; [apply Hh'; lia|]]. exists bc. rewrite HL. split; auto. nia.
  - intros m' HL HF HQ. apply HPost; auto.
    + intros b i Hb. apply HF. intros (u & v & Hu & Hv & (-> & Hi)).
      destruct (Hcell u v Hu Hv) as (Hm & Hn). destruct (cbase_bound _ _ Hm Hn).
      apply Hb. split; [auto|]. lia.
    + intros m n Hm Hn.
      assert (Hu : 0 <= (if swap then m else n) < nU) by (unfold nU; destruct swap; auto).
      assert (Hv : 0 <= (if swap then n else m) < nV) by (unfold nV; destruct swap; auto).
      specialize (HQ _ _ Hu Hv).
      assert (E1 : cm (if swap then m else n) (if swap then n else m) = m) by (unfold cm; destruct swap; auto).
      assert (E2 : cn (if swap then m else n) (if swap then n else m) = n) by (unfold cn; destruct swap; auto).
      rewrite E1, E2 in HQ. exact HQ.
Qed.

Lemma cpacked_zero m' cb : (forall i, 0 <= i < M_padded x * N_padded x -> dat m' cb i = Some (zero S)) ->
  cpacked m' cb (fun _ _ => zero S).
Proof.
  intros HZ m n Hm Hn qm i qn j Hqm Hi Hqn Hj.
  destruct (cbase_bound m n Hm Hn).
  pose proof (div_exact_of _ _ Hmr (bf_mr _ _ _ _ _ _ _ _ _ F m Hm)) as Em.
  pose proof (div_exact_of _ _ Hnr (bf_nr _ _ _ _ _ _ _ _ _ F n Hn)) as En.
  apply HZ.
  pose proof (cell_bound m_r n_r i j Hi Hj) as Hc.
  set (nm := mt m / m_r) in *. set (nn := blk_nt x n / n_r) in *.
  set (w := m_r * n_r) in *.
  assert (E : nm * m_r * (nn * n_r) = nn * nm * w) by (unfold w; ring).
  replace (cbase_s m n + qn * (nm * m_r) * n_r + qm * m_r * n_r + i * n_r + j)
     with (cbase_s m n + (qn * nm + qm) * w + (i * n_r + j)) by (unfold w; ring).
  assert (0 <= (qn * nm + qm) * w) by (apply Z.mul_nonneg_nonneg; [apply Z.add_nonneg_nonneg; [apply Z.mul_nonneg_nonneg|]|]; lia).
  assert ((qn * nm + qm + 1) * w <= nn * nm * w) by (apply Z.mul_le_mono_nonneg_r; nia).
  rewrite Em, En in H0. lia.
Qed.

End SM.
