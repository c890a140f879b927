(** * Packing one register panel at a time, without bounds guard. *)

From Coq Require Import ZArith List Bool Lia.
From Verif Require Import Lang Lang_facts Spec ModelSizing ModelKernel ModelPack ModelSched
     Kernel_facts Tile_facts Loop_facts Pack_facts Sizing_facts PackMat_facts PackB_facts.
Import ListNotations.
Open Scope Z_scope.

Section P.

Variable S : scalar.
Notation T := (elt S).

Lemma panels_shift (m : mem T) b base r nq kd (f : Z -> Z -> T) (g : Z -> Z -> Z -> T) :
  (forall q, 0 <= q < nq -> panels m b (base + q * r * kd) r 1 kd (g q)) ->
  (forall q i kk, 0 <= q < nq -> 0 <= i < r -> 0 <= kk < kd -> g q i kk = f (q * r + i) kk) ->
  panels m b base r nq kd f.
Proof.
  intros H E q i kk Hq Hi Hkk. rewrite <- E by auto.
  pose proof (H q Hq 0 i kk ltac:(lia) Hi Hkk) as G. cbn [Z.mul Z.add] in G. rewrite <- G. f_equal. ring.
Qed.

(** for (m3 = 0; m3 < mt; m3 += m_r) A_packing_kernel(..) *)
Lemma packA_panels (t : Z -> thr T unit) (Rd : region) (ab pb : buf) ao po K kd m_r nq (f : Z -> Z -> T) bp m :
  (forall m3, t m3 = pack_A_mr_x_kc S (ab, ao + m3 * K) (pb, po + m3 * kd) K kd m_r) ->
  0 < m_r -> 0 <= nq -> 0 <= kd ->
  live m pb = Some bp -> 0 <= po -> po + nq * m_r * kd <= blen bp ->
  (forall x, ~ Rd pb x) ->
  (forall row kk, 0 <= row < nq * m_r -> 0 <= kk < kd ->
     src_ok S m Rd false ab (ao + (row * K + kk)) (f row kk)) ->
  twp (rng pb po (po + nq * m_r * kd)) Rd
      (tfor_ 0 (nq * m_r) m_r t)
      (fun _ m' => panels m' pb po m_r nq kd f) m.
Proof.
  intros Ht Hmr Hnq Hkd HL Hp0 Hp1 HRd Hsrc. unfold tfor_.
  eapply (twp_tfor _ Rd (fun c _ m' => panels m' pb po m_r c kd f) _ 0 (nq * m_r) m_r nq); auto.
  - intros q i kk Hq. lia.
  - intros c _ m' Hc HP HL' HF'. replace (0 + c * m_r) with (c * m_r) by lia. rewrite Ht.
    assert (Hb : (c + 1) * (m_r * kd) <= nq * (m_r * kd)) by (apply Z.mul_le_mono_nonneg_r; nia).
    assert (0 <= c * m_r * kd) by (apply Z.mul_nonneg_nonneg; nia).
    eapply twp_call.
    + eapply (pack_A_mr_spec S Rd ab pb (ao + c * m_r * K) (po + c * m_r * kd) K kd m_r (fun row kk => f (c * m_r + row) kk) bp m'); auto; try nia.
      * now rewrite HL'.
      * intros row kk Hrow Hkk. eapply (src_ok_frame S m m' Rd false _ _ _ (rng pb po (po + nq * m_r * kd))); auto.
        -- replace (ao + c * m_r * K + (row * K + kk)) with (ao + ((c * m_r + row) * K + kk)) by ring. apply Hsrc; nia.
        -- intros b x Hx (-> & _). apply (HRd x); auto.
    + intros b x (-> & Hx). split; auto. nia.
    + auto.
    + cbn. intros _ m2 H2 _ HF2 q i kk Hq Hi Hkk. destruct (Z.eq_dec q c) as [->|Hne].
      * pose proof (H2 0 i kk ltac:(lia) Hi Hkk) as G. cbn [Z.mul Z.add] in G. rewrite <- G. f_equal. ring.
      * rewrite HF2; [apply HP; lia|]. intros (_ & Hx).
        assert ((q + 1) * (m_r * kd) <= c * (m_r * kd)) by (apply Z.mul_le_mono_nonneg_r; nia).
        assert (kk * m_r + i < m_r * kd) by nia. nia.
Qed.

(** for (n2 = 0; n2 < nt; n2 += n_r) B_packing_kernel(..) *)
Lemma packB_panels (t : Z -> thr T unit) (Rd : region) (bb pb : buf) bo po N kd n_r nq (f : Z -> Z -> T) bp m :
  (forall n2, t n2 = pack_B_nr_x_kc S (bb, bo + n2) (pb, po + n2 * kd) N kd n_r) ->
  0 < n_r -> 0 <= nq -> 0 <= kd ->
  live m pb = Some bp -> 0 <= po -> po + nq * n_r * kd <= blen bp ->
  (forall x, ~ Rd pb x) ->
  (forall kk col, 0 <= col < nq * n_r -> 0 <= kk < kd ->
     src_ok S m Rd false bb (bo + (kk * N + col)) (f kk col)) ->
  twp (rng pb po (po + nq * n_r * kd)) Rd
      (tfor_ 0 (nq * n_r) n_r t)
      (fun _ m' => panels m' pb po n_r nq kd (fun col kk => f kk col)) m.
Proof.
  intros Ht Hmr Hnq Hkd HL Hp0 Hp1 HRd Hsrc. unfold tfor_.
  eapply (twp_tfor _ Rd (fun c _ m' => panels m' pb po n_r c kd (fun col kk => f kk col)) _ 0 (nq * n_r) n_r nq); auto.
  - intros q i kk Hq. lia.
  - intros c _ m' Hc HP HL' HF'. replace (0 + c * n_r) with (c * n_r) by lia. rewrite Ht.
    assert (Hb : (c + 1) * (n_r * kd) <= nq * (n_r * kd)) by (apply Z.mul_le_mono_nonneg_r; nia).
    assert (0 <= c * n_r * kd) by (apply Z.mul_nonneg_nonneg; nia).
    eapply twp_call.
    + eapply (pack_B_nr_spec S Rd bb pb (bo + c * n_r) (po + c * n_r * kd) N kd n_r (fun kk col => f kk (c * n_r + col)) bp m'); auto; try nia.
      * now rewrite HL'.
      * intros kk col Hcol Hkk. eapply (src_ok_frame S m m' Rd false _ _ _ (rng pb po (po + nq * n_r * kd))); auto.
        -- replace (bo + c * n_r + (kk * N + col)) with (bo + (kk * N + (c * n_r + col))) by ring. apply Hsrc; nia.
        -- intros b x Hx (-> & _). apply (HRd x); auto.
    + intros b x (-> & Hx). split; auto. nia.
    + auto.
    + cbn. intros _ m2 H2 _ HF2 q i kk Hq Hi Hkk. destruct (Z.eq_dec q c) as [->|Hne].
      * pose proof (H2 0 i kk ltac:(lia) Hi Hkk) as G. cbn [Z.mul Z.add] in G. rewrite <- G. f_equal. ring.
      * rewrite HF2; [apply HP; lia|]. intros (_ & Hx).
        assert ((q + 1) * (n_r * kd) <= c * (n_r * kd)) by (apply Z.mul_le_mono_nonneg_r; nia).
        assert (kk * n_r + i < n_r * kd) by nia. nia.
Qed.

(** The same with one thread per panel. *)
Lemma par_packB_panels (t : Z -> thr T unit) (bb pb : buf) bo po N kd n_r nq (f : Z -> Z -> T) bp m :
  (forall n2, t n2 = pack_B_nr_x_kc S (bb, bo + n2) (pb, po + n2 * kd) N kd n_r) ->
  0 < n_r -> 0 <= nq -> 0 <= kd ->
  live m pb = Some bp -> 0 <= po -> po + nq * n_r * kd <= blen bp -> bb <> pb ->
  (forall kk col, 0 <= col < nq * n_r -> 0 <= kk < kd ->
     src_ok S m (fun b _ => b = bb) false bb (bo + (kk * N + col)) (f kk col)) ->
  pok (ppar_for 0 (nq * n_r) n_r t) m
      (fun _ m' => live m' = live m /\ same_out (rng pb po (po + nq * n_r * kd)) m m' /\
         panels m' pb po n_r nq kd (fun col kk => f kk col)).
Proof.
  intros Ht Hmr Hnq Hkd HL Hp0 Hp1 HRd Hsrc.
  assert (Hblk : forall c, 0 <= c < nq -> 0 <= c * n_r * kd /\ 0 <= n_r * kd /\ c * n_r * kd + n_r * kd <= nq * n_r * kd).
  { intros c Hc. assert (0 <= c * n_r * kd) by nn.
    assert ((c + 1) * (n_r * kd) <= nq * (n_r * kd)) by (apply Z.mul_le_mono_nonneg_r; nia). nia. }
  eapply (par_blk _ pb nq 0 (nq * n_r) n_r
     (fun c => po + c * n_r * kd) (fun c => po + c * n_r * kd + n_r * kd)
     (fun c m' => panels m' pb (po + c * n_r * kd) n_r 1 kd (fun col kk => f kk (c * n_r + col)))
     (fun _ b _ => b = bb) po (po + nq * n_r * kd)); try lia.
  - intros c d y Hc Hd Hcd H1 H2. assert (0 <= n_r * kd) by nn. destruct (Z_lt_le_dec c d); nia.
  - intros c Hc _. specialize (Hblk c Hc). lia.
  - intros c Hc. replace (n_r * kd) with (1 * n_r * kd) by ring. apply panels_stable; lia.
  - intros c y _ E. congruence.
  - intros c Hc. replace (0 + c * n_r) with (c * n_r) by lia. specialize (Hblk c Hc). rewrite Ht.
    eapply (pack_B_nr_spec S (fun b _ => b = bb) bb pb (bo + c * n_r) (po + c * n_r * kd) N kd n_r (fun kk col => f kk (c * n_r + col)) bp m); auto; try nia.
    + intros kk col Hcol Hkk. replace (bo + c * n_r + (kk * N + col)) with (bo + (kk * N + (c * n_r + col))) by ring. apply Hsrc; nia.
  - intros m' HL' HF' HP. split; [auto|split; [auto|]].
    eapply panels_shift; [exact HP|]. reflexivity.
Qed.

Lemma par_packA_panels (t : Z -> thr T unit) (ab pb : buf) ao po K kd m_r nq (f : Z -> Z -> T) bp m :
  (forall m3, t m3 = pack_A_mr_x_kc S (ab, ao + m3 * K) (pb, po + m3 * kd) K kd m_r) ->
  0 < m_r -> 0 <= nq -> 0 <= kd ->
  live m pb = Some bp -> 0 <= po -> po + nq * m_r * kd <= blen bp -> ab <> pb ->
  (forall row kk, 0 <= row < nq * m_r -> 0 <= kk < kd ->
     src_ok S m (fun b _ => b = ab) false ab (ao + (row * K + kk)) (f row kk)) ->
  pok (ppar_for 0 (nq * m_r) m_r t) m
      (fun _ m' => live m' = live m /\ same_out (rng pb po (po + nq * m_r * kd)) m m' /\
         panels m' pb po m_r nq kd f).
Proof.
  intros Ht Hmr Hnq Hkd HL Hp0 Hp1 HRd Hsrc.
  assert (Hblk : forall c, 0 <= c < nq -> 0 <= c * m_r * kd /\ 0 <= m_r * kd /\ c * m_r * kd + m_r * kd <= nq * m_r * kd).
  { intros c Hc. assert (0 <= c * m_r * kd) by nn.
    assert ((c + 1) * (m_r * kd) <= nq * (m_r * kd)) by (apply Z.mul_le_mono_nonneg_r; nia). nia. }
  eapply (par_blk _ pb nq 0 (nq * m_r) m_r
     (fun c => po + c * m_r * kd) (fun c => po + c * m_r * kd + m_r * kd)
     (fun c m' => panels m' pb (po + c * m_r * kd) m_r 1 kd (fun row kk => f (c * m_r + row) kk))
     (fun _ b _ => b = ab) po (po + nq * m_r * kd)); try lia.
  - intros c d y Hc Hd Hcd H1 H2. assert (0 <= m_r * kd) by nn. destruct (Z_lt_le_dec c d); nia.
  - intros c Hc _. specialize (Hblk c Hc). lia.
  - intros c Hc. replace (m_r * kd) with (1 * m_r * kd) by ring. apply panels_stable; lia.
  - intros c y _ E. congruence.
  - intros c Hc. replace (0 + c * m_r) with (c * m_r) by lia. specialize (Hblk c Hc). rewrite Ht.
    eapply (pack_A_mr_spec S (fun b _ => b = ab) ab pb (ao + c * m_r * K) (po + c * m_r * kd) K kd m_r (fun row kk => f (c * m_r + row) kk) bp m); auto; try nia.
    + intros row kk Hrow Hkk. replace (ao + c * m_r * K + (row * K + kk)) with (ao + ((c * m_r + row) * K + kk)) by ring. apply Hsrc; nia.
  - intros m' HL' HF' HP. split; [auto|split; [auto|]].
    eapply panels_shift; [exact HP|]. reflexivity.
Qed.

(** ** The BLIS-style packers of the K-first code *)

Section Blis.

Variables (M N K p m_r n_r : Z) (x : blk_dims).
Hypothesis F : kmn_facts M N K p m_r n_r x.
Hypothesis HM : 0 <= M.
Hypothesis HN : 0 <= N.
Hypothesis HK : 0 <= K.
Hypothesis Hp : 0 < p.
Hypothesis Hmr : 0 < m_r.
Hypothesis Hnr : 0 < n_r.

(** Every share but the padded one lies inside the matrix. *)
Lemma share_inside m core : 0 <= m < Mb x -> 0 <= core < blk_pu x p m ->
  is_last m (Mb x) (m_pad x) && (core =? p_l x - 1) = false ->
  m * p * m_c x + core * core_mx x m + core_mt x m core <= M.
Proof.
  intros Hm Hc Hl.
  pose proof (kf_M _ _ _ _ _ _ _ F) as PM. pose proof (kf_C _ _ _ _ _ _ _ F m Hm) as PC.
  pose proof (kf_mc _ _ _ _ _ _ _ F) as Hmc. pose proof (part_end _ _ _ _ PC core Hc) as He.
  destruct (is_last m (Mb x) (m_pad x)) eqn:El; cbn [andb] in Hl.
  - apply Z.eqb_neq in Hl. unfold blk_pu in Hc. rewrite El in Hc.
    assert (Hpu : blk_pu x p m = p_l x) by (unfold blk_pu; now rewrite El). rewrite Hpu in PC.
    pose proof (pt_full _ _ _ _ PC core ltac:(lia) ltac:(lia)) as Ef.
    pose proof (pt_last _ _ _ _ PC ltac:(lia)) as E1.
    assert (Hlr : 0 < core_mt x m (p_l x - 1) /\ (m_r | core_mt x m (p_l x - 1))).
    { split; [apply (pt_w _ _ _ _ PC); lia|apply (kf_mr _ _ _ _ _ _ _ F); [auto|rewrite Hpu; lia]]. }
    assert (m_r <= core_mt x m (p_l x - 1)) by (apply Z.divide_pos_le; tauto).
    assert (El' : m = Mb x - 1). { unfold is_last in El. apply andb_true_iff in El. destruct El as (El & _). apply Z.eqb_eq in El. auto. }
    pose proof (pt_last _ _ _ _ PM ltac:(lia)) as E2. rewrite <- El' in E2.
    pose proof (kf_Mpu _ _ _ _ _ _ _ F). pose proof (kf_mx _ _ _ _ _ _ _ F m Hm).
    assert (core * core_mx x m + core_mx x m <= (p_l x - 1) * core_mx x m) by nia.
    replace (m * p * m_c x) with (m * (p * m_c x)) by ring. lia.
  - assert (m * (p * m_c x) + p * m_c x <= M).
    { pose proof (kf_Mq _ _ _ _ _ _ _ F) as Eq. pose proof (kf_mpad _ _ _ _ _ _ _ F) as Ep.
      assert (Hpm : 0 < p * m_c x) by nia.
      pose proof (Z.quot_rem M (p * m_c x) ltac:(lia)) as Q. pose proof (Z.rem_bound_pos M (p * m_c x) HM Hpm) as B.
      unfold is_last, pad01, truthy in *.
      destruct (Z.eqb_spec (Z.rem M (p * m_c x)) 0); cbn [negb] in Ep; rewrite Ep in *; cbn [Z.eqb negb] in El.
      - assert (m + 1 <= Z.quot M (p * m_c x)) by lia. nia.
      - rewrite andb_true_r in El. apply Z.eqb_neq in El. assert (m + 1 <= Z.quot M (p * m_c x)) by lia. nia. }
    pose proof (pt_w _ _ _ _ PM m Hm). lia.
Qed.

Lemma pack_A_k_first_blis_spec (ab pb : buf) (f : Z -> Z -> T) ba bp m :
  ab <> pb -> live m ab = Some ba -> M * K <= blen ba -> holds m ab M K f ->
  live m pb = Some bp -> M_padded x * K <= blen bp ->
  pok (pack_A_single_buf_k_first_blis S (ab, 0) (pb, 0) M K p x m_r) m
      (fun _ m' => live m' = live m /\ same_out (rng pb 0 (M_padded x * K)) m m' /\
         packedA_KMN S x p m_r K pb (padrow S M f) m').
Proof.
  intros Hne HLa Hba Hh HLp Hbp.
  unfold pack_A_single_buf_k_first_blis. apply pok_bind.
  set (P := fun m k core (m' : mem T) =>
    panels m' pb (m * p * m_c x * K + k * blk_mcb x p m_r m * k_c x + core * core_mx x m * blk_kt x k)
           m_r (core_mt x m core / m_r) (blk_kt x k)
           (fun row kk => padrow S M f (m * p * m_c x + core * core_mx x m + row) (k * k_c x + kk))).
  eapply pok_mono.
  { apply (pack2
      (fun m k off core =>
         if is_last m (Mb x) (m_pad x) && (core =? p_l x - 1) then
           pack_ob_A_single_buf S (padd (ab, 0) (m * p * m_c x * K + k * k_c x + core * core_mx x m * K))
             (padd (pb, 0) (off + core * core_mx x m * blk_kt x k))
             M K (m * p * m_c x) (core * core_mx x m) (core_mt x m core) (blk_kt x k) m_r
         else
           tfor_ 0 (core_mt x m core) m_r (fun m3 =>
             pack_A_mr_x_kc S (padd (ab, 0) (m * p * m_c x * K + k * k_c x + core * core_mx x m * K + m3 * K))
               (padd (pb, 0) (off + core * core_mx x m * blk_kt x k + m3 * blk_kt x k)) K (blk_kt x k) m_r))
      (fun m k => blk_mcb x p m_r m * blk_kt x k) pb (fun b _ => b = ab)
      (Mb x) (p * m_c x) (M_padded x) (blk_mcb x p m_r) (Kb x) (k_c x) K (blk_kt x)
      (fun m k => blk_pu x p m) (fun m k => core_mx x m) (fun m k => blk_mcb x p m_r m)
      (fun m k => blk_kt x k) (fun m k => core_mt x m) P m); auto.
    - apply (kf_M _ _ _ _ _ _ _ F).
    - apply (kf_K _ _ _ _ _ _ _ F).
    - intros i j Hi Hj. split; [apply (kf_C _ _ _ _ _ _ _ F); auto|].
      pose proof (pt_w _ _ _ _ (kf_K _ _ _ _ _ _ _ F) j Hj). lia.
    - intros i j c Hi Hj Hc. unfold P.
      pose proof (pt_w _ _ _ _ (kf_K _ _ _ _ _ _ _ F) j Hj) as Hk.
      pose proof (pt_w _ _ _ _ (kf_C _ _ _ _ _ _ _ F i Hi) c Hc) as Hw.
      pose proof (div_exact_of m_r _ Hmr (kf_mr _ _ _ _ _ _ _ F i c Hi Hc)) as E.
      replace (i * (p * m_c x) * K + blk_mcb x p m_r i * (j * k_c x) + c * core_mx x i * blk_kt x j)
        with (i * p * m_c x * K + j * blk_mcb x p m_r i * k_c x + c * core_mx x i * blk_kt x j) by ring.
      rewrite E at 1.
      apply panels_stable; try lia; apply Z.div_pos; lia.
    - intros i j c m' Hi Hj Hc HL HF Hbnd. unfold P.
      pose proof (pt_w _ _ _ _ (kf_K _ _ _ _ _ _ _ F) j Hj) as Hk.
      pose proof (part_end _ _ _ _ (kf_K _ _ _ _ _ _ _ F) j Hj) as Hke.
      pose proof (pt_w _ _ _ _ (kf_C _ _ _ _ _ _ _ F i Hi) c Hc) as Hw.
      pose proof (div_exact_of m_r _ Hmr (kf_mr _ _ _ _ _ _ _ F i c Hi Hc)) as E.
      pose proof (pt_w _ _ _ _ (kf_M _ _ _ _ _ _ _ F) i Hi) as HMw.
      pose proof (kf_mc _ _ _ _ _ _ _ F) as Hmc.
      assert (Hsrc : forall pad row kk, 0 <= row < core_mt x i c -> 0 <= kk < blk_kt x j ->
         pad = (M <=? i * p * m_c x + c * core_mx x i + row) ->
         src_ok S m' (fun b _ => b = ab) pad ab
           (0 + (i * p * m_c x * K + j * k_c x + c * core_mx x i * K) + (row * K + kk))
           (padrow S M f (i * p * m_c x + c * core_mx x i + row) (j * k_c x + kk))).
      { intros pad row kk Hrow Hkk ->. unfold src_ok, padrow.
        destruct (Z.leb_spec M (i * p * m_c x + c * core_mx x i + row)) as [Hpad|Hpad].
        * destruct (Z.ltb_spec (i * p * m_c x + c * core_mx x i + row) M); [lia|easy].
        * destruct (Z.ltb_spec (i * p * m_c x + c * core_mx x i + row) M); [|lia].
          assert (0 <= i * p * m_c x + c * core_mx x i + row).
          { pose proof (kf_pu _ _ _ _ _ _ _ F i Hi). pose proof (kf_mx _ _ _ _ _ _ _ F i Hi). nia. }
          assert (Ea : 0 + (i * p * m_c x * K + j * k_c x + c * core_mx x i * K) + (row * K + kk)
                     = (i * p * m_c x + c * core_mx x i + row) * K + (j * k_c x + kk)) by ring.
          assert (0 <= j * k_c x + kk < K) by (pose proof (kf_kc _ _ _ _ _ _ _ F); nia).
          split; [auto|split].
          -- rewrite HF by (intros (? & _); congruence). rewrite Ea. apply Hh; lia.
          -- exists ba. rewrite HL. split; auto. rewrite Ea. nia. }
      set (B := i * (p * m_c x) * K + blk_mcb x p m_r i * (j * k_c x) + c * core_mx x i * blk_kt x j) in *.
      replace (i * p * m_c x * K + j * blk_mcb x p m_r i * k_c x + c * core_mx x i * blk_kt x j) with B by (unfold B; ring).
      assert (EB : i * (p * m_c x) * K + blk_mcb x p m_r i * (j * k_c x) + c * core_mx x i * blk_kt x j = B) by reflexivity.
      clearbody B. clear EB.
      destruct (is_last i (Mb x) (m_pad x) && (c =? p_l x - 1)) eqn:El.
      + unfold padd. cbn [fst snd]. replace B with (0 + B) in * by lia.
        eapply (pack_ob_A_spec S _ ab pb _ _ M K _ _ _ _ m_r (core_mt x i c / m_r) _ bp); try lia.
        * rewrite HL. exact HLp.
        * intros y Ey. congruence.
        * intros row kk Hrow Hkk. apply Hsrc; auto.
      + pose proof (share_inside i c Hi Hc El) as Hin.
        assert (Esz : core_mt x i c * blk_kt x j = core_mt x i c / m_r * m_r * blk_kt x j) by (rewrite <- E; ring).
        rewrite E at 2. rewrite Esz in *.
        eapply (packA_panels _ (fun b _ => b = ab) ab pb (i * p * m_c x * K + j * k_c x + c * core_mx x i * K) B K (blk_kt x j) m_r
                  (core_mt x i c / m_r) (fun row kk => padrow S M f (i * p * m_c x + c * core_mx x i + row) (j * k_c x + kk)) bp m').
        * intros m3. unfold padd. cbn [fst snd]. f_equal; f_equal; ring.
        * lia.
        * apply Z.div_pos; lia.
        * lia.
        * rewrite HL. exact HLp.
        * lia.
        * lia.
        * intros y Ey. congruence.
        * rewrite <- E. intros row kk Hrow Hkk. apply Hsrc; auto. symmetry. apply Z.leb_gt. lia. }
  cbn. intros _ m' (HL & HF & HP). apply pok_ret. split; [auto|split; auto].
Qed.


Lemma packB_main_blis_spec (bb pb : buf) n1 base (f : Z -> Z -> T) bp m :
  0 <= base -> bb <> pb ->
  live m pb = Some bp -> base + Z.quot K (k_c x) * k_c x * n_c x <= blen bp ->
  (forall kk col, 0 <= kk < K -> 0 <= col < n_c x ->
     src_ok S m (fun b _ => b = bb) false bb (n1 + kk * N + col) (f kk (n1 + col))) ->
  pok (packB_main_blis S (bb, 0) (pb, 0) K N x n_r n1 base) m
      (fun _ m' => live m' = live m /\
         same_out (rng pb base (base + Z.quot K (k_c x) * k_c x * n_c x)) m m' /\
         forall k, 0 <= k < Z.quot K (k_c x) ->
           panels m' pb (base + k * k_c x * n_c x) n_r (n_c x / n_r) (k_c x)
                  (fun col kk => f (k * k_c x + kk) (n1 + col))).
Proof.
  intros Hb0 Hne HL Hlen Hsrc. unfold packB_main_blis.
  pose proof (kf_kc _ _ _ _ _ _ _ F) as Hkc. pose proof (kf_nc _ _ _ _ _ _ _ F) as Hnc.
  pose proof (div_exact_of n_r _ Hnr (kf_ncd _ _ _ _ _ _ _ F)) as Ed.
  pose proof (Z.quot_rem K (k_c x) ltac:(lia)) as QK.
  pose proof (Z.rem_bound_pos K (k_c x) HK Hkc) as BK.
  assert (Hq0 : 0 <= Z.quot K (k_c x)) by (apply Z.quot_pos; lia).
  set (kq := Z.quot K (k_c x)) in *. set (kc := k_c x) in *.
  set (nt := n_c x) in *.
  assert (Hblk : forall k, 0 <= k < kq ->
      0 <= k * kc * nt /\ 0 <= kc * nt /\ k * kc * nt + kc * nt <= kq * kc * nt).
  { intros k Hk. assert (0 <= k * kc * nt) by nn. assert (0 <= kc * nt) by nn.
    assert ((k + 1) * (kc * nt) <= kq * (kc * nt)) by (apply Z.mul_le_mono_nonneg_r; lia). lia. }
  eapply (par_blk _ pb kq 0 (K - Z.rem K kc) kc
     (fun k => base + k * kc * nt) (fun k => base + k * kc * nt + kc * nt)
     (fun k m' => panels m' pb (base + k * kc * nt) n_r (nt / n_r) kc
                  (fun col kk => f (k * kc + kk) (n1 + col)))
     (fun _ b _ => b = bb) base (base + kq * kc * nt)); try lia.
  - intros c d y Hc Hd Hcd H1 H2. assert (0 <= kc * nt) by nn.
    destruct (Z_lt_le_dec c d); nia.
  - intros c Hc _. specialize (Hblk c Hc). lia.
  - intros c Hc. replace (base + c * kc * nt + kc * nt) with (base + c * kc * nt + nt / n_r * n_r * kc) by (rewrite <- Ed; ring).
    apply panels_stable; try lia; apply Z.div_pos; lia.
  - intros c y _ E. congruence.
  - intros k Hk. replace (0 + k * kc) with (k * kc) by lia. cbv beta. rewrite Z.quot_mul by lia.
    specialize (Hblk k Hk). set (bs := base + k * kc * nt) in *.
    replace (kc * nt) with (nt / n_r * n_r * kc) by (rewrite <- Ed; ring).
    rewrite Ed at 2.
    eapply (packB_panels _ (fun b _ => b = bb) bb pb (n1 + k * kc * N) bs N kc n_r (nt / n_r)
              (fun kk col => f (k * kc + kk) (n1 + col)) bp m).
    + intros n2. unfold padd. cbn [fst snd]. f_equal.
    + lia.
    + apply Z.div_pos; lia.
    + lia.
    + auto.
    + lia.
    + rewrite <- Ed. lia.
    + intros y Ey. congruence.
    + rewrite <- Ed. intros kk col Hcol Hkk.
      replace (n1 + k * kc * N + (kk * N + col)) with (n1 + (k * kc + kk) * N + col) by ring.
      apply Hsrc; auto. assert (k * kc + kc <= kq * kc) by nia. nia.
  - intros m' HL' HF' HP. auto.
Qed.

Lemma packB_tail_blis_spec (bb pb : buf) n1 base (f : Z -> Z -> T) bp m :
  0 <= base -> bb <> pb ->
  live m pb = Some bp -> base + k_c1 x * n_c x <= blen bp ->
  (forall kk col, 0 <= kk < K -> 0 <= col < n_c x ->
     src_ok S m (fun b _ => b = bb) false bb (n1 + kk * N + col) (f kk (n1 + col))) ->
  pok (packB_tail_blis S (bb, 0) (pb, 0) K N x n_r n1 base) m
      (fun _ m' => live m' = live m /\
         same_out (rng pb base (base + k_c1 x * n_c x)) m m' /\
           panels m' pb base n_r (n_c x / n_r) (k_c1 x)
                  (fun col kk => f (Z.quot K (k_c x) * k_c x + kk) (n1 + col))).
Proof.
  intros Hb0 Hne HL Hlen Hsrc. unfold packB_tail_blis. cbv zeta.
  pose proof (kf_kc _ _ _ _ _ _ _ F) as Hkc. pose proof (kf_nc _ _ _ _ _ _ _ F) as Hnc.
  pose proof (div_exact_of n_r _ Hnr (kf_ncd _ _ _ _ _ _ _ F)) as Ed.
  pose proof (kf_kc1 _ _ _ _ _ _ _ F) as Ek1.
  pose proof (Z.quot_rem K (k_c x) ltac:(lia)) as QK.
  pose proof (Z.rem_bound_pos K (k_c x) HK Hkc) as BK.
  assert (Hq0 : 0 <= Z.quot K (k_c x)) by (apply Z.quot_pos; lia).
  assert (Hq1 : 0 <= Z.quot K (k_c x) * k_c x) by nn.
  rewrite <- Ek1 in *. rewrite Ed at 1.
  replace (k_c1 x * n_c x) with (n_c x / n_r * n_r * k_c1 x) in * by (rewrite <- Ed; ring).
  eapply (par_packB_panels _ bb pb (n1 + (K - k_c1 x) * N) base N (k_c1 x) n_r (n_c x / n_r)
            (fun kk col => f (Z.quot K (k_c x) * k_c x + kk) (n1 + col)) bp m); auto; try lia.
  - rewrite <- Ed. intros kk col Hcol Hkk.
    replace (n1 + (K - k_c1 x) * N + (kk * N + col)) with (n1 + (Z.quot K (k_c x) * k_c x + kk) * N + col)
      by (replace (K - k_c1 x) with (Z.quot K (k_c x) * k_c x) by lia; ring).
    apply Hsrc; auto. lia.
Qed.

Lemma packB_col_blis_spec {R} (bb pb : buf) (nn' : Z) n1 base (nt : Z) (f : Z -> Z -> T) bp (r1 r2 : R) m :
  nn' = n_c x / n_r -> nt = n_c x -> 0 <= base -> bb <> pb ->
  live m pb = Some bp -> base + K * nt <= blen bp ->
  (forall kk col, 0 <= kk < K -> 0 <= col < nt ->
     src_ok S m (fun b _ => b = bb) (false && (N <=? n1 + col)) bb (n1 + kk * N + col) (f kk (n1 + col))) ->
  pok (pbind (packB_main_blis S (bb, 0) (pb, 0) K N x n_r n1 base) (fun _ =>
        if truthy (k_c1 x)
        then pbind (packB_tail_blis S (bb, 0) (pb, 0) K N x n_r n1 (base + (K - Z.rem K (k_c x)) * n_c x))
                   (fun _ => PRet r1)
        else PRet r2)) m
      (fun r m' => r = (if truthy (k_c1 x) then r1 else r2) /\ live m' = live m /\
         same_out (rng pb base (base + K * nt)) m m' /\
         forall k, 0 <= k < Kb x ->
           panels m' pb (base + k * k_c x * nt) n_r nn' (blk_kt x k)
                  (fun col kk => f (k * k_c x + kk) (n1 + col))).
Proof.
  intros -> -> Hb0 Hne HL Hlen Hsrc. cbn [andb] in Hsrc.
  pose proof (kf_kc _ _ _ _ _ _ _ F) as Hkc. pose proof (kf_kc1 _ _ _ _ _ _ _ F) as Ek1.
  pose proof (kf_nc _ _ _ _ _ _ _ F) as Hnc.
  pose proof (div_exact_of n_r _ Hnr (kf_ncd _ _ _ _ _ _ _ F)) as Ed.
  pose proof (Z.quot_rem K (k_c x) ltac:(lia)) as QK.
  pose proof (Z.rem_bound_pos K (k_c x) HK Hkc) as BK.
  assert (Hq0 : 0 <= Z.quot K (k_c x)) by (apply Z.quot_pos; lia).
  set (nt := n_c x) in *.
  assert (Hsz : 0 <= Z.quot K (k_c x) * k_c x * nt /\ Z.quot K (k_c x) * k_c x * nt + k_c1 x * nt = K * nt /\ 0 <= k_c1 x * nt).
  { split; [nn|]. split; [rewrite Ek1; rewrite QK at 3; ring|nn]. }
  apply pok_bind. eapply pok_mono.
  { eapply (packB_main_blis_spec bb pb n1 base f bp m); auto. fold nt. lia. }
  cbn. intros _ m1 (HL1 & HF1 & HP1).
  unfold truthy. destruct (Z.eqb_spec (k_c1 x) 0) as [E0|E0]; cbn [negb].
  - apply pok_ret. split; [auto|split; [auto|split]].
    + eapply same_out_sub; [exact HF1|]. intros b y (-> & Hy). split; auto. fold nt in Hy. lia.
    + intros k Hk. destruct (kt_cases M N K p m_r n_r x F HK k Hk) as [(Hk1 & ->)|(_ & _ & H)]; [|lia]. apply HP1; lia.
  - apply pok_bind. eapply pok_mono.
    { eapply (packB_tail_blis_spec bb pb n1 _ f bp m1); auto.
      - replace (K - Z.rem K (k_c x)) with (Z.quot K (k_c x) * k_c x) by lia. fold nt. lia.
      - now rewrite HL1.
      - replace (K - Z.rem K (k_c x)) with (Z.quot K (k_c x) * k_c x) by lia. fold nt. lia.
      - intros kk col Hkk Hcol. eapply (src_ok_frame S m m1); [apply Hsrc; auto|auto|exact HF1|].
        intros b y -> (? & _). congruence. }
    cbn. intros _ m2 (HL2 & HF2 & HP2). apply pok_ret. fold nt in HF1, HF2, HP1, HP2.
    replace (K - Z.rem K (k_c x)) with (Z.quot K (k_c x) * k_c x) in * by lia.
    split; [auto|split; [congruence|split]].
    + intros b y Hy. rewrite HF2, HF1; auto; intros (-> & H); apply Hy; split; auto; lia.
    + intros k Hk. destruct (kt_cases M N K p m_r n_r x F HK k Hk) as [(Hk1 & ->)|(-> & -> & H)].
      * assert (Hkb : (k + 1) * (k_c x * nt) <= Z.quot K (k_c x) * (k_c x * nt))
          by (apply Z.mul_le_mono_nonneg_r; nia).
        eapply (panels_stable S pb _ n_r (nt / n_r) (k_c x)); [lia|apply Z.div_pos; lia|lia| |apply HP1; lia].
        rewrite <- Ed. intros y Hy. symmetry. apply HF2. intros (_ & H). nia.
      * exact HP2.
Qed.

Lemma pack_B_k_first_blis_spec (bb pb : buf) (f : Z -> Z -> T) bi bp m :
  bb <> pb ->
  live m bb = Some bi -> K * N <= blen bi -> holds m bb K N f ->
  live m pb = Some bp -> K * N_padded x <= blen bp ->
  pok (pack_B_k_first_blis S (bb, 0) (pb, 0) K N x n_r) m
      (fun _ m' => live m' = live m /\ same_out (rng pb 0 (K * N_padded x)) m m' /\
         packedB_KMN S x n_r K pb (padcol S N f) m').
Proof.
  intros Hne HLb Hbb Hh HLp Hbp.
  pose proof (kf_kc _ _ _ _ _ _ _ F) as Hkc. pose proof (kf_nc _ _ _ _ _ _ _ F) as Hnc.
  pose proof (Z.quot_rem N (n_c x) ltac:(lia)) as QN.
  pose proof (Z.rem_bound_pos N (n_c x) HN Hnc) as BN.
  assert (Hq0 : 0 <= Z.quot N (n_c x)) by (apply Z.quot_pos; lia).
  pose proof (kf_N _ _ _ _ _ _ _ F) as PN.
  unfold pack_B_k_first_blis.
  destruct (Z.eqb_spec (n_c x) 0) as [?|_]; [lia|]. destruct (Z.eqb_spec (k_c x) 0) as [?|_]; [lia|]. cbn [orb].
  set (nq := Z.quot N (n_c x)) in *.
  replace (N - Z.rem N (n_c x)) with (nq * n_c x) by lia.
  assert (Hnb : nq <= Nb x).
  { rewrite (kf_Nq _ _ _ _ _ _ _ F), (kf_npad _ _ _ _ _ _ _ F). fold nq. unfold pad01. destruct (truthy _); lia. }
  assert (Dn : forall n, 0 <= n < nq -> (n_r | n_c x)).
  { intros n Hn. destruct (nt_cases M N K p m_r n_r x F n HN Hnr ltac:(lia)) as [(_ & <-)|(Hc & _)]; [|fold nq in Hc; lia].
    apply (kf_nr _ _ _ _ _ _ _ F). lia. }
  assert (Hend : nq * n_c x <= N_padded x) by (pose proof (kf_Np _ _ _ _ _ _ _ F); nia).
  assert (Hsrc : forall m' n nt, live m' = live m -> same_out (rng pb 0 (K * N_padded x)) m m' ->
            0 <= n -> (n * n_c x + nt <= N \/ True) ->
            forall guard, (guard = false -> n * n_c x + nt <= N) ->
            forall kk col, 0 <= kk < K -> 0 <= col < nt ->
     src_ok S m' (fun b _ => b = bb) (guard && (N <=? n * n_c x + col)) bb (n * n_c x + kk * N + col)
            (padcol S N f kk (n * n_c x + col))).
  { intros m' n0 nt HL' HF' Hn0 _ guard Hg kk col Hkk Hcol. unfold src_ok, padcol.
    destruct (Z.leb_spec N (n0 * n_c x + col)) as [Hc|Hc].
    - destruct guard; cbn [andb]; [|specialize (Hg eq_refl); lia].
      destruct (Z.ltb_spec (n0 * n_c x + col) N); [lia|easy].
    - rewrite andb_false_r. destruct (Z.ltb_spec (n0 * n_c x + col) N); [|lia].
      assert (Ea : n0 * n_c x + kk * N + col = kk * N + (n0 * n_c x + col)) by ring.
      assert (0 <= n0 * n_c x + col) by nia.
      split; [auto|]. split.
      + rewrite HF' by (intros (? & _); congruence). rewrite Ea. apply Hh; lia.
      + exists bi. rewrite HL'. split; auto. rewrite Ea. nia. }
  set (P := fun n (m' : mem T) => forall k, 0 <= k < Kb x ->
    panels m' pb (n * K * n_c x + k * k_c x * blk_nt x n)
           n_r (blk_nt x n / n_r) (blk_kt x k)
           (fun col kk => padcol S N f (k * k_c x + kk) (n * n_c x + col))).
  assert (HPst : forall n, 0 <= n < Nb x -> stable pb (n * K * n_c x) (n * K * n_c x + K * blk_nt x n) (P n)).
  { intros n0 Hn0 m1 m2 Hs HP k Hk.
    pose proof (pt_w _ _ _ _ (kf_K _ _ _ _ _ _ _ F) k Hk) as Hw.
    pose proof (part_end _ _ _ _ (kf_K _ _ _ _ _ _ _ F) k Hk) as He.
    pose proof (pt_w _ _ _ _ PN n0 Hn0) as Hwn.
    pose proof (div_exact_of n_r _ Hnr (kf_nr _ _ _ _ _ _ _ F n0 Hn0)) as E.
    eapply panels_stable; [lia|apply Z.div_pos; lia|lia| |apply HP; auto].
    rewrite <- E. intros y Hy. apply Hs.
    assert (0 <= k * k_c x * blk_nt x n0) by nn.
    assert ((k * k_c x + blk_kt x k) * blk_nt x n0 <= K * blk_nt x n0) by (apply Z.mul_le_mono_nonneg_r; lia).
    lia. }
  apply pok_bind. eapply pok_mono.
  { change 0 with ((fun n => n * K * n_c x) 0) at 4.
    eapply (pblk_loop _ pb (fun n => n * K * n_c x) nq 0 (nq * n_c x) (n_c x) P); try lia.
    - intros c Hc. replace ((c + 1) * K * n_c x) with (c * K * n_c x + K * n_c x) by ring.
      destruct (nt_cases M N K p m_r n_r x F c HN Hnr ltac:(lia)) as [(_ & E)|(Hcc & _)]; [|fold nq in Hcc; lia].
      rewrite <- E at 3. apply HPst; lia.
    - intros c m' Hc HL' HF'. cbv beta. replace (0 + c * n_c x) with (c * n_c x) by lia.
      destruct (nt_cases M N K p m_r n_r x F c HN Hnr ltac:(lia)) as [(_ & E)|(Hcc & _)]; [|fold nq in Hcc; lia].
      pose proof (div_exact_of n_r _ Hnr (Dn c Hc)) as Ed.
      assert (Hc1 : (c + 1) * (n_c x) <= nq * n_c x) by (apply Z.mul_le_mono_nonneg_r; lia).
      assert (0 <= c * K * n_c x) by nn.
      assert (c * K * n_c x + K * n_c x <= K * N_padded x).
      { assert (K * ((c + 1) * n_c x) <= K * N_padded x) by (apply Z.mul_le_mono_nonneg_l; lia). lia. }
      cbv zeta.
      assert (HF'' : same_out (rng pb 0 (K * N_padded x)) m m').
      { eapply same_out_sub; [exact HF'|]. intros b y (-> & Hy). split; auto.
        assert (nq * K * n_c x <= K * N_padded x).
        { assert (K * (nq * n_c x) <= K * N_padded x) by (apply Z.mul_le_mono_nonneg_l; lia). lia. } lia. }
      eapply pok_mono.
      { eapply (packB_col_blis_spec bb pb (n_c x / n_r) (c * n_c x) (c * K * n_c x) (n_c x) (padcol S N f) bp
             (c * K * n_c x + (K - Z.rem K (k_c x)) * n_c x + k_c1 x * n_c x) (c * K * n_c x + (K - Z.rem K (k_c x)) * n_c x) m'); auto.
        - now rewrite HL'.
        - lia.
        - apply Hsrc; auto; [lia|]. intros _. lia. }
      cbn. intros r m2 (-> & HL2 & HF2 & HP2). split; [|split; [auto|split]].
      + rewrite (kf_kc1 _ _ _ _ _ _ _ F). unfold truthy.
        destruct (Z.eqb_spec (Z.rem K (k_c x)) 0) as [E0|E0]; cbn [negb]; [rewrite E0|]; ring.
      + eapply same_out_sub; [exact HF2|]. intros b y (-> & Hy). split; auto. lia.
      + intros k Hk. rewrite E. apply HP2; auto. }
  cbn. intros r m1 (-> & HL1 & HF1 & HP1).
  assert (HF1' : same_out (rng pb 0 (K * N_padded x)) m m1).
  { eapply same_out_sub; [exact HF1|]. intros b y (-> & Hy). split; auto.
    assert (K * (nq * n_c x) <= K * N_padded x) by (apply Z.mul_le_mono_nonneg_l; lia). lia. }
  unfold truthy at 1. destruct (Z.eqb_spec (n_c1 x) 0) as [E0|E0]; cbn [negb].
  - apply pok_ret. split; [auto|split; [auto|]]. intros n0 k Hn0 Hk.
    destruct (nt_cases M N K p m_r n_r x F n0 HN Hnr Hn0) as [(Hn & E)|(_ & _ & H & _)]; [|lia]. fold nq in Hn. apply HP1; auto. lia.
  - destruct (Z.eq_dec (Nb x) nq) as [Ez|Ez].
    { exfalso. pose proof (kf_Nq _ _ _ _ _ _ _ F) as E1. pose proof (kf_npad _ _ _ _ _ _ _ F) as E2.
      pose proof (kf_nc1 _ _ _ _ _ _ _ F) as E3. fold nq in E1. unfold pad01, truthy in E2.
      destruct (Z.eqb_spec (Z.rem N (n_c x)) 0) as [E4|E4]; cbn [negb] in E2; [|lia].
      rewrite E4, cdiv_0 in E3 by lia. lia. }
    assert (Hlast : 0 <= nq < Nb x) by lia.
    destruct (nt_cases M N K p m_r n_r x F nq HN Hnr Hlast) as [(Hn & _)|(_ & E & Hpos & _)]; [fold nq in Hn; lia|].
    pose proof (part_end _ _ _ _ PN nq Hlast) as He. rewrite E in He.
    pose proof (kf_nr _ _ _ _ _ _ _ F nq Hlast) as Dl. rewrite E in Dl.
    pose proof (div_exact_of n_r _ Hnr Dl) as Ed.
    assert (0 <= nq * K * n_c x) by nn.
    assert (K * (nq * n_c x + n_c1 x) <= K * N_padded x) by (apply Z.mul_le_mono_nonneg_l; lia).
    match goal with |- pok (pbind _ (fun _ => if _ then ?t else _)) _ _ => rewrite <- (pbind_tt t) end.
    eapply pok_mono.
    { eapply (packB_col_spec S M N K p m_r n_r x F HK true bb pb (n_c1 x / n_r) (nq * n_c x) (nq * K * n_c x) (n_c1 x) (padcol S N f) bp tt tt m1); auto.
      - apply Z.div_pos; lia.
      - now rewrite HL1.
      - lia.
      - apply Hsrc; auto. intros; discriminate. }
    cbn. intros r m2 (_ & HL2 & HF2 & HP2). split; [congruence|split].
    + intros b y Hy. rewrite HF2, HF1'; auto; intros (-> & H'); apply Hy; split; auto; lia.
    + intros n0 k Hn0 Hk. destruct (nt_cases M N K p m_r n_r x F n0 HN Hnr Hn0) as [(Hn & E')|(Hn & E' & _)].
      * fold nq in Hn. assert ((n0 + 1) * (K * n_c x) <= nq * (K * n_c x)) by (apply Z.mul_le_mono_nonneg_r; nia).
        eapply (HPst n0 Hn0); [|apply HP1; lia|exact Hk].
        rewrite E'. intros y Hy. symmetry. apply HF2. intros (_ & H'). lia.
      * fold nq in Hn. subst n0. rewrite E. apply HP2; auto.
Qed.

End Blis.

End P.
