(** * Facts about the convolution example: packing the filters. *)

From Coq Require Import ZArith List Bool Lia.
From Verif Require Import Lang Lang_facts Spec SpecTop SpecSmall SpecConv ModelSizing ModelKernel ModelPack ModelSmall ModelTop
     Kernel_facts Tile_facts Loop_facts Pack_facts Sizing_facts PackMat_facts ModelConv Conv_facts ConvSched_facts.
Import ListNotations.
Open Scope Z_scope.

Section PackF.

Variable S : scalar.
Notation T := (elt S).

(** nq groups of r filters; in each, for each of the nine positions, kd x r elements. *)
Definition groups (m : mem T) (b : buf) (base r nq kd : Z) (f : Z -> Z -> T) : Prop :=
  forall q ker i j, 0 <= q < nq -> 0 <= ker < 9 -> 0 <= i < kd -> 0 <= j < r ->
    dat m b (base + (((q * 9 + ker) * kd + i) * r + j)) = Some (f (q * r + j) (i * 9 + ker)).

Lemma grp_bound q ker i j r nq kd : 0 <= q < nq -> 0 <= ker < 9 -> 0 <= i < kd -> 0 <= j < r ->
  0 <= ((q * 9 + ker) * kd + i) * r + j < nq * (9 * (kd * r)).
Proof.
  intros Hq Hk Hi Hj.
  assert (A : 0 <= (q * 9 + ker) * kd + i < nq * 9 * kd) by nia.
  replace (nq * (9 * (kd * r))) with (nq * 9 * kd * r) by ring. nia.
Qed.

Lemma pack_ob_conv_spec (Rd : region) (ab pb : buf) ao po M K m1 m2 mt kd m_r nq (f : Z -> Z -> T) bp m :
  0 < m_r -> 0 <= nq -> 0 <= kd -> mt = nq * m_r ->
  live m pb = Some bp -> 0 <= po -> po + mt * (kd * 9) <= blen bp ->
  (forall x, ~ Rd pb x) ->
  (forall row kk, 0 <= row < mt -> 0 <= kk < kd * 9 ->
     src_ok S m Rd (M <=? m1 + m2 + row) ab (ao + (row * K + kk)) (f row kk)) ->
  twp (rng pb po (po + mt * (kd * 9))) Rd
      (pack_ob_A_single_buf_conv S (ab, ao) (pb, po) M K m1 m2 mt kd m_r)
      (fun _ m' => groups m' pb po m_r nq kd f) m.
Proof.
  intros Hmr Hnq Hkd -> HL Hp0 Hp1 HRd Hsrc. unfold pack_ob_A_single_buf_conv.
  replace (nq * m_r * (kd * 9)) with (nq * (9 * (kd * m_r))) in * by ring.
  assert (Hw : 0 <= kd * m_r) by nia. set (w := kd * m_r) in *.
  eapply twp_mono.
  - eapply (blk_loop _ pb po nq 0 (nq * m_r) m_r (9 * w) 0
       (fun q m' => forall ker, 0 <= ker < 9 -> forall i j, 0 <= i < kd -> 0 <= j < m_r ->
          dat m' pb (po + q * (9 * w) + ker * w + i * m_r + j) = Some (f (q * m_r + j) (i * 9 + ker)))); auto; try lia.
    + intros q Hq m3 m4 Hs H ker Hker i j Hi Hj. rewrite <- Hs; [auto|].
      assert (0 <= i * m_r + j < w) by (unfold w; nia). nia.
    + intros q m3 Hq HL3 HF3. replace (0 + q * m_r) with (q * m_r) by lia.
      assert (Hqw : 0 <= q * (9 * w) /\ q * (9 * w) + 9 * w <= nq * (9 * w)) by nia.
      eapply twp_call with (Rd' := Rd).
      * eapply (blk_loop _ pb (po + q * (9 * w)) 9 0 9 1 w (0 + q * (9 * w))
          (fun ker m' => forall i j, 0 <= i < kd -> 0 <= j < m_r ->
            dat m' pb (po + q * (9 * w) + ker * w + i * m_r + j) = Some (f (q * m_r + j) (i * 9 + ker)))); auto; try lia.
        -- intros ker Hker m4 m5 Hs H i j Hi Hj. rewrite <- Hs; [auto|].
           assert (0 <= i * m_r + j < w) by (unfold w; nia). lia.
        -- intros ker m4 Hker HL4 HF4. replace (0 + ker * 1) with ker by lia.
           assert (Hkw : 0 <= ker * w /\ ker * w + w <= 9 * w) by nia.
           eapply twp_call with (Rd' := Rd).
           ++ apply (copy2_spec S Rd pb ab po ao (0 + q * (9 * w) + ker * w) kd m_r 0
                  (fun i j => M <=? m1 + m2 + q * m_r + j)
                  (fun i j => q * m_r * K + i * 9 + ker + j * K) (fun i j => f (q * m_r + j) (i * 9 + ker)) bp m4); auto; try lia.
              ** rewrite HL4, HL3. exact HL.
              ** intros i j Hi Hj.
                 eapply (src_ok_frame S m m4 Rd _ _ _ _ (rng pb po (po + nq * (9 * w)))).
                 --- replace (ao + (q * m_r * K + i * 9 + ker + j * K)) with (ao + ((q * m_r + j) * K + (i * 9 + ker))) by ring.
                     replace (m1 + m2 + q * m_r + j) with (m1 + m2 + (q * m_r + j)) by ring.
                     apply Hsrc; [nia|lia].
                 --- congruence.
                 --- intros b x Hx. rewrite HF4; [apply HF3; auto|]. intros (-> & Hx'). apply Hx. split; auto. lia.
                 --- intros b x Hx (-> & _). apply (HRd x); auto.
           ++ fold w. intros b x (-> & Hx). split; auto. lia.
           ++ auto.
           ++ cbv beta. fold w. intros ind m5 (-> & H5) _ _. split; [ring|].
              intros i j Hi Hj. rewrite <- (H5 i j Hi Hj). f_equal. ring.
      * intros b x (-> & Hx). split; auto. lia.
      * auto.
      * cbv beta. intros ind m4 (-> & H4) _ _. split; [lia|]. exact H4.
  - cbv beta. intros ind m3 (_ & H3) q ker i j Hq Hker Hi Hj.
    rewrite <- (H3 q Hq ker Hker i j Hi Hj). f_equal. unfold w. ring.
Qed.

Lemma groups_stable b base r nq kd (f : Z -> Z -> T) :
  stable b base (base + nq * (9 * (kd * r))) (fun m => groups m b base r nq kd f).
Proof.
  intros m1 m2 Hs H q ker i j Hq Hker Hi Hj. pose proof (grp_bound q ker i j r nq kd Hq Hker Hi Hj).
  rewrite <- Hs; [now apply H|lia].
Qed.

Lemma pack_filters_spec x M N C p m_r n_r (ab pb : buf) (f : Z -> Z -> T) ba bp m :
  kmn_facts M N C p m_r n_r x -> 0 < m_r -> 0 <= C ->
  ab <> pb ->
  live m ab = Some ba -> M * (C * 9) <= blen ba -> holds m ab M (C * 9) f ->
  live m pb = Some bp -> M_padded x * (C * 9) <= blen bp ->
  pok (ModelConv.pack_filters S ab pb M (C * 9) p x m_r) m
      (fun _ m' => live m' = live m /\ same_out (rng pb 0 (M_padded x * (C * 9))) m m' /\
         forall mi k core, 0 <= mi < Mb x -> 0 <= k < Kb x -> 0 <= core < blk_pu x p mi ->
           groups m' pb (mi * p * m_c x * (C * 9) + k * blk_mcb x p m_r mi * k_c x * 9 + core * core_mx x mi * blk_kt x k * 9)
             m_r (core_mt x mi core / m_r) (blk_kt x k)
             (fun row kk => padrow S M f (mi * p * m_c x + core * core_mx x mi + row) (k * k_c x * 9 + kk))).
Proof.
  intros F Hmr HK Hne HLa Hba Hh HLp Hbp.
  unfold ModelConv.pack_filters. apply pok_bind.
  set (P := fun mi k core (m' : mem T) =>
    groups m' pb (mi * p * m_c x * (C * 9) + k * blk_mcb x p m_r mi * k_c x * 9 + core * core_mx x mi * blk_kt x k * 9)
           m_r (core_mt x mi core / m_r) (blk_kt x k)
           (fun row kk => padrow S M f (mi * p * m_c x + core * core_mx x mi + row) (k * k_c x * 9 + kk))).
  eapply pok_mono.
  { apply (pack2
      (fun m k ofs core =>
        (let+ _ := pack_ob_A_single_buf_conv S (ab, m * p * m_c x * (C * 9) + k * k_c x * 9 + core * core_mx x m * (C * 9))
          (pb, ofs + core * core_mx x m * blk_kt x k * 9)
          M (C * 9) (m * p * m_c x) (core * core_mx x m) (core_mt x m core) (blk_kt x k) m_r in TRet tt)%thr)
      (fun m k => blk_mcb x p m_r m * blk_kt x k * 9) pb (fun b _ => b = ab)
      (Mb x) (p * m_c x) (M_padded x) (blk_mcb x p m_r) (Kb x) (k_c x * 9) (C * 9) (fun k => blk_kt x k * 9)
      (fun m k => blk_pu x p m) (fun m k => core_mx x m) (fun m k => blk_mcb x p m_r m)
      (fun m k => blk_kt x k * 9) (fun m k => core_mt x m) P m); auto.
    - apply (kf_M _ _ _ _ _ _ _ F).
    - apply part_scale; [lia|apply (kf_K _ _ _ _ _ _ _ F)].
    - intros i j Hi Hj. split; [apply (kf_C _ _ _ _ _ _ _ F); auto|].
      pose proof (pt_w _ _ _ _ (kf_K _ _ _ _ _ _ _ F) j Hj). split; [lia|split; ring].
    - intros i j c Hi Hj Hc. unfold P.
      pose proof (div_exact_of m_r _ Hmr (kf_mr _ _ _ _ _ _ _ F i c Hi Hc)) as E.
      replace (i * (p * m_c x) * (C * 9) + blk_mcb x p m_r i * (j * (k_c x * 9)) + c * core_mx x i * (blk_kt x j * 9))
        with (i * p * m_c x * (C * 9) + j * blk_mcb x p m_r i * k_c x * 9 + c * core_mx x i * blk_kt x j * 9) by ring.
      rewrite E at 1.
      replace (core_mt x i c / m_r * m_r * (blk_kt x j * 9)) with (core_mt x i c / m_r * (9 * (blk_kt x j * m_r))) by ring.
      apply groups_stable.
    - intros i j c m' Hi Hj Hc HL HF Hbnd. unfold P.
      pose proof (pt_w _ _ _ _ (kf_K _ _ _ _ _ _ _ F) j Hj) as Hk.
      pose proof (part_end _ _ _ _ (kf_K _ _ _ _ _ _ _ F) j Hj) as Hke.
      pose proof (pt_w _ _ _ _ (kf_C _ _ _ _ _ _ _ F i Hi) c Hc) as Hw.
      pose proof (div_exact_of m_r _ Hmr (kf_mr _ _ _ _ _ _ _ F i c Hi Hc)) as E.
      pose proof (pt_w _ _ _ _ (kf_M _ _ _ _ _ _ _ F) i Hi) as HM.
      pose proof (kf_mc _ _ _ _ _ _ _ F) as Hmc.
      set (B := i * (p * m_c x) * (C * 9) + blk_mcb x p m_r i * (j * (k_c x * 9)) + c * core_mx x i * (blk_kt x j * 9)) in *.
      assert (E1 : i * (p * m_c x) * (C * 9) + blk_mcb x p m_r i * (j * (k_c x * 9)) + c * core_mx x i * blk_kt x j * 9 = B)
        by (unfold B; ring).
      assert (E2 : i * p * m_c x * (C * 9) + j * blk_mcb x p m_r i * k_c x * 9 + c * core_mx x i * blk_kt x j * 9 = B)
        by (unfold B; ring).
      rewrite E1, E2. apply twp_bind.
      eapply twp_mono; [|intros z m2 Hz; apply twp_ret; exact Hz].
      eapply (pack_ob_conv_spec _ ab pb _ _ M (C * 9) _ _ _ _ m_r (core_mt x i c / m_r) _ bp); try lia.
      + rewrite HL. exact HLp.
      + intros y Ey. congruence.
      + intros row kk Hrow Hkk. unfold src_ok, padrow.
        destruct (Z.leb_spec M (i * p * m_c x + c * core_mx x i + row)) as [Hpad|Hpad].
        * destruct (Z.ltb_spec (i * p * m_c x + c * core_mx x i + row) M); [lia|easy].
        * destruct (Z.ltb_spec (i * p * m_c x + c * core_mx x i + row) M); [|lia].
          assert (0 <= i * p * m_c x + c * core_mx x i + row).
          { pose proof (kf_pu _ _ _ _ _ _ _ F i Hi). pose proof (kf_mx _ _ _ _ _ _ _ F i Hi). nia. }
          assert (Ea : i * p * m_c x * (C * 9) + j * k_c x * 9 + c * core_mx x i * (C * 9) + (row * (C * 9) + kk)
                     = (i * p * m_c x + c * core_mx x i + row) * (C * 9) + (j * k_c x * 9 + kk)) by ring.
          assert (0 <= j * k_c x * 9 + kk < C * 9) by (pose proof (kf_kc _ _ _ _ _ _ _ F); nia).
          rewrite Ea. set (R := i * p * m_c x + c * core_mx x i + row) in *.
          split; [auto|split].
          -- rewrite HF by (intros (? & _); congruence). apply Hh; lia.
          -- exists ba. rewrite HL. split; auto. clear - H0 H1 Hpad Hba HK. nia. }
  cbn. intros _ m' (HL & HF & HP). apply pok_ret. split; [auto|split; auto].
Qed.

End PackF.
