(** * Packing whole matrices. *)

From Coq Require Import ZArith List Bool Lia.
From Verif Require Import Lang Lang_facts Spec ModelSizing ModelKernel ModelPack ModelSched
     Kernel_facts Tile_facts Loop_facts Pack_facts Sizing_facts.
Import ListNotations.
Open Scope Z_scope.

Ltac nn := repeat first [apply Z.mul_nonneg_nonneg | apply Z.add_nonneg_nonneg]; lia.

(** Two nested loops over blocks with a running offset; the cores of each block write
    consecutive pieces. *)
Lemma pack2 {V} (body : Z -> Z -> Z -> Z -> thr V unit) (inc : Z -> Z -> Z) (db : buf)
      (Rd : region) nI tI DI wI nJ tJ DJ wJ
      (np t D g : Z -> Z -> Z) (w : Z -> Z -> Z -> Z) (P : Z -> Z -> Z -> mem V -> Prop) m :
  part nI tI DI wI -> part nJ tJ DJ wJ ->
  (forall i j, 0 <= i < nI -> 0 <= j < nJ ->
     part (np i j) (t i j) (D i j) (w i j) /\ 0 <= g i j /\
     D i j * g i j = wI i * wJ j /\ inc i j = wI i * wJ j) ->
  (forall x, ~ Rd db x) ->
  let base i j := i * tI * DJ + wI i * (j * tJ) in
  (forall i j c, 0 <= i < nI -> 0 <= j < nJ -> 0 <= c < np i j ->
     stable db (base i j + c * t i j * g i j) (base i j + c * t i j * g i j + w i j c * g i j) (P i j c)) ->
  (forall i j c m', 0 <= i < nI -> 0 <= j < nJ -> 0 <= c < np i j ->
     live m' = live m -> same_out (rng db 0 (DI * DJ)) m m' ->
     0 <= base i j + c * t i j * g i j /\ base i j + c * t i j * g i j + w i j c * g i j <= DI * DJ ->
     twp (rng db (base i j + c * t i j * g i j) (base i j + c * t i j * g i j + w i j c * g i j)) Rd
         (body i j (base i j) c) (fun _ => P i j c) m') ->
  pok (pfor 0 nI 1 0 (fun i o => pfor 0 nJ 1 o (fun j o =>
         pbind (ppar_for 0 (np i j) 1 (body i j o)) (fun _ => PRet (o + inc i j))))) m
      (fun _ m' => live m' = live m /\ same_out (rng db 0 (DI * DJ)) m m' /\
         forall i j c, 0 <= i < nI -> 0 <= j < nJ -> 0 <= c < np i j -> P i j c m').
Proof.
  intros HI HJ Hc HRd base Hst Hb.
  pose proof (part_D _ _ _ _ HI) as HDI. pose proof (part_D _ _ _ _ HJ) as HDJ.
  pose proof (pt_nb _ _ _ _ HI) as HnI. pose proof (pt_nb _ _ _ _ HJ) as HnJ.
  set (O := fun i => off nI tI DI i * DJ).
  assert (O0 : O 0 = 0) by (unfold O; rewrite (off_0 _ _ _ _ HI); ring).
  assert (On : O nI = DI * DJ) by (unfold O; now rewrite off_n).
  assert (OS : forall i, 0 <= i < nI -> O i = i * tI * DJ /\ O (i + 1) = i * tI * DJ + wI i * DJ
                /\ 0 <= O i /\ O i <= O (i + 1) /\ O (i + 1) <= DI * DJ).
  { intros i Hi. unfold O. rewrite (off_lt nI tI DI i) by lia. rewrite (off_S _ _ _ _ HI i Hi).
    pose proof (pt_w _ _ _ _ HI i Hi). pose proof (part_end _ _ _ _ HI i Hi).
    assert (0 <= i * tI * DJ) by nn. assert (0 <= wI i * DJ) by nn.
    assert ((i * tI + wI i) * DJ <= DI * DJ) by (apply Z.mul_le_mono_nonneg_r; lia). lia. }
  rewrite <- O0 at 2.
  assert (Hcore : forall i j c, 0 <= i < nI -> 0 <= j < nJ -> 0 <= c < np i j ->
     base i j <= base i j + c * t i j * g i j /\ 0 <= w i j c * g i j /\
     base i j + c * t i j * g i j + w i j c * g i j <= base i j + wI i * wJ j).
  { intros i j c Hi Hj Hcc. destruct (Hc i j Hi Hj) as (Hp & Hg & Ed & _).
    pose proof (pt_w _ _ _ _ Hp c Hcc). pose proof (part_end _ _ _ _ Hp c Hcc). rewrite <- Ed.
    assert (0 <= c * t i j * g i j) by nn. assert (0 <= w i j c * g i j) by nn.
    assert ((c * t i j + w i j c) * g i j <= D i j * g i j) by (apply Z.mul_le_mono_nonneg_r; lia). lia. }
  assert (Hblk : forall i j, 0 <= i < nI -> 0 <= j < nJ ->
     O i <= base i j /\ base i j + wI i * wJ j <= O (i + 1)).
  { intros i j Hi Hj. destruct (OS i Hi) as (E1 & E2 & _). rewrite E1, E2. unfold base.
    pose proof (pt_w _ _ _ _ HI i Hi). pose proof (pt_w _ _ _ _ HJ j Hj).
    pose proof (part_end _ _ _ _ HJ j Hj).
    assert (0 <= wI i * (j * tJ)) by nn.
    assert (wI i * (j * tJ + wJ j) <= wI i * DJ) by (apply Z.mul_le_mono_nonneg_l; lia). lia. }
  eapply pok_mono.
  { eapply (pblk_loop _ db O nI 0 nI 1
       (fun i m' => forall j c, 0 <= j < nJ -> 0 <= c < np i j -> P i j c m')); try lia.
    - intros i Hi. destruct (OS i Hi). lia.
    - intros i Hi m1 m2 Hs HP j c Hj Hcc.
      destruct (Hcore i j c Hi Hj Hcc) as (A1 & A2 & A3). destruct (Hblk i j Hi Hj).
      eapply (Hst i j c Hi Hj Hcc); [|apply HP; auto]. intros x Hx. apply Hs. lia.
    - intros i m' Hi HL HF. replace (0 + i * 1) with i by lia.
      destruct (OS i Hi) as (E1 & E2 & E3 & E4 & E5).
      pose proof (pt_w _ _ _ _ HI i Hi) as HwI.
      set (O' := fun j => O i + wI i * off nJ tJ DJ j).
      assert (O'0 : O i = O' 0) by (unfold O'; rewrite (off_0 _ _ _ _ HJ); ring).
      assert (O'n : O (i + 1) = O' nJ) by (unfold O'; rewrite off_n; lia).
      assert (O'b : forall j, 0 <= j < nJ -> O' j = base i j /\ O' (j + 1) = base i j + wI i * wJ j).
      { intros j Hj. unfold O', base. rewrite (off_lt nJ tJ DJ j) by lia. rewrite (off_S _ _ _ _ HJ j Hj), E1. nia. }
      rewrite O'0 at 1. rewrite O'n in *. 
      eapply pok_mono.
      { eapply (pblk_loop _ db O' nJ 0 nJ 1 (fun j m' => forall c, 0 <= c < np i j -> P i j c m')); try lia.
        - intros j Hj. destruct (O'b j Hj) as [-> ->]. pose proof (pt_w _ _ _ _ HJ j Hj). nia.
        - intros j Hj m1 m2 Hs HP c Hcc.
          destruct (Hcore i j c Hi Hj Hcc) as (A1 & A2 & A3). destruct (O'b j Hj) as [F1 F2].
          eapply (Hst i j c Hi Hj Hcc); [|apply HP; auto]. intros x Hx. apply Hs. lia.
        - intros j m2 Hj HL2 HF2. replace (0 + j * 1) with j by lia.
          destruct (O'b j Hj) as [F1 F2]. destruct (Hc i j Hi Hj) as (Hp & Hg & Ed & Einc).
          rewrite F1, F2. apply pok_bind.
          assert (HF' : same_out (rng db 0 (DI * DJ)) m m2).
          { intros b x Hx. rewrite HF2, HF; auto; intros (E & H); apply Hx; split; auto; lia. }
          eapply (par_blk (body i j (base i j)) db (np i j) 0 (np i j) 1
             (fun c => base i j + c * t i j * g i j)
             (fun c => base i j + c * t i j * g i j + w i j c * g i j)
             (P i j) (fun _ => Rd) (base i j) (base i j + wI i * wJ j)); try lia.
          + apply (pt_nb _ _ _ _ Hp).
          + intros c d x Hcc Hd Hcd H1 H2.
            pose proof (pt_w _ _ _ _ Hp c Hcc). pose proof (pt_w _ _ _ _ Hp d Hd).
            destruct (Z_lt_le_dec c d) as [Hlt|Hlt].
            * pose proof (part_sep _ _ _ _ Hp c d Hcc Hlt). nia.
            * pose proof (part_sep _ _ _ _ Hp d c Hd ltac:(lia)). nia.
          + intros c Hcc _. destruct (Hcore i j c Hi Hj Hcc). lia.
          + intros c Hcc. apply Hst; auto.
          + intros c x _. apply HRd.
          + intros c Hcc. replace (0 + c * 1) with c by lia.
            destruct (Hcore i j c Hi Hj Hcc) as (A1 & A2 & A3). destruct (Hblk i j Hi Hj).
            apply Hb; auto; try congruence. lia.
          + intros m3 HL3 HF3 HP3. apply pok_ret. rewrite Einc. auto. }
      cbn. intros o' m2 (-> & HL2 & HF2 & HP2). split; [auto|split; [auto|split; [|auto]]].
      rewrite <- O'0 in HF2. exact HF2. }
  cbn. intros o' m' (_ & HL & HF & HP). rewrite O0, On in HF. auto.
Qed.

Section A.

Variable S : scalar.
Notation T := (elt S).

(** A matrix extended below by zero rows (to the right by zero columns). *)
Definition padrow (M : Z) (f : Z -> Z -> T) (r c : Z) : T := if r <? M then f r c else zero S.
Definition padcol (N : Z) (f : Z -> Z -> T) (r c : Z) : T := if c <? N then f r c else zero S.

Lemma panels_stable b base r nq kd (f : Z -> Z -> T) : 0 <= r -> 0 <= nq -> 0 <= kd ->
  stable b base (base + nq * r * kd) (fun m => panels m b base r nq kd f).
Proof.
  intros Hr Hn Hk m1 m2 Hs H q i kk Hq Hi Hkk. rewrite <- Hs; [apply H; auto|].
  assert (kk * r + i < r * kd) by nia. assert (q * (r * kd) + r * kd <= nq * (r * kd)) by nia. nia.
Qed.

(** What the packed copy of A must contain for the K-first schedule. *)
Definition packedA_KMN (x : blk_dims) (p m_r K : Z) (b : buf) (f : Z -> Z -> T) (m' : mem T) : Prop :=
  forall m k core, 0 <= m < Mb x -> 0 <= k < Kb x -> 0 <= core < blk_pu x p m ->
    panels m' b (m * p * m_c x * K + k * blk_mcb x p m_r m * k_c x + core * core_mx x m * blk_kt x k)
           m_r (core_mt x m core / m_r) (blk_kt x k)
           (fun row kk => f (m * p * m_c x + core * core_mx x m + row) (k * k_c x + kk)).

Definition packedB_KMN (x : blk_dims) (n_r K : Z) (b : buf) (f : Z -> Z -> T) (m' : mem T) : Prop :=
  forall n k, 0 <= n < Nb x -> 0 <= k < Kb x ->
    panels m' b (n * K * n_c x + k * k_c x * blk_nt x n)
           n_r (blk_nt x n / n_r) (blk_kt x k)
           (fun col kk => f (k * k_c x + kk) (n * n_c x + col)).

Lemma div_exact_of r a : 0 < r -> (r | a) -> a = a / r * r.
Proof. intros Hr [u ->]. now rewrite Z.div_mul by lia. Qed.

Lemma pack_A_k_first_spec x M N K p m_r n_r (ab pb : buf) (f : Z -> Z -> T) ba bp m :
  kmn_facts M N K p m_r n_r x -> 0 < m_r -> 0 <= K ->
  ab <> pb ->
  live m ab = Some ba -> M * K <= blen ba -> holds m ab M K f ->
  live m pb = Some bp -> M_padded x * K <= blen bp ->
  pok (pack_A_single_buf_k_first S (ab, 0) (pb, 0) M K p x m_r) m
      (fun _ m' => live m' = live m /\ same_out (rng pb 0 (M_padded x * K)) m m' /\
         packedA_KMN x p m_r K pb (padrow M f) m').
Proof.
  intros F Hmr HK Hne HLa Hba Hh HLp Hbp.
  unfold pack_A_single_buf_k_first. apply pok_bind.
  set (P := fun m k core (m' : mem T) =>
    panels m' pb (m * p * m_c x * K + k * blk_mcb x p m_r m * k_c x + core * core_mx x m * blk_kt x k)
           m_r (core_mt x m core / m_r) (blk_kt x k)
           (fun row kk => padrow M f (m * p * m_c x + core * core_mx x m + row) (k * k_c x + kk))).
  eapply pok_mono.
  { apply (pack2
      (fun m k off core =>
        pack_ob_A_single_buf S (padd (ab, 0) (m * p * m_c x * K + k * k_c x + core * core_mx x m * K))
          (padd (pb, 0) (off + core * core_mx x m * blk_kt x k))
          M K (m * p * m_c x) (core * core_mx x m) (core_mt x m core) (blk_kt x k) m_r)
      (fun m k => blk_mcb x p m_r m * blk_kt x k) pb (fun b _ => b = ab)
      (Mb x) (p * m_c x) (M_padded x) (blk_mcb x p m_r) (Kb x) (k_c x) K (blk_kt x)
      (fun m k => blk_pu x p m) (fun m k => core_mx x m) (fun m k => blk_mcb x p m_r m)
      (fun m k => blk_kt x k) (fun m k => core_mt x m) P m); auto.
    - apply (kf_M _ _ _ _ _ _ _ F).
    - apply (kf_K _ _ _ _ _ _ _ F).
    - intros i j Hi Hj. split; [apply (kf_C _ _ _ _ _ _ _ F); auto|].
      pose proof (pt_w _ _ _ _ (kf_K _ _ _ _ _ _ _ F) j Hj). lia.
    - intros i j c Hi Hj Hc. unfold P.
      pose proof (pt_w _ _ _ _ (kf_K _ _ _ _ _ _ _ F) j Hj) as Hk.
      pose proof (pt_w _ _ _ _ (kf_C _ _ _ _ _ _ _ F i Hi) c Hc) as Hw.
      pose proof (div_exact_of m_r _ Hmr (kf_mr _ _ _ _ _ _ _ F i c Hi Hc)) as E.
      replace (i * (p * m_c x) * K + blk_mcb x p m_r i * (j * k_c x) + c * core_mx x i * blk_kt x j)
        with (i * p * m_c x * K + j * blk_mcb x p m_r i * k_c x + c * core_mx x i * blk_kt x j) by ring.
      rewrite E at 1.
      apply panels_stable; try lia; apply Z.div_pos; lia.
    - intros i j c m' Hi Hj Hc HL HF Hbnd. unfold P.
      pose proof (pt_w _ _ _ _ (kf_K _ _ _ _ _ _ _ F) j Hj) as Hk.
      pose proof (part_end _ _ _ _ (kf_K _ _ _ _ _ _ _ F) j Hj) as Hke.
      pose proof (pt_w _ _ _ _ (kf_C _ _ _ _ _ _ _ F i Hi) c Hc) as Hw.
      pose proof (div_exact_of m_r _ Hmr (kf_mr _ _ _ _ _ _ _ F i c Hi Hc)) as E.
      pose proof (pt_w _ _ _ _ (kf_M _ _ _ _ _ _ _ F) i Hi) as HM.
      pose proof (kf_mc _ _ _ _ _ _ _ F) as Hmc.
      unfold padd. cbn [fst snd].
      replace (i * (p * m_c x) * K + blk_mcb x p m_r i * (j * k_c x) + c * core_mx x i * blk_kt x j)
        with (0 + (i * (p * m_c x) * K + blk_mcb x p m_r i * (j * k_c x) + c * core_mx x i * blk_kt x j)) in * by ring.
      replace (i * p * m_c x * K + j * blk_mcb x p m_r i * k_c x + c * core_mx x i * blk_kt x j)
        with (0 + (i * (p * m_c x) * K + blk_mcb x p m_r i * (j * k_c x) + c * core_mx x i * blk_kt x j)) by ring.
      eapply (pack_ob_A_spec S _ ab pb _ _ M K _ _ _ _ m_r (core_mt x i c / m_r) _ bp); try lia.
      + rewrite HL. exact HLp.
      + intros y Ey. congruence.
      + intros row kk Hrow Hkk. unfold src_ok, padrow.
        destruct (Z.leb_spec M (i * p * m_c x + c * core_mx x i + row)) as [Hpad|Hpad].
        * destruct (Z.ltb_spec (i * p * m_c x + c * core_mx x i + row) M); [lia|easy].
        * destruct (Z.ltb_spec (i * p * m_c x + c * core_mx x i + row) M); [|lia].
          assert (0 <= i * p * m_c x + c * core_mx x i + row).
          { pose proof (kf_pu _ _ _ _ _ _ _ F i Hi). pose proof (kf_mx _ _ _ _ _ _ _ F i Hi). nia. }
          assert (Ea : 0 + (i * p * m_c x * K + j * k_c x + c * core_mx x i * K) + (row * K + kk)
                     = (i * p * m_c x + c * core_mx x i + row) * K + (j * k_c x + kk)) by ring.
          assert (0 <= j * k_c x + kk < K) by (pose proof (kf_kc _ _ _ _ _ _ _ F); nia).
          split; [auto|split].
          -- rewrite HF by (intros (? & _); congruence). rewrite Ea. apply Hh; lia.
          -- exists ba. rewrite HL. split; auto. rewrite Ea. nia. }
  cbn. intros _ m' (HL & HF & HP). apply pok_ret. split; [auto|split; auto].
Qed.

End A.
