(** * Packing and unpacking the whole result matrix, K-first layout. *)

From Coq Require Import ZArith List Bool Lia Permutation.
From Verif Require Import Lang Lang_facts Spec SpecTop ModelSizing ModelKernel ModelPack ModelSched ModelTop
     Kernel_facts Tile_facts Loop_facts Pack_facts Unpack_facts Sizing_facts SizingMN_facts PackMat_facts PackB_facts
     Order_facts Cphase_facts SchedK_facts Grid_facts PackMN_facts SchedMN_facts Frame_facts Packed_facts.
Import ListNotations.
Open Scope Z_scope.

Section C.
Variable S : scalar.
Notation T := (elt S).
Variables M N K p m_r n_r : Z.
Variable x : blk_dims.
Hypothesis F : kmn_facts M N K p m_r n_r x.
Hypotheses (HM : 0 <= M) (HN : 0 <= N) (Hmr : 0 < m_r) (Hnr : 0 < n_r) (Hp : 0 < p).

Notation mcb := (blk_mcb x p m_r).
Notation nt := (blk_nt x).

Definition cK_base (n m : Z) : Z := bpos (n_c x) nt (p * m_c x) (M_padded x) n m.

Definition cpacked_K (m' : mem T) (b : buf) (f : Z -> Z -> T) : Prop :=
  forall n m core, 0 <= n < Nb x -> 0 <= m < Mb x -> 0 <= core < blk_pu x p m ->
    ctiles m' b (cK_base n m + core * core_mx x m * nt n) m_r n_r (core_mt x m core / m_r) (nt n / n_r)
           (fun row col => f (m * p * m_c x + core * core_mx x m + row) (n * n_c x + col)).

(** Only the last core of the last row of blocks can reach past row M. *)
Lemma row_in m core row : 0 <= m < Mb x -> 0 <= core < blk_pu x p m ->
  is_last m (Mb x) (m_pad x) && (core =? p_l x - 1) = false -> 0 <= row < core_mt x m core ->
  m * p * m_c x + core * core_mx x m + row < M.
Proof.
  intros Hm Hc Hl Hrow.
  pose proof (kf_C _ _ _ _ _ _ _ F m Hm) as PC. pose proof (kf_M _ _ _ _ _ _ _ F) as PM.
  pose proof (part_end _ _ _ _ PC core Hc). pose proof (part_end _ _ _ _ PM m Hm).
  pose proof (kf_Mpu _ _ _ _ _ _ _ F).
  destruct (is_last m (Mb x) (m_pad x)) eqn:E; cbn [andb] in Hl.
  - assert (Ep : blk_pu x p m = p_l x) by (unfold blk_pu; now rewrite E).
    assert (Hc2 : 0 <= p_l x - 1 < blk_pu x p m) by lia.
    pose proof (part_sep _ _ _ _ PC core (p_l x - 1) Hc ltac:(lia)).
    pose proof (part_end _ _ _ _ PC _ Hc2). pose proof (pt_w _ _ _ _ PC _ Hc2).
    destruct (kf_mr _ _ _ _ _ _ _ F m _ Hm Hc2) as [u Eu].
    assert (m_r <= core_mt x m (p_l x - 1)); [|lia].
    rewrite Eu in *. assert (0 < u) by (clear - H4 Hmr; nia). clear - H5 Hmr. nia.
  - assert (Eb : mcb m = p * m_c x) by (unfold blk_mcb; now rewrite E).
    assert ((m + 1) * (p * m_c x) <= M); [|lia].
    assert (Hpm : 0 < p * m_c x) by (pose proof (kf_mc _ _ _ _ _ _ _ F); nia).
    pose proof (Z.quot_rem M (p * m_c x) ltac:(lia)). pose proof (Z.rem_bound_pos M (p * m_c x) HM Hpm).
    assert (m + 1 <= Z.quot M (p * m_c x)); [|nia].
    pose proof (kf_Mq _ _ _ _ _ _ _ F) as Q. rewrite (kf_mpad _ _ _ _ _ _ _ F) in *. unfold is_last in E.
    unfold pad01 in *. unfold truthy in *. destruct (Z.eqb_spec (Z.rem M (p * m_c x)) 0); cbn in *; lia.
Qed.

Lemma col_in n col : 0 <= n < Nb x -> is_last n (Nb x) (n_pad x) = false -> 0 <= col < nt n -> n * n_c x + col < N.
Proof.
  intros Hn E Hcol. assert (Eb : nt n = n_c x) by (unfold blk_nt; now rewrite E).
  pose proof (kf_nc _ _ _ _ _ _ _ F) as Hnc.
  pose proof (Z.quot_rem N (n_c x) ltac:(lia)). pose proof (Z.rem_bound_pos N (n_c x) HN Hnc).
  assert (n + 1 <= Z.quot N (n_c x)); [|nia].
  pose proof (kf_Nq _ _ _ _ _ _ _ F) as Q. rewrite (kf_npad _ _ _ _ _ _ _ F) in *. unfold is_last in E.
  unfold pad01 in *. unfold truthy in *. destruct (Z.eqb_spec (Z.rem N (n_c x)) 0); cbn in *; lia.
Qed.

Lemma ctiles_stable' b base mt' nt' nm nn (f : Z -> Z -> T) : 0 <= nm -> 0 <= nn -> mt' = nm * m_r -> nt' = nn * n_r ->
  stable b base (base + mt' * nt') (fun m => ctiles m b base m_r n_r nm nn f).
Proof.
  intros Hm Hn -> -> m1 m2 Hs H. intros qm i qn j H1 H2 H3 H4. rewrite <- Hs; [apply H; auto|].
  assert (i * n_r + j < m_r * n_r) by nia.
  assert (qm * (m_r * n_r) + m_r * n_r <= nm * (m_r * n_r)) by nia.
  assert (qn * (nm * m_r * n_r) + nm * m_r * n_r <= nn * (nm * m_r * n_r)).
  { assert (0 <= nm * m_r * n_r) by nn. nia. }
  assert (0 <= qn * (nm * m_r * n_r)) by nn. assert (0 <= qm * (m_r * n_r)) by nn. assert (0 <= i * n_r) by nn. lia.
Qed.

Lemma pack_C_k_first_spec (cb pb : buf) (f : Z -> Z -> T) bc bp m :
  cb <> pb -> live m cb = Some bc -> M * N <= blen bc -> holds m cb M N f ->
  live m pb = Some bp -> M_padded x * N_padded x <= blen bp ->
  pok (pack_C_single_buf_k_first S (cb, 0) (pb, 0) M N p x m_r n_r) m
      (fun _ m' => live m' = live m /\ same_out (rng pb 0 (M_padded x * N_padded x)) m m' /\
         cpacked_K m' pb (padbox S M N f)).
Proof.
  intros Hne HLc Hbc Hh HLp Hbp.
  unfold pack_C_single_buf_k_first. apply pok_bind.
  pose proof (kf_M _ _ _ _ _ _ _ F) as PM. pose proof (kf_N _ _ _ _ _ _ _ F) as PN.
  set (P := fun n m core (m' : mem T) =>
    ctiles m' pb (n * n_c x * M_padded x + nt n * (m * (p * m_c x)) + core * core_mx x m * nt n)
       m_r n_r (core_mt x m core / m_r) (nt n / n_r)
       (fun row col => padbox S M N f (m * p * m_c x + core * core_mx x m + row) (n * n_c x + col))).
  eapply pok_mono.
  { apply (pack2
      (fun n m off core =>
        pack_ob_C_single_buf S (padd (cb, 0) (m * p * m_c x * N + n * n_c x + core * core_mx x m * N))
          (padd (pb, 0) (off + core * core_mx x m * nt n))
          M N (blk_m1 x M p m) (blk_n1 x N n) (core * core_mx x m) (core_mt x m core) (nt n) m_r n_r
          (is_last m (Mb x) (m_pad x) && (core =? p_l x - 1)) (is_last n (Nb x) (n_pad x)))
      (fun n m => mcb m * nt n) pb (fun b _ => b = cb)
      (Nb x) (n_c x) (N_padded x) nt (Mb x) (p * m_c x) (M_padded x) mcb
      (fun _ m => blk_pu x p m) (fun _ m => core_mx x m) (fun _ m => mcb m) (fun n _ => nt n)
      (fun _ m core => core_mt x m core) P m PN PM).
    - intros n m0 Hn Hm. split; [apply (kf_C _ _ _ _ _ _ _ F m0 Hm)|].
      pose proof (pt_w _ _ _ _ PN n Hn). split; [lia|split; ring].
    - intros i E. congruence.
    - intros n m0 core Hn Hm Hc. unfold P.
      pose proof (pt_w _ _ _ _ PN n Hn). pose proof (pt_w _ _ _ _ (kf_C _ _ _ _ _ _ _ F m0 Hm) core Hc).
      apply ctiles_stable'.
      + apply Z.div_pos; lia.
      + apply Z.div_pos; lia.
      + apply (div_exact_of _ _ Hmr), (kf_mr _ _ _ _ _ _ _ F); auto.
      + apply (div_exact_of _ _ Hnr), (kf_nr _ _ _ _ _ _ _ F); auto.
    - intros n m0 core m' Hn Hm Hc HL HF (B1 & B2). unfold padd. cbn [fst snd]. rewrite !Z.add_0_l.
      pose proof (pt_w _ _ _ _ PN n Hn) as Hnt. pose proof (pt_w _ _ _ _ (kf_C _ _ _ _ _ _ _ F m0 Hm) core Hc) as Hmt.
      destruct (kf_n1 _ _ _ _ _ _ _ F n Hn) as (-> & _). destruct (kf_m1 _ _ _ _ _ _ _ F m0 Hm) as (-> & _).
      pose proof (kf_mc _ _ _ _ _ _ _ F). pose proof (kf_mx _ _ _ _ _ _ _ F m0 Hm). pose proof (kf_nc _ _ _ _ _ _ _ F).
      assert (0 <= m0 * p * m_c x) by nn. assert (0 <= core * core_mx x m0) by nn. assert (0 <= n * n_c x) by nn.
      eapply (pack_ob_C_spec S _ cb pb _ _ M N (m0 * p * m_c x) (n * n_c x) (core * core_mx x m0) (core_mt x m0 core) (nt n)
         m_r n_r (core_mt x m0 core / m_r) (nt n / n_r) _ _
         (fun row col => padbox S M N f (m0 * p * m_c x + core * core_mx x m0 + row) (n * n_c x + col)) bp m'); auto.
      + apply Z.div_pos; lia.
      + apply Z.div_pos; lia.
      + apply (div_exact_of _ _ Hmr), (kf_mr _ _ _ _ _ _ _ F); auto.
      + apply (div_exact_of _ _ Hnr), (kf_nr _ _ _ _ _ _ _ F); auto.
      + now rewrite HL.
      + lia.
      + intros row col Hrow Hcol. unfold src_ok, padbox.
        set (r := m0 * p * m_c x + core * core_mx x m0 + row). set (c := n * n_c x + col).
        assert (Hin : is_last m0 (Mb x) (m_pad x) && (core =? p_l x - 1) || is_last n (Nb x) (n_pad x) = false -> r < M /\ c < N).
        { intros E. apply orb_false_iff in E. destruct E as (E1 & E2). split; [apply row_in|apply col_in]; auto. }
        destruct ((is_last m0 (Mb x) (m_pad x) && (core =? p_l x - 1) || is_last n (Nb x) (n_pad x)) && ((N <=? c) || (M <=? r))) eqn:E.
        * apply andb_true_iff in E. destruct E as (_ & E).
          destruct ((r <? M) && (c <? N)) eqn:E2; auto. exfalso. lia.
        * assert (HI : r < M /\ c < N).
          { apply andb_false_iff in E. destruct E as [E|E]; [auto|]. lia. }
          replace ((r <? M) && (c <? N)) with true by lia.
          replace (m0 * p * m_c x * N + n * n_c x + core * core_mx x m0 * N + (row * N + col)) with (r * N + c)
            by (unfold r, c; ring).
          split; [auto|split].
          -- rewrite HF by (intros (E' & _); congruence). apply Hh; unfold r, c in *; lia.
          -- exists bc. rewrite HL. split; [auto|]. unfold r, c in *. nia. }
  cbv beta. intros _ m' (HL & HF & HP). apply pok_ret. split; [auto|split].
  - intros b i Hb. apply HF. intros H. apply Hb. destruct H as (-> & Hi). split; [auto|]. lia.
  - intros n m0 core Hn Hm Hc. exact (HP n m0 core Hn Hm Hc).
Qed.

(** rows and columns already copied back before block (n, m) *)
Definition c_before (n m r c : Z) : Prop :=
  c < off (Nb x) (n_c x) (N_padded x) n \/
  (c < off (Nb x) (n_c x) (N_padded x) (n + 1) /\ r < off (Mb x) (p * m_c x) (M_padded x) m).

Lemma unpack_C_k_first_spec (cb pb : buf) (f : Z -> Z -> T) bc bp m (Post : unit -> mem T -> Prop) :
  cb <> pb -> live m cb = Some bc -> M * N <= blen bc ->
  live m pb = Some bp -> M_padded x * N_padded x <= blen bp ->
  cpacked_K m pb f ->
  (forall m', live m' = live m -> same_out (rng cb 0 (M * N)) m m' -> holds m' cb M N f -> Post tt m') ->
  pok (unpack_C_single_buf_k_first S (cb, 0) (pb, 0) M N p x m_r n_r) m Post.
Proof.
  intros Hne HLc Hbc HLp Hbp HC HPost.
  pose proof (kf_M _ _ _ _ _ _ _ F) as PM. pose proof (kf_N _ _ _ _ _ _ _ F) as PN.
  pose proof (pt_nb _ _ _ _ PM) as HMb. pose proof (pt_nb _ _ _ _ PN) as HNb.
  pose proof (kf_mc _ _ _ _ _ _ _ F) as Hmc. pose proof (kf_nc _ _ _ _ _ _ _ F) as Hnc.
  pose proof (kf_Mp _ _ _ _ _ _ _ F) as HMp. pose proof (kf_Np _ _ _ _ _ _ _ F) as HNp.
  set (OM := off (Mb x) (p * m_c x) (M_padded x)). set (ON := off (Nb x) (n_c x) (N_padded x)).
  set (Inv := fun n m0 (o : Z) (m' : mem T) => o = ON n * M_padded x + (ON (n + 1) - ON n) * OM m0 /\
     live m' = live m /\ same_out (rng cb 0 (M * N)) m m' /\
     forall r c, 0 <= r < M -> 0 <= c < N -> c_before n m0 r c -> dat m' cb (r * N + c) = Some (f r c)).
  unfold unpack_C_single_buf_k_first. apply pok_bind.
  eapply (pok_pfor1 (fun n o m' => o = ON n * M_padded x /\ live m' = live m /\ same_out (rng cb 0 (M * N)) m m' /\
     forall r c, 0 <= r < M -> 0 <= c < N -> c < ON n -> dat m' cb (r * N + c) = Some (f r c))); [lia| | |].
  - unfold ON. rewrite (off_0 _ _ _ _ PN). split; [ring|split; [auto|split; [apply same_out_refl|]]]. intros; lia.
  - intros n o m1 Hn (-> & HL1 & HF1 & HD1).
    assert (EN : ON n = n * n_c x) by (unfold ON; rewrite off_lt by lia; auto).
    assert (EN1 : ON (n + 1) = n * n_c x + nt n) by (unfold ON; now rewrite (off_S _ _ _ _ PN)).
    pose proof (pt_w _ _ _ _ PN n Hn) as Hnt.
    eapply (pok_pfor1 (Inv n)); [lia| | |].
    + unfold Inv. unfold OM at 1. rewrite (off_0 _ _ _ _ PM). split; [ring|split; [auto|split; [auto|]]].
      intros r c Hr Hc [H|(_ & H)]; [apply HD1; auto|]. rewrite (off_0 _ _ _ _ PM) in H. lia.
    + intros m0 o m2 Hm (-> & HL2 & HF2 & HD2). apply pok_bind.
      assert (EM : OM m0 = m0 * (p * m_c x)) by (unfold OM; rewrite off_lt by lia; auto).
      assert (EM1 : OM (m0 + 1) = m0 * (p * m_c x) + mcb m0) by (unfold OM; now rewrite (off_S _ _ _ _ PM)).
      pose proof (pt_w _ _ _ _ PM m0 Hm) as Hmb. pose proof (kf_C _ _ _ _ _ _ _ F m0 Hm) as PC.
      pose proof (part_end _ _ _ _ PM m0 Hm) as HMe. pose proof (part_end _ _ _ _ PN n Hn) as HNe.
      assert (Eo : ON n * M_padded x + (ON (n + 1) - ON n) * OM m0 = cK_base n m0)
        by (rewrite EN, EN1, EM; unfold cK_base, bpos; ring).
      rewrite Eo.
      set (r0 := fun core => m0 * p * m_c x + core * core_mx x m0).
      pose proof (kf_mx _ _ _ _ _ _ _ F m0 Hm) as Hmx.
      assert (0 <= m0 * p * m_c x) by nn. assert (0 <= n * n_c x) by nn.
      assert (Hcb : 0 <= cK_base n m0 /\ cK_base n m0 + nt n * mcb m0 <= M_padded x * N_padded x).
      { pose proof (part_D _ _ _ _ PM). unfold cK_base, bpos. split; [nn|].
        assert (nt n * (m0 * (p * m_c x) + mcb m0) <= nt n * M_padded x) by (apply Z.mul_le_mono_nonneg_l; lia).
        assert ((n * n_c x + nt n) * M_padded x <= N_padded x * M_padded x) by (apply Z.mul_le_mono_nonneg_r; lia). lia. }
      assert (Hcore : forall core, 0 <= core < blk_pu x p m0 ->
        0 < core_mt x m0 core /\ 0 <= core * core_mx x m0 /\ core * core_mx x m0 + core_mt x m0 core <= mcb m0).
      { intros core Hc. pose proof (pt_w _ _ _ _ PC core Hc). pose proof (part_end _ _ _ _ PC core Hc).
        assert (0 <= core * core_mx x m0) by nn. lia. }
      eapply (pok_par_for 0 (blk_pu x p m0) 1 (blk_pu x p m0) _ m2
         (fun core => rect cb N M (r0 core) (r0 core + core_mt x m0 core) (n * n_c x) (n * n_c x + nt n))
         (fun core => rng pb (cK_base n m0 + core * core_mx x m0 * nt n)
                        (cK_base n m0 + core * core_mx x m0 * nt n + core_mt x m0 core * nt n))
         (fun core m' => boxed m' cb N M (r0 core) (r0 core + core_mt x m0 core) (n * n_c x) (n * n_c x + nt n) f));
        [lia|pose proof (pt_nb _ _ _ _ PC); lia|lia| | |].
      * intros core Hc. replace (0 + core * 1) with core by lia.
        destruct (Hcore core Hc) as (Hc1 & Hc2 & Hc3). unfold padd. cbn [fst snd]. rewrite !Z.add_0_l.
        destruct (kf_n1 _ _ _ _ _ _ _ F n Hn) as (-> & _). destruct (kf_m1 _ _ _ _ _ _ _ F m0 Hm) as (-> & _).
        unfold r0.
        eapply (unpack_spec S cb pb _ _ M N (m0 * p * m_c x) (n * n_c x) (core * core_mx x m0) (core_mt x m0 core) (nt n)
          m_r n_r (core_mt x m0 core / m_r) (nt n / n_r) f bc bp m2); auto; try lia.
        -- apply Z.div_pos; lia.
        -- apply Z.div_pos; lia.
        -- apply (div_exact_of _ _ Hmr), (kf_mr _ _ _ _ _ _ _ F); auto.
        -- apply (div_exact_of _ _ Hnr), (kf_nr _ _ _ _ _ _ _ F); auto.
        -- now rewrite HL2.
        -- now rewrite HL2.
        -- assert ((core * core_mx x m0 + core_mt x m0 core) * nt n <= mcb m0 * nt n) by (apply Z.mul_le_mono_nonneg_r; lia). lia.
        -- intros qm i qn j H1 H2 H3 H4. rewrite HF2 by (intros (E & _); congruence). apply (HC n m0 core); auto.
      * intros c d b i Hc Hd Hcd H1 [H2|(-> & H2)].
        -- destruct (Hcore c Hc) as (C1 & C2 & C3). destruct (Hcore d Hd) as (D1 & D2 & D3).
           eapply (rect_disj cb N M (r0 c) _ _ _ (r0 d) _ _ _ b i); [| | |exact H1|exact H2]; [unfold r0; lia..|].
           unfold r0. destruct (Z_lt_le_dec c d) as [L|L].
           ++ pose proof (part_sep _ _ _ _ PC c d Hc ltac:(lia)). lia.
           ++ pose proof (part_sep _ _ _ _ PC d c Hd ltac:(lia)). lia.
        -- destruct H1 as (E & _). congruence.
      * intros m3 HL3 HT HF3. apply pok_ret.
        assert (R : forall r c, 0 <= r < M -> 0 <= c < N -> m0 * p * m_c x <= r < m0 * p * m_c x + mcb m0 ->
           n * n_c x <= c < n * n_c x + nt n -> dat m3 cb (r * N + c) = Some (f r c)).
        { intros r c Hr Hc Hr' Hc'.
          destruct (part_cover _ _ _ _ PC (r - m0 * p * m_c x) ltac:(lia)) as (core & Hcr & Hq).
          destruct (HT core Hcr) as (ms & Hbox & _ & _ & Hag).
          assert (Hrr : r0 core <= r < r0 core + core_mt x m0 core) by (unfold r0; lia).
          rewrite Hag by (split; [auto|exists r, c; lia]). apply Hbox; lia. }
        unfold Inv. split; [rewrite EN, EN1, EM1; unfold cK_base, bpos; ring|].
        split; [congruence|split].
        -- intros b i Hb. rewrite HF3; [apply HF2; auto|].
           intros core Hc (-> & r & c & Hr & Hr2 & Hc' & Hc2 & ->). destruct (Hcore core Hc) as (C1 & C2 & C3).
           unfold r0 in Hr. apply Hb. split; [auto|]. nia.
        -- intros r c Hr Hc Hbf.
           destruct (Z_lt_le_dec c (n * n_c x)) as [L1|L1]; [|destruct (Z_lt_le_dec r (m0 * p * m_c x)) as [L2|L2]].
           ++ rewrite HF3.
              ** apply HD2; auto. left. fold ON. rewrite EN. auto.
              ** intros core Hcr (_ & r' & c' & Hr' & Hr2 & Hc' & Hc2 & E).
                 destruct (Hcore core Hcr) as (C1 & C2 & C3). unfold r0 in Hr'.
                 destruct (rc_inj N r c r' c') as (-> & ->); lia.
           ++ destruct Hbf as [H'|(H' & _)]; [fold ON in H'; rewrite EN in H'; lia|].
              rewrite HF3.
              ** apply HD2; auto. right. split; [exact H'|]. fold OM. rewrite EM. lia.
              ** intros core Hcr (_ & r' & c' & Hr' & Hr2 & Hc' & Hc2 & E).
                 destruct (Hcore core Hcr) as (C1 & C2 & C3). unfold r0 in Hr'.
                 destruct (rc_inj N r c r' c') as (-> & ->); lia.
           ++ destruct Hbf as [H'|(H' & H'')]; [fold ON in H'; rewrite EN in H'; lia|].
              fold ON in H'. fold OM in H''. rewrite EN1 in H'. rewrite EM1 in H''.
              apply R; auto; lia.
    + unfold Inv. intros o m2 (-> & HL2 & HF2 & HD2).
      assert (E : OM (Mb x) = M_padded x) by (unfold OM; apply off_n). split; [rewrite E; ring|].
      split; [auto|split; [auto|]]. intros r c Hr Hc Hlt. apply HD2; auto. right. split; [auto|]. fold OM. rewrite E. lia.
  - intros o m' (_ & HL & HF & HD). apply pok_ret. apply HPost; auto.
    intros r c Hr Hc. apply HD; auto. unfold ON. rewrite off_n. lia.
Qed.

Lemma cpacked_K_full b f m : cpacked_K m b f -> filled S m b (M_padded x * N_padded x).
Proof.
  intros HP y Hy.
  destruct (bpos_cover _ _ _ _ _ _ _ _ y (kf_N _ _ _ _ _ _ _ F) (kf_M _ _ _ _ _ _ _ F)) as (n & m0 & Hn & Hm & Hb); [lia|].
  pose proof (pt_w _ _ _ _ (kf_N _ _ _ _ _ _ _ F) n Hn) as Hnt.
  destruct (core_cover _ _ _ _ (nt n) (y - bpos (n_c x) nt (p * m_c x) (M_padded x) n m0)
              (kf_C _ _ _ _ _ _ _ F m0 Hm)) as (c & Hc & Hcb); try lia.
  pose proof (div_exact_of m_r _ Hmr (kf_mr _ _ _ _ _ _ _ F m0 c Hm Hc)) as Em.
  pose proof (pt_w _ _ _ _ (kf_C _ _ _ _ _ _ _ F m0 Hm) c Hc).
  eapply (ctiles_full S m b _ m_r n_r _ _ _ y Hmr Hnr); [|apply (HP n m0 c Hn Hm Hc)|].
  - nia.
  - rewrite <- Em. rewrite <- (div_exact_of n_r _ Hnr (kf_nr _ _ _ _ _ _ _ F n Hn)). unfold cK_base. lia.
Qed.

End C.
