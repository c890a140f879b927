(** * Facts about the matrix-vector example. *)

From Coq Require Import ZArith List Bool Lia.
From Verif Require Import Lang Lang_facts Spec SpecTop SpecSmall SpecTouch ModelSizing ModelKernel ModelPack ModelTop
     Kernel_facts Sizing_facts Mult_facts Exec Exec_facts Touch_facts TouchOut_facts ModelGemv.
Import ListNotations.
Open Scope Z_scope.

Section G.

Variable S : scalar.
Notation T := (elt S).

Definition rAB : region := fun b _ => b = BufA \/ b = BufB.

Lemma dot_vec (a : Z -> Z -> T) (b : Z -> T) l : forall c e,
  fold_left (fun c i => fun e => fma S (a i e) (b i) (c e)) l c e = dot S (fun i => a i e) b l (c e).
Proof. unfold dot. induction l as [|k l IH]; intros c e; cbn [fold_left]; auto. now rewrite IH. Qed.

Lemma mv_step_spec (W : region) u M a0 b0 (c : Z -> T) (fa : Z -> Z -> T) (fb : Z -> T) ba bi m :
  0 <= u -> 0 <= a0 -> 0 <= b0 -> 0 <= M -> live m BufA = Some ba -> live m BufB = Some bi ->
  (0 < u -> a0 + (u - 1) * M + 8 <= blen ba) -> b0 + u <= blen bi ->
  (forall kk e, 0 <= kk < u -> 0 <= e < 8 -> dat m BufA (a0 + kk * M + e) = Some (fa e kk)) ->
  (forall kk, 0 <= kk < u -> dat m BufB (b0 + kk) = Some (fb kk)) ->
  twp W rAB (mv_step S u M ((BufA, a0), (BufB, b0), c))
    (fun st m' => m' = m /\ fst (fst st) = (BufA, a0 + u * M) /\ snd (fst st) = (BufB, b0 + u) /\
       forall e, 0 <= e < 8 -> snd st e = dot S (fa e) fb (zrange 0 u) (c e)) m.
Proof.
  intros Hu Ha Hb HM La Lb Hla Hlb HA HB. unfold mv_step. apply twp_bind.
  eapply (twp_tfor1 W rAB (fun i a m' => m' = m /\ forall i' e, 0 <= i' < i -> 0 <= e < 8 -> a i' e = fa e i')); [lia| | |].
  - split; auto. intros; lia.
  - intros i a m' Hi (-> & Hc) _ _. apply twp_bind. cbn [padd fst snd].
    eapply twp_mono; [eapply (load_vec_spec S W rAB 1 (BufA, a0 + i * M) 8 (fun e => fa e i)); cbn; eauto; try nia|].
    + intros j Hj. split; [left; now left|]. now apply HA.
    + cbn. intros v m' (-> & Hv). apply twp_ret. split; auto. intros i' e Hi' He.
      destruct (Z.eqb_spec i' i) as [->|]; [now apply Hv|]. apply Hc; lia.
  - intros a m' (-> & Hc) _ _. apply twp_bind.
    eapply (twp_tfor1 W rAB (fun i bb m' => m' = m /\ fst bb = (BufB, b0 + i) /\
              forall i', 0 <= i' < i -> snd bb i' = fb i')); [lia| | |].
    + split; auto. split; [cbn; f_equal; lia|]. intros; lia.
    + intros i [pb b] m' Hi (-> & Hp & Hf) _ _. cbn [fst snd] in *. subst pb. apply twp_bind. cbn [fst snd].
      eapply (twp_load W rAB); eauto; [left; now right|lia|].
      apply twp_ret. split; auto. cbn. split; [unfold padd; cbn; f_equal; lia|].
      intros i' Hi'. destruct (Z.eqb_spec i' i) as [->|]; auto. apply Hf; lia.
    + intros [pb b] m' (-> & Hp & Hf) _ _. cbn [fst snd] in *. subst pb. apply twp_ret.
      cbn [fst snd]. split; [auto|split; [reflexivity|split; [reflexivity|]]].
      intros e He. rewrite dot_vec. fold (zrange 0 u). apply dot_ext. intros k Hk. apply in_zrange in Hk.
      split; [apply Hc; lia|apply Hf; lia].
Qed.

Lemma mv_kernel_spec ao bo co mm k M (fa : Z -> Z -> T) (fb fc : Z -> T) ba bi bc m :
  0 <= k -> 0 <= ao -> 0 <= bo -> 0 <= co -> 0 <= M ->
  live m BufA = Some ba -> live m BufB = Some bi -> live m BufC = Some bc ->
  (0 < k -> ao + (k - 1) * M + 8 <= blen ba) -> bo + k <= blen bi -> co + 8 <= blen bc ->
  (forall kk e, 0 <= kk < k -> 0 <= e < 8 -> dat m BufA (ao + kk * M + e) = Some (fa e kk)) ->
  (forall kk, 0 <= kk < k -> dat m BufB (bo + kk) = Some (fb kk)) ->
  (forall e, 0 <= e < 8 -> dat m BufC (co + e) = Some (fc e)) ->
  twp (rng BufC co (co + 8)) rAB
    (cake_sgemv_haswell_8x8_col S (BufA, ao) (BufB, bo) (BufC, co) mm k M)
    (fun _ m' => forall e, 0 <= e < 8 ->
       dat m' BufC (co + e) = Some (dot S (fa e) fb (zrange 0 k) (fc e))) m.
Proof.
  intros Hk Ha Hb Hc HM La Lb Lc Hla Hlb Hlc HA HB HC.
  unfold cake_sgemv_haswell_8x8_col. apply twp_bind.
  eapply twp_mono; [eapply (load_vec_spec S _ rAB 1 (BufC, co) 8 fc); cbn; eauto; try lia|].
  { intros j Hj. split; [|auto]. right. split; [reflexivity|lia]. }
  cbn. intros c m' (-> & Hc0).
  rewrite !Z.rem_mod_nonneg by lia. pose proof (Z.mod_pos_bound k 8 ltac:(lia)) as Hr.
  pose proof (Z.div_mod k 8 ltac:(lia)) as Hd. set (q := k / 8) in *. set (r := k mod 8) in *.
  assert (Hq : 0 <= q) by (apply Z.div_pos; lia).
  set (W := rng BufC co (co + 8)).
  set (Inv := fun (j : Z) (st : ptr * ptr * (Z -> T)) (m' : mem T) =>
     m' = m /\ fst (fst st) = (BufA, ao + j * M) /\ snd (fst st) = (BufB, bo + j) /\
     forall e, 0 <= e < 8 -> snd st e = dot S (fa e) fb (zrange 0 j) (fc e)).
  assert (Step : forall u j st, 0 < u -> 0 <= j -> j + u <= k -> Inv j st m ->
            twp W rAB (mv_step S u M st) (Inv (j + u)) m).
  { intros u j [[pa pb] c'] Hu Hj Hju (_ & Hpa & Hpb & Hcc). cbn [fst snd] in Hpa, Hpb, Hcc. subst pa pb.
    assert (j * M + (u - 1) * M <= (k - 1) * M) by nia.
    assert (0 <= j * M) by nia.
    eapply twp_mono; [eapply (mv_step_spec W u M (ao + j * M) (bo + j) c' (fun e kk => fa e (j + kk)) (fun kk => fb (j + kk)));
                      eauto; try lia|].
    - intros kk e Hkk He. replace (ao + j * M + kk * M + e) with (ao + (j + kk) * M + e) by ring. apply HA; lia.
    - intros kk Hkk. replace (bo + j + kk) with (bo + (j + kk)) by ring. apply HB; lia.
    - cbn. intros [[pa pb] c2] m' (-> & Hpa & Hpb & Hc2). cbn [fst snd] in *. subst pa pb.
      split; [auto|cbn [fst snd]]. split; [f_equal; ring|split; [f_equal; ring|]].
      intros e He. rewrite Hc2, Hcc by lia. rewrite (dot_shift S (fa e) fb).
      rewrite zrange_app, dot_app by lia. reflexivity. }
  apply twp_bind.
  eapply (twp_tfor W rAB (fun c => Inv (c * 8)) _ 0 (k - r) 8 q); try lia.
  - split; auto. cbn [fst snd]. split; [f_equal; ring|split; [f_equal; ring|]].
    intros e He. rewrite zrange_0 by lia. cbn. apply Hc0. lia.
  - intros c1 st m0 Hc1 HI _ _. assert (m0 = m) by apply HI. subst m0.
    replace ((c1 + 1) * 8) with (c1 * 8 + 8) by ring. apply Step; auto; lia.
  - intros st m0 HI _ _. assert (m0 = m) by apply HI. subst m0. apply twp_bind.
    eapply (twp_tfor1 W rAB (fun c => Inv (q * 8 + c))); try lia.
    + now rewrite Z.add_0_r.
    + intros c1 st1 m1 Hc1 HI1 _ _. assert (m1 = m) by apply HI1. subst m1.
      rewrite Z.add_assoc. apply Step; auto; lia.
    + intros st1 m1 (-> & _ & _ & Hcc) _ _.
      eapply twp_weaken; [eapply twp_mono; [apply (store_vec_spec S (BufC, co) 8 (snd st1) bc m); cbn; auto; lia|]|auto|intros ? ? []].
      cbn. intros _ m2 Hm' e He. rewrite Hm' by auto. rewrite Hcc by auto.
      now replace (q * 8 + r) with k by lia.
Qed.

Lemma mv_kernel_cells ao bo co mm k M (fa : Z -> Z -> T) (fb fc : Z -> T) m :
  0 < k -> 0 <= ao -> 0 <= bo -> 0 <= co -> 0 <= M ->
  (forall kk e, 0 <= kk < k -> 0 <= e < 8 -> cell m BufA (ao + kk * M + e) (fa e kk)) ->
  (forall kk, 0 <= kk < k -> cell m BufB (bo + kk) (fb kk)) ->
  (forall e, 0 <= e < 8 -> cell m BufC (co + e) (fc e)) ->
  twp (rng BufC co (co + 8)) rAB
    (cake_sgemv_haswell_8x8_col S (BufA, ao) (BufB, bo) (BufC, co) mm k M)
    (fun _ m' => forall e, 0 <= e < 8 ->
       dat m' BufC (co + e) = Some (dot S (fa e) fb (zrange 0 k) (fc e))) m.
Proof.
  intros Hk Ha Hb Hc HM HA HB HC.
  destruct (HA (k - 1) 7 ltac:(lia) ltac:(lia)) as (ba & La & Ba & _).
  destruct (HB (k - 1) ltac:(lia)) as (bb & Lb & Bb & _).
  destruct (HC 7 ltac:(lia)) as (bc & Lc & Bc & _).
  eapply (mv_kernel_spec ao bo co mm k M fa fb fc ba bb bc); auto; try lia.
  - intros kk e Hkk He. now destruct (HA kk e Hkk He) as (? & _ & _ & ?).
  - intros kk Hkk. now destruct (HB kk Hkk) as (? & _ & _ & ?).
  - intros e He. now destruct (HC e He) as (? & _ & _ & ?).
Qed.

(** ** One core *)

Definition mv_of (x : blk_dims) : mvm_dims :=
  MvmDims (m_c x) (k_c x) (m_c1 x) (k_c1 x) (m_c1_last_core x) (p_l x) (m_pad x) (k_pad x) (Mb x) (Kb x).

(** how many columns are done before block k *)
Definition ks (x : blk_dims) (K k : Z) : Z := if k =? Kb x then K else k * k_c x.

Lemma cell_keep (m m' : mem T) b i v : live m' = live m -> dat m' b i = dat m b i -> cell m b i v -> cell m' b i v.
Proof. intros L D (bi & H1 & H2 & H3). exists bi. now rewrite L, D. Qed.

Lemma cell_new (m m' : mem T) b i v v' : live m' = live m -> dat m' b i = Some v' -> cell m b i v -> cell m' b i v'.
Proof. intros L D (bi & H1 & H2 & H3). exists bi. now rewrite L. Qed.

Section Run.

Variables (M K p : Z) (x : blk_dims) (a : Z -> Z -> T) (b c : Z -> T).
Hypothesis HM : 0 <= M.
Hypothesis HK : 0 <= K.
Hypothesis Hp : 0 < p.
Hypothesis F : kmn_facts M 1 K p 8 1 x.
Hypothesis HMp : M_padded x = M.

Definition inputs (m : mem T) : Prop :=
  (forall i k, 0 <= i < M -> 0 <= k < K -> cell m BufA (k * M + i) (a i k)) /\
  (forall k, 0 <= k < K -> cell m BufB k (b k)).

Lemma inputs_keep m m' : live m' = live m -> (forall bf i, bf <> BufC -> dat m' bf i = dat m bf i) -> inputs m -> inputs m'.
Proof.
  intros L D (H1 & H2). split; intros; (eapply cell_keep; [exact L|apply D; discriminate|]); auto.
Qed.

(** rows [lo, hi) of C hold the first n terms of their sum *)
Definition rows_at (m : mem T) (lo hi n : Z) : Prop :=
  forall i, lo <= i < hi -> cell m BufC i (dot S (a i) b (zrange 0 n) (c i)).

Lemma mvm_core_spec mi core m :
  0 <= mi < Mb x -> 0 <= core < blk_pu x p mi -> inputs m ->
  let lo := mi * p * m_c x + core * core_mx x mi in
  let hi := lo + core_mt x mi core in
  rows_at m lo hi 0 ->
  twp (rng BufC lo hi) rAB (mvm_core S 8 (mv_of x) M p mi core) (fun _ m' => rows_at m' lo hi K) m.
Proof.
  intros Hmi Hcore HI lo hi HC.
  pose proof (kf_C _ _ _ _ _ _ _ F mi Hmi) as PC.
  pose proof (kf_M _ _ _ _ _ _ _ F) as PM.
  pose proof (kf_K _ _ _ _ _ _ _ F) as PK.
  pose proof (kf_mr _ _ _ _ _ _ _ F mi core Hmi Hcore) as [u Hu].
  pose proof (pt_w _ _ _ _ PC core Hcore) as Hw.
  assert (Hlo : 0 <= lo).
  { pose proof (kf_mx _ _ _ _ _ _ _ F mi Hmi). pose proof (kf_mc _ _ _ _ _ _ _ F). unfold lo. nia. }
  assert (Hhi : hi <= M).
  { pose proof (part_end _ _ _ _ PC core Hcore). pose proof (part_end _ _ _ _ PM mi Hmi). unfold hi, lo. nia. }
  assert (Hkc : 0 < k_c x) by apply F.
  unfold mvm_core. cbn [mv_of g_Mb g_m_pad g_p_l g_m_c1_last_core g_m_c1 g_m_c g_Kb g_k_pad g_k_c1 g_k_c].
  fold (is_last mi (Mb x) (m_pad x)).
  change (if is_last mi (Mb x) (m_pad x) then m_c1 x else m_c x) with (core_mx x mi).
  change (if is_last mi (Mb x) (m_pad x) then if core =? p_l x - 1 then m_c1_last_core x else m_c1 x else m_c x)
    with (core_mt x mi core).
  unfold tfor_ at 1.
  assert (Hks : forall k, 0 <= k < Kb x -> ks x K k = k * k_c x /\ ks x K (k + 1) = k * k_c x + blk_kt x k /\ 0 < blk_kt x k /\ k * k_c x + blk_kt x k <= K).
  { intros k Hk. unfold ks. replace (k =? Kb x) with false by lia. split; auto.
    pose proof (pt_w _ _ _ _ PK k Hk). pose proof (part_end _ _ _ _ PK k Hk).
    split; [|lia]. destruct (Z.eqb_spec (k + 1) (Kb x)) as [E|E].
    - rewrite <- (pt_last _ _ _ _ PK) by lia. now replace (Kb x - 1) with k by lia.
    - rewrite (pt_full _ _ _ _ PK) by lia. ring. }
  eapply (twp_tfor1 _ _ (fun k _ m' => inputs m' /\ rows_at m' lo hi (ks x K k))).
  - apply (pt_nb _ _ _ _ PK).
  - split; auto. intros i Hi. replace (ks x K 0) with 0; auto. unfold ks.
    destruct (Z.eqb_spec 0 (Kb x)) as [E|]; [|lia]. symmetry. now apply (pt_0 _ _ _ _ PK).
  - intros k _ m1 Hk (HI1 & HC1) _ _. destruct (Hks k Hk) as (E1 & E2 & E3 & E4).
    fold (is_last k (Kb x) (k_pad x)).
    change (if is_last k (Kb x) (k_pad x) then k_c1 x else k_c x) with (blk_kt x k).
    rewrite Hu, Z.quot_mul by lia. rewrite E1 in HC1. rewrite E2. unfold tfor_.
    assert (Hk0 : 0 <= k * k_c x) by nia.
    assert (Hu0 : 0 <= u) by lia.
    assert (Hhu : hi = lo + u * 8) by (unfold hi; lia).
    eapply (twp_tfor1 _ _ (fun r _ m' => inputs m' /\ rows_at m' lo (lo + r * 8) (k * k_c x + blk_kt x k) /\
                                         rows_at m' (lo + r * 8) hi (k * k_c x))); auto.
    + split; auto. split; [intros i Hi; lia|]. now replace (lo + 0 * 8) with lo by lia.
    + intros r _ m2 Hr (HI2 & HD2 & HT2) _ _.
      fold lo. replace (mi * p * m_c x + k * k_c x * M + core * core_mx x mi + r * 8) with (k * k_c x * M + (lo + r * 8)) by (unfold lo; ring).
      assert (0 <= k * k_c x * M) by nia.
      eapply (twp_call _ _ (rng BufC (lo + r * 8) (lo + r * 8 + 8)) rAB).
      * eapply (mv_kernel_cells _ _ (lo + r * 8) 8 (blk_kt x k) M (fun e kk => a (lo + r * 8 + e) (k * k_c x + kk))
                 (fun kk => b (k * k_c x + kk))
                 (fun e => dot S (a (lo + r * 8 + e)) b (zrange 0 (k * k_c x)) (c (lo + r * 8 + e)))); try lia.
        -- intros kk e Hkk He. replace (k * k_c x * M + (lo + r * 8) + kk * M + e) with ((k * k_c x + kk) * M + (lo + r * 8 + e)) by ring.
           apply HI2; lia.
        -- intros kk Hkk. apply HI2; lia.
        -- intros e He. apply HT2; lia.
      * intros bf i (-> & Hi). split; auto. lia.
      * auto.
      * intros rr m3 Hn Hl Hf. cbv beta in Hn.
        assert (Hcell : forall i, lo <= i < hi -> cell m2 BufC i (dot S (a i) b (zrange 0 (if i <? lo + r * 8 then k * k_c x + blk_kt x k else k * k_c x)) (c i))).
        { intros i Hi. destruct (Z.ltb_spec i (lo + r * 8)); [apply HD2|apply HT2]; lia. }
        split; [|split].
        -- apply (inputs_keep m2); auto. intros bf i Hbf. apply Hf. intros (-> & _). auto.
        -- intros i Hi. destruct (Z_lt_le_dec i (lo + r * 8)).
           ++ eapply cell_keep; [exact Hl|apply Hf; intros (_ & ?); lia|]. apply HD2; lia.
           ++ eapply (cell_new m2 m3 BufC i); [exact Hl| |apply (Hcell i); lia].
              pose proof (Hn (i - (lo + r * 8)) ltac:(lia)) as E.
              replace (lo + r * 8 + (i - (lo + r * 8))) with i in E by ring. rewrite E. f_equal.
              replace (i <? lo + r * 8) with false by lia.
              rewrite zrange_app, dot_app by lia. apply (dot_shift S (a i) b).
        -- intros i Hi. eapply cell_keep; [exact Hl|apply Hf; intros (_ & ?); lia|]. apply HT2; lia.
    + intros _ m2 (HI2 & HD2 & _) _ _. split; auto. now rewrite Hhu.
  - intros _ m1 (_ & HC1) _ _. unfold ks in HC1. now rewrite Z.eqb_refl in HC1.
Qed.

(** ** All cores, all blocks *)

Definition mv_done (m : mem T) (n : Z) (m' : mem T) : Prop :=
  live m' = live m /\
  (forall i, 0 <= i < n -> dat m' BufC i = Some (dot S (a i) b (zrange 0 K) (c i))) /\
  (forall bf i, ~ (bf = BufC /\ 0 <= i < n) -> dat m' bf i = dat m bf i).

Lemma schedule_mvm_spec m : inputs m -> (forall i, 0 <= i < M -> cell m BufC i (c i)) ->
  pok (schedule_mvm S 8 (mv_of x) M p) m (fun _ m' => mv_done m M m').
Proof.
  intros HI HC. unfold schedule_mvm, pfor_.
  pose proof (kf_M _ _ _ _ _ _ _ F) as PM. rewrite HMp in PM.
  assert (Hmc : 0 < m_c x) by apply F.
  set (ms := fun mi => if mi =? Mb x then M else mi * (p * m_c x)).
  assert (Hms : forall mi, 0 <= mi < Mb x -> ms mi = mi * p * m_c x /\ ms (mi + 1) = mi * p * m_c x + blk_mcb x p 8 mi
                                             /\ 0 <= mi * p * m_c x /\ mi * p * m_c x + blk_mcb x p 8 mi <= M).
  { intros k Hk. unfold ms. replace (k =? Mb x) with false by lia. split; [ring|].
    pose proof (pt_w _ _ _ _ PM k Hk). pose proof (part_end _ _ _ _ PM k Hk).
    split; [|split; [nia|lia]]. destruct (Z.eqb_spec (k + 1) (Mb x)) as [E|E].
    - rewrite <- (pt_last _ _ _ _ PM) by lia. replace (Mb x - 1) with k by lia. ring.
    - rewrite (pt_full _ _ _ _ PM) by lia. ring. }
  cbn [mv_of g_Mb g_m_pad g_p_l].
  eapply (pok_pfor1 (fun mi _ m' => mv_done m (ms mi) m')).
  - apply (pt_nb _ _ _ _ PM).
  - assert (E0 : ms 0 = 0).
    { unfold ms. destruct (Z.eqb_spec 0 (Mb x)) as [E|]; [|lia]. now apply (pt_0 _ _ _ _ PM). }
    rewrite E0. split; auto. split; [intros; lia|auto].
  - intros mi _ m1 Hmi (HL & HD & HF). destruct (Hms mi Hmi) as (E1 & E2 & E3 & E4). rewrite E1 in *. rewrite E2.
    fold (is_last mi (Mb x) (m_pad x)).
    change (if is_last mi (Mb x) (m_pad x) then p_l x else p) with (blk_pu x p mi).
    pose proof (kf_C _ _ _ _ _ _ _ F mi Hmi) as PC.
    set (lo := fun core => mi * p * m_c x + core * core_mx x mi).
    set (hi := fun core => lo core + core_mt x mi core).
    assert (Hlo : forall core, 0 <= core < blk_pu x p mi -> mi * p * m_c x <= lo core /\ hi core <= mi * p * m_c x + blk_mcb x p 8 mi).
    { intros core Hc. pose proof (part_end _ _ _ _ PC core Hc). unfold hi, lo.
      pose proof (kf_mx _ _ _ _ _ _ _ F mi Hmi). nia. }
    eapply (pok_par_for 0 _ 1 (blk_pu x p mi) _ m1 (fun core => rng BufC (lo core) (hi core)) (fun _ => rAB)
              (fun core m' => rows_at m' (lo core) (hi core) K)); try lia.
    + apply (pt_nb _ _ _ _ PC).
    + intros core Hc. replace (0 + core * 1) with core by ring.
      apply mvm_core_spec; auto.
      * apply (inputs_keep m); auto. intros bf i Hbf. apply HF. intros (? & _). auto.
      * intros i Hi. destruct (Hlo core Hc) as (Hl1 & Hl2). fold (lo core) in Hi. fold (hi core) in Hi.
        rewrite zrange_0 by lia. cbn. eapply cell_keep; [exact HL| |apply HC; lia].
        apply HF. intros (_ & ?). lia.
    + intros c1 c2 bf i H1 H2 Hne (-> & Hi) [(_ & Hi')|[|]]; try discriminate.
      apply Hne. apply (part_uniq _ _ _ _ PC c1 c2 (i - mi * p * m_c x)); auto; unfold hi, lo in *; lia.
    + intros m2 HL2 HQ HF2. split; [congruence|]. split.
      * intros i Hi. destruct (Z_lt_le_dec i (mi * p * m_c x)) as [Hlt|Hge].
        -- rewrite HF2; [apply HD; lia|]. intros core Hc (_ & Hi2). destruct (Hlo core Hc). lia.
        -- destruct (part_cover _ _ _ _ PC (i - mi * p * m_c x) ltac:(lia)) as (core & Hc & Hin).
           destruct (HQ core Hc) as (ms1 & HR & _ & _ & He).
           assert (Hil : lo core <= i < hi core) by (unfold hi, lo; lia).
           rewrite He by (split; auto). now destruct (HR i Hil) as (? & _ & _ & ?).
      * intros bf i Hn. rewrite HF2.
        -- apply HF. intros (-> & ?). apply Hn. split; auto. pose proof (pt_w _ _ _ _ PM mi Hmi). lia.
        -- intros core Hc (-> & Hi). apply Hn. split; auto. destruct (Hlo core Hc). lia.
  - intros _ m1 H. unfold ms in H. now rewrite Z.eqb_refl in H.
Qed.

End Run.

End G.
