(** * Packing for the M-first and N-first schedules. *)

From Coq Require Import ZArith List Bool Lia.
From Verif Require Import Lang Lang_facts Spec ModelSizing ModelKernel ModelPack ModelSched
     Kernel_facts Tile_facts Loop_facts Pack_facts Unpack_facts Sizing_facts SizingMN_facts PackMat_facts
     Order_facts Cphase_facts Grid_facts.
Import ListNotations.
Open Scope Z_scope.

(** Blocks of a two-level layout: position and disjointness *)
Section Geo.

Variables (nI tI DI : Z) (wI : Z -> Z) (nJ tJ DJ : Z) (wJ : Z -> Z).
Hypothesis HI : part nI tI DI wI.
Hypothesis HJ : part nJ tJ DJ wJ.

Definition bpos (i j : Z) : Z := i * tI * DJ + wI i * (j * tJ).

Lemma bpos_bound i j : 0 <= i < nI -> 0 <= j < nJ ->
  0 <= bpos i j /\ bpos i j + wI i * wJ j <= DI * DJ.
Proof.
  intros Hi Hj. unfold bpos.
  pose proof (pt_w _ _ _ _ HI i Hi). pose proof (pt_w _ _ _ _ HJ j Hj).
  pose proof (part_end _ _ _ _ HI i Hi). pose proof (part_end _ _ _ _ HJ j Hj).
  pose proof (part_D _ _ _ _ HJ).
  split; [nn|].
  assert (wI i * (j * tJ + wJ j) <= wI i * DJ) by (apply Z.mul_le_mono_nonneg_l; lia).
  assert ((i * tI + wI i) * DJ <= DI * DJ) by (apply Z.mul_le_mono_nonneg_r; lia). lia.
Qed.

Lemma bpos_disj i j i' j' y : 0 <= i < nI -> 0 <= j < nJ -> 0 <= i' < nI -> 0 <= j' < nJ ->
  bpos i j <= y < bpos i j + wI i * wJ j -> bpos i' j' <= y < bpos i' j' + wI i' * wJ j' ->
  i = i' /\ j = j'.
Proof.
  assert (G : forall i j i' j', 0 <= i < nI -> 0 <= j < nJ -> 0 <= i' < nI -> 0 <= j' < nJ -> i < i' ->
    bpos i j + wI i * wJ j <= bpos i' j').
  { clear i j i' j' y. intros i j i' j' Hi Hj Hi' Hj' Hlt. unfold bpos.
    pose proof (pt_w _ _ _ _ HI i Hi). pose proof (pt_w _ _ _ _ HJ j Hj). pose proof (pt_w _ _ _ _ HI i' Hi').
    pose proof (pt_w _ _ _ _ HJ j' Hj').
    pose proof (part_sep _ _ _ _ HI i i' Hi Hlt). pose proof (part_end _ _ _ _ HJ j Hj).
    pose proof (part_D _ _ _ _ HJ).
    assert (wI i * (j * tJ + wJ j) <= wI i * DJ) by (apply Z.mul_le_mono_nonneg_l; lia).
    assert ((i * tI + wI i) * DJ <= i' * tI * DJ) by (apply Z.mul_le_mono_nonneg_r; lia).
    assert (0 <= wI i' * (j' * tJ)) by nn. lia. }
  intros Hi Hj Hi' Hj' H1 H2.
  destruct (Z_lt_le_dec i i') as [L|L]; [specialize (G i j i' j' Hi Hj Hi' Hj' L); lia|].
  destruct (Z_lt_le_dec i' i) as [L2|L2]; [specialize (G i' j' i j Hi' Hj' Hi Hj L2); lia|].
  assert (i = i') by lia. subst i'. split; auto.
  assert (E : forall j j', 0 <= j < nJ -> 0 <= j' < nJ -> j < j' -> bpos i j + wI i * wJ j <= bpos i j').
  { clear - HI HJ Hi. intros j j' Hj Hj' Hlt. unfold bpos.
    pose proof (pt_w _ _ _ _ HI i Hi). pose proof (part_sep _ _ _ _ HJ j j' Hj Hlt).
    assert (wI i * (j * tJ + wJ j) <= wI i * (j' * tJ)) by (apply Z.mul_le_mono_nonneg_l; lia). lia. }
  destruct (Z_lt_le_dec j j') as [L3|L3]; [specialize (E j j' Hj Hj' L3); lia|].
  destruct (Z_lt_le_dec j' j) as [L4|L4]; [specialize (E j' j Hj' Hj L4); lia|]. lia.
Qed.

End Geo.

Section PK.

Variable S : scalar.
Notation T := (elt S).
Variables (M N K p m_r n_r tM : Z) (mt : Z -> Z) (x : blk_dims).
Hypothesis F : bf M N K p m_r n_r tM mt x.
Hypothesis Hp : 0 < p.
Hypothesis HM0 : 0 <= M.
Hypothesis HN0 : 0 <= N.
Hypothesis HK0 : 0 <= K.
Hypothesis Hmr : 0 < m_r.
Hypothesis Hnr : 0 < n_r.

(** The packed operands: [abase k m] is where block (k,m) of A starts. *)
Definition packedA_MN (abase : Z -> Z -> Z) (b : buf) (f : Z -> Z -> T) (m' : mem T) : Prop :=
  forall k m core, 0 <= k < Kb x -> 0 <= m < Mb x -> 0 <= core < blk_pk x p k ->
    panels m' b (abase k m + core * core_kx x k * mt m) m_r (mt m / m_r) (core_kt x k core)
           (fun row kk => f (m * tM + row) (k * (p * k_c x) + core * core_kx x k + kk)).

Definition packedB_MN (bbase : Z -> Z -> Z) (b : buf) (f : Z -> Z -> T) (m' : mem T) : Prop :=
  forall k n core, 0 <= k < Kb x -> 0 <= n < Nb x -> 0 <= core < blk_pk x p k ->
    panels m' b (bbase k n + core * core_kx x k * blk_nt x n) n_r (blk_nt x n / n_r) (core_kt x k core)
           (fun col kk => f (k * (p * k_c x) + core * core_kx x k + kk) (n * n_c x + col)).

(** Offsets of the blocks *)
Definition abase_M (k m : Z) : Z := bpos (p * k_c x) (blk_kcb x p) tM (M_padded x) k m.
Definition abase_N (k m : Z) : Z := bpos tM mt (p * k_c x) K m k.
Definition bbase_M (k n : Z) : Z := bpos (n_c x) (blk_nt x) (p * k_c x) K n k.
Definition bbase_N (k n : Z) : Z := bpos (p * k_c x) (blk_kcb x p) (n_c x) (N_padded x) k n.

Lemma core_k k core kk : 0 <= k < Kb x -> 0 <= core < blk_pk x p k -> 0 <= kk < core_kt x k core ->
  0 <= k * (p * k_c x) + core * core_kx x k + kk < K.
Proof.
  intros Hk Hc Hkk. pose proof (bf_C _ _ _ _ _ _ _ _ _ F k Hk) as HC.
  pose proof (part_end _ _ _ _ HC core Hc). pose proof (part_end _ _ _ _ (bf_K _ _ _ _ _ _ _ _ _ F) k Hk).
  pose proof (pt_w _ _ _ _ HC core Hc). pose proof (bf_kc _ _ _ _ _ _ _ _ _ F).
  assert (0 <= k * (p * k_c x)) by nn. assert (0 <= core * core_kx x k) by nn. lia.
Qed.

(** One core's share of one block of A *)
Lemma packA_core (ab pb : buf) (f : Z -> Z -> T) ba bp base k m core mm :
  ab <> pb -> live mm ab = Some ba -> M * K <= blen ba -> holds mm ab M K f ->
  live mm pb = Some bp -> 0 <= base -> base + core_kt x k core * mt m <= blen bp ->
  0 <= k < Kb x -> 0 <= m < Mb x -> 0 <= core < blk_pk x p k ->
  forall ao, ao = m * tM * K + k * (p * k_c x) + core * core_kx x k ->
  twp (rng pb base (base + core_kt x k core * mt m)) (fun b _ => b = ab)
      (pack_ob_A_single_buf S (ab, ao) (pb, base) M K (m * tM) 0 (mt m) (core_kt x k core) m_r)
      (fun _ m' => panels m' pb base m_r (mt m / m_r) (core_kt x k core)
           (fun row kk => padrow S M f (m * tM + row) (k * (p * k_c x) + core * core_kx x k + kk))) mm.
Proof.
  intros Hne HLa Hba Hh HLp Hb0 Hb1 Hk Hm Hc ao ->.
  pose proof (pt_w _ _ _ _ (bf_M _ _ _ _ _ _ _ _ _ F) m Hm) as Hmt.
  pose proof (pt_w _ _ _ _ (bf_C _ _ _ _ _ _ _ _ _ F k Hk) core Hc) as Hkt.
  pose proof (div_exact_of m_r _ Hmr (bf_mr _ _ _ _ _ _ _ _ _ F m Hm)) as E.
  pose proof (bf_tM _ _ _ _ _ _ _ _ _ F) as HtM.
  rewrite (Z.mul_comm (core_kt x k core) (mt m)) in *.
  eapply (pack_ob_A_spec S _ ab pb _ base M K (m * tM) 0 (mt m) _ m_r (mt m / m_r) _ bp mm); auto; try lia.
  intros row kk Hrow Hkk. unfold src_ok, padrow. rewrite Z.add_0_r.
    destruct (Z.leb_spec M (m * tM + row)) as [Hpad|Hpad]; destruct (Z.ltb_spec (m * tM + row) M); try lia; auto.
    assert (Ea : m * tM * K + k * (p * k_c x) + core * core_kx x k + (row * K + kk)
                 = (m * tM + row) * K + (k * (p * k_c x) + core * core_kx x k + kk)) by ring.
    pose proof (core_k k core kk Hk Hc Hkk) as Hkk'.
    assert (0 <= m * tM + row) by nia.
    rewrite Ea. split; [auto|split; [apply Hh; lia|]]. exists ba. split; auto. nia.
Qed.

(** First row of the last core's share of B, the only one whose copy is guarded *)
Definition kguard : Z := if truthy (k_pad x) then K - k_c1_last_core x else K.

Lemma core_kpad_iff k core kk : 0 <= k < Kb x -> 0 <= core < blk_pk x p k -> 0 <= kk < core_kt x k core ->
  core_kpad x k core = (kguard <=? k * (p * k_c x) + core * core_kx x k + kk).
Proof.
  intros Hk Hc Hkk. pose proof (core_k k core kk Hk Hc Hkk) as Hb.
  pose proof (bf_C _ _ _ _ _ _ _ _ _ F k Hk) as HC.
  pose proof (bf_K _ _ _ _ _ _ _ _ _ F) as HKp.
  unfold core_kpad, kguard, is_last.
  destruct (truthy (k_pad x)) eqn:Ep.
  2:{ rewrite andb_false_r. cbn. destruct (Z.leb_spec K (k * (p * k_c x) + core * core_kx x k + kk)); auto; lia. }
  rewrite andb_true_r.
  assert (Kpos : 0 < Kb x) by lia.
  pose proof (pt_last _ _ _ _ HKp Kpos) as EK.
  pose proof (bf_C _ _ _ _ _ _ _ _ _ F (Kb x - 1) ltac:(lia)) as HCl.
  assert (Elast : is_last (Kb x - 1) (Kb x) (k_pad x) = true).
  { unfold is_last. rewrite Z.eqb_refl, Ep. auto. }
  assert (Ew : 0 < blk_kcb x p (Kb x - 1)) by (apply (pt_w _ _ _ _ HKp); lia).
  assert (Hpl : 0 < p_l x).
  { destruct (part_cover _ _ _ _ HCl 0 ltac:(lia)) as (c0 & Hc0 & _).
    unfold blk_pk in Hc0. rewrite Elast in Hc0. lia. }
  assert (Ekl : (p_l x - 1) * k_c1 x + k_c1_last_core x = k_rem x).
  { pose proof (pt_last _ _ _ _ HCl) as E. unfold blk_pk, core_kx, core_kt, blk_kcb in E.
    rewrite Elast, Z.eqb_refl in E. specialize (E Hpl). lia. }
  assert (Ekr : (Kb x - 1) * (p * k_c x) + k_rem x = K).
  { unfold blk_kcb in EK. rewrite Elast in EK. lia. }
  destruct (Z.eqb_spec k (Kb x - 1)) as [->|Nk]; cbn [andb].
  - unfold blk_pk, core_kx, core_kt in *. rewrite Elast in *.
    destruct (Z.eqb_spec core (p_l x - 1)) as [->|Nc].
    + destruct (Z.leb_spec (K - k_c1_last_core x) ((Kb x - 1) * (p * k_c x) + (p_l x - 1) * k_c1 x + kk)); auto; lia.
    + assert ((core + 1) * k_c1 x <= (p_l x - 1) * k_c1 x) by (apply Z.mul_le_mono_nonneg_r; lia).
      destruct (Z.leb_spec (K - k_c1_last_core x) ((Kb x - 1) * (p * k_c x) + core * k_c1 x + kk)); auto; lia.
  - assert (0 < k_c1_last_core x <= k_rem x).
    { pose proof (pt_w _ _ _ _ HCl (p_l x - 1)) as W. pose proof (part_end _ _ _ _ HCl (p_l x - 1)) as W2.
      unfold blk_pk, core_kx, core_kt, blk_kcb in W, W2. rewrite Elast, Z.eqb_refl in W, W2.
      specialize (W ltac:(lia)). specialize (W2 ltac:(lia)). nia. }
    pose proof (part_end _ _ _ _ HC core Hc).
    pose proof (part_sep _ _ _ _ HKp k (Kb x - 1) Hk ltac:(lia)).
    destruct (Z.leb_spec (K - k_c1_last_core x) (k * (p * k_c x) + core * core_kx x k + kk)); auto; lia.
Qed.

(** What the packing of B reads and produces: row [kk], column [col] (possibly beyond
    N, where unguarded reads run into the next row). *)
Definition bsrc (bb : buf) (f : Z -> Z -> T) (m : mem T) : Prop :=
  exists bi, live m bb = Some bi /\
    forall kk col, 0 <= kk < K -> 0 <= col < N_padded x ->
      if (kguard <=? kk) && (N <=? col) then f kk col = zero S
      else kk * N + col < blen bi /\ dat m bb (kk * N + col) = Some (f kk col).

Lemma packB_core (bb pb : buf) (f : Z -> Z -> T) bp base k n core mm :
  bb <> pb -> bsrc bb f mm ->
  live mm pb = Some bp -> 0 <= base -> base + core_kt x k core * blk_nt x n <= blen bp ->
  0 <= k < Kb x -> 0 <= n < Nb x -> 0 <= core < blk_pk x p k ->
  forall bo, bo = k * (p * k_c x) * N + n * n_c x + core * core_kx x k * N ->
  twp (rng pb base (base + core_kt x k core * blk_nt x n)) (fun b _ => b = bb)
      (pack_ob_B_single_buf S (bb, bo) (pb, base) K N (blk_n1 x N n) (core_kt x k core) (blk_nt x n) n_r
         (core_kpad x k core))
      (fun _ m' => panels m' pb base n_r (blk_nt x n / n_r) (core_kt x k core)
           (fun col kk => f (k * (p * k_c x) + core * core_kx x k + kk) (n * n_c x + col))) mm.
Proof.
  intros Hne (bi & HLb & Hsrc) HLp Hb0 Hb1 Hk Hn Hc bo ->.
  pose proof (pt_w _ _ _ _ (bf_N _ _ _ _ _ _ _ _ _ F) n Hn) as Hnt.
  pose proof (part_end _ _ _ _ (bf_N _ _ _ _ _ _ _ _ _ F) n Hn) as Hne'.
  pose proof (pt_w _ _ _ _ (bf_C _ _ _ _ _ _ _ _ _ F k Hk) core Hc) as Hkt.
  pose proof (div_exact_of n_r _ Hnr (bf_nr _ _ _ _ _ _ _ _ _ F n Hn)) as E.
  destruct (bf_n1 _ _ _ _ _ _ _ _ _ F n Hn) as (En1 & _).
  rewrite (Z.mul_comm (core_kt x k core) (blk_nt x n)) in *.
  eapply (pack_ob_B_spec S _ bb pb _ base K N _ (blk_nt x n) _ n_r (blk_nt x n / n_r) _
      (fun kk col => f (k * (p * k_c x) + core * core_kx x k + kk) (n * n_c x + col)) bp mm); auto; try lia.
  intros kk col Hcol Hkk. unfold src_ok. rewrite En1.
    rewrite (core_kpad_iff k core kk) by auto.
    pose proof (core_k k core kk Hk Hc Hkk) as Hkk'.
    pose proof (bf_nc _ _ _ _ _ _ _ _ _ F).
    assert (Hcc : 0 <= n * n_c x + col < N_padded x) by nia.
    specialize (Hsrc _ _ Hkk' Hcc).
    destruct ((kguard <=? k * (p * k_c x) + core * core_kx x k + kk) && (N <=? n * n_c x + col)); [auto|].
    destruct Hsrc as (H1 & H2).
    replace (k * (p * k_c x) * N + n * n_c x + core * core_kx x k * N + (kk * N + col))
      with ((k * (p * k_c x) + core * core_kx x k + kk) * N + (n * n_c x + col)) by ring.
    split; [auto|split; [auto|]]. exists bi. split; auto. nia.
Qed.

(** The blocks in order: [pack2] with A as (k,m) resp. (m,k) and B as (n,k) resp. (k,n) *)
Lemma bf_pk_g k g : 0 <= k < Kb x -> 0 <= g ->
  part (blk_pk x p k) (core_kx x k) (blk_kcb x p k) (core_kt x k) /\ 0 <= g.
Proof. intros Hk Hg. split; [apply (bf_C _ _ _ _ _ _ _ _ _ F); auto|auto]. Qed.

Lemma pack_A_MN (swap : bool) (ab pb : buf) (f : Z -> Z -> T) ba bp mm
      (body : Z -> Z -> Z -> Z -> thr T unit) (inc : Z -> Z -> Z) :
  ab <> pb -> live mm ab = Some ba -> M * K <= blen ba -> holds mm ab M K f ->
  live mm pb = Some bp -> M_padded x * K <= blen bp ->
  (forall k m off core, 0 <= k < Kb x -> 0 <= m < Mb x -> exists ao,
     ao = m * tM * K + k * (p * k_c x) + core * core_kx x k /\
     (if swap then body m k off core else body k m off core)
     = pack_ob_A_single_buf S (ab, ao) (pb, off + core * core_kx x k * mt m) M K (m * tM) 0 (mt m) (core_kt x k core) m_r) ->
  (forall k m, (if swap then inc m k else inc k m) = blk_kcb x p k * mt m) ->
  pok (if swap
       then pfor 0 (Mb x) 1 0 (fun m o => pfor 0 (Kb x) 1 o (fun k o =>
              pbind (ppar_for 0 (blk_pk x p k) 1 (body m k o)) (fun _ => PRet (o + inc m k))))
       else pfor 0 (Kb x) 1 0 (fun k o => pfor 0 (Mb x) 1 o (fun m o =>
              pbind (ppar_for 0 (blk_pk x p k) 1 (body k m o)) (fun _ => PRet (o + inc k m))))) mm
      (fun _ m' => live m' = live mm /\ same_out (rng pb 0 (M_padded x * K)) mm m' /\
         packedA_MN (if swap then abase_N else abase_M) pb (padrow S M f) m').
Proof.
  intros Hne HLa Hba Hh HLp Hbp Hbody Hinc.
  pose proof (bf_M _ _ _ _ _ _ _ _ _ F) as PM. pose proof (bf_K _ _ _ _ _ _ _ _ _ F) as PK.
  assert (Hmtd : forall m, 0 <= m < Mb x -> mt m = mt m / m_r * m_r /\ 0 < mt m /\ 0 <= mt m / m_r).
  { intros m Hm. pose proof (pt_w _ _ _ _ PM m Hm). split; [apply div_exact_of; auto; apply (bf_mr _ _ _ _ _ _ _ _ _ F); auto|].
    split; [lia|apply Z.div_pos; lia]. }
  destruct swap.
  - eapply pok_mono.
    { eapply (pack2 body inc pb (fun b _ => b = ab) (Mb x) tM (M_padded x) mt (Kb x) (p * k_c x) K (blk_kcb x p)
        (fun m k => blk_pk x p k) (fun m k => core_kx x k) (fun m k => blk_kcb x p k) (fun m k => mt m)
        (fun m k => core_kt x k)
        (fun m k core m' => panels m' pb (abase_N k m + core * core_kx x k * mt m) m_r (mt m / m_r) (core_kt x k core)
           (fun row kk => padrow S M f (m * tM + row) (k * (p * k_c x) + core * core_kx x k + kk))) mm); auto.
      - intros i j Hi Hj. destruct (Hmtd i Hi) as (_ & ? & _).
        split; [apply (bf_C _ _ _ _ _ _ _ _ _ F); auto|]. rewrite (Hinc j i). repeat split; lia.
      - intros i j c Hi Hj Hc. cbv beta. fold (abase_N j i).
        destruct (Hmtd i Hi) as (E & ? & ?). pose proof (pt_w _ _ _ _ (bf_C _ _ _ _ _ _ _ _ _ F j Hj) c Hc).
        change (i * tM * K + mt i * (j * (p * k_c x))) with (abase_N j i).
        replace (core_kt x j c * mt i) with (mt i / m_r * m_r * core_kt x j c) by (rewrite <- E; ring).
        apply panels_stable; lia.
      - intros i j c m' Hi Hj Hc HL HF Hbnd. cbv beta.
        change (i * tM * K + mt i * (j * (p * k_c x))) with (abase_N j i) in *.
        destruct (Hbody j i (abase_N j i) c Hj Hi) as (ao & Eao & ->).
        eapply (packA_core ab pb f ba bp _ j i c m'); auto; try (rewrite HL; auto); try lia.
        intros r cc Hr Hcc. rewrite HF by (intros (? & _); congruence). apply Hh; auto. }
    cbn. intros _ m' (HL & HF & HP). split; [auto|split; [auto|]]. intros k m core Hk Hm Hc. apply (HP m k core); auto.
  - eapply pok_mono.
    { eapply (pack2 body inc pb (fun b _ => b = ab) (Kb x) (p * k_c x) K (blk_kcb x p) (Mb x) tM (M_padded x) mt
        (fun k m => blk_pk x p k) (fun k m => core_kx x k) (fun k m => blk_kcb x p k) (fun k m => mt m)
        (fun k m => core_kt x k)
        (fun k m core m' => panels m' pb (abase_M k m + core * core_kx x k * mt m) m_r (mt m / m_r) (core_kt x k core)
           (fun row kk => padrow S M f (m * tM + row) (k * (p * k_c x) + core * core_kx x k + kk))) mm); auto.
      - intros j i Hj Hi. destruct (Hmtd i Hi) as (_ & ? & _).
        split; [apply (bf_C _ _ _ _ _ _ _ _ _ F); auto|]. rewrite (Hinc j i). repeat split; lia.
      - intros j i c Hj Hi Hc. cbv beta.
        destruct (Hmtd i Hi) as (E & ? & ?). pose proof (pt_w _ _ _ _ (bf_C _ _ _ _ _ _ _ _ _ F j Hj) c Hc).
        change (j * (p * k_c x) * M_padded x + blk_kcb x p j * (i * tM)) with (abase_M j i).
        replace (core_kt x j c * mt i) with (mt i / m_r * m_r * core_kt x j c) by (rewrite <- E; ring).
        apply panels_stable; lia.
      - intros j i c m' Hj Hi Hc HL HF Hbnd. cbv beta.
        change (j * (p * k_c x) * M_padded x + blk_kcb x p j * (i * tM)) with (abase_M j i) in *.
        destruct (Hbody j i (abase_M j i) c Hj Hi) as (ao & Eao & ->).
        eapply (packA_core ab pb f ba bp _ j i c m'); auto; try (rewrite HL; auto); try lia.
        intros r cc Hr Hcc. rewrite HF by (intros (? & _); congruence). apply Hh; auto. }
    cbn. intros _ m' (HL & HF & HP). split; [auto|split].
    + intros b y Hy. apply HF. intros (-> & H). apply Hy. split; auto. lia.
    + intros k m core Hk Hm Hc. apply (HP k m core); auto.
Qed.

Lemma bsrc_frame bb f m m' : live m' = live m -> (forall i, dat m' bb i = dat m bb i) -> bsrc bb f m -> bsrc bb f m'.
Proof.
  intros HL HD (bi & H1 & H2). exists bi. rewrite HL. split; auto. intros kk col Hk Hc. specialize (H2 kk col Hk Hc).
  destruct (_ && _); auto. now rewrite HD.
Qed.

Lemma pack_B_MN (swap : bool) (bb pb : buf) (f : Z -> Z -> T) bp mm
      (body : Z -> Z -> Z -> Z -> thr T unit) (inc : Z -> Z -> Z) :
  bb <> pb -> bsrc bb f mm ->
  live mm pb = Some bp -> K * N_padded x <= blen bp ->
  (forall k n off core, 0 <= k < Kb x -> 0 <= n < Nb x -> exists bo,
     bo = k * (p * k_c x) * N + n * n_c x + core * core_kx x k * N /\
     (if swap then body n k off core else body k n off core)
     = pack_ob_B_single_buf S (bb, bo) (pb, off + core * core_kx x k * blk_nt x n) K N (blk_n1 x N n)
         (core_kt x k core) (blk_nt x n) n_r (core_kpad x k core)) ->
  (forall k n, (if swap then inc n k else inc k n) = blk_kcb x p k * blk_nt x n) ->
  pok (if swap
       then pfor 0 (Nb x) 1 0 (fun n o => pfor 0 (Kb x) 1 o (fun k o =>
              pbind (ppar_for 0 (blk_pk x p k) 1 (body n k o)) (fun _ => PRet (o + inc n k))))
       else pfor 0 (Kb x) 1 0 (fun k o => pfor 0 (Nb x) 1 o (fun n o =>
              pbind (ppar_for 0 (blk_pk x p k) 1 (body k n o)) (fun _ => PRet (o + inc k n))))) mm
      (fun _ m' => live m' = live mm /\ same_out (rng pb 0 (K * N_padded x)) mm m' /\
         packedB_MN (if swap then bbase_M else bbase_N) pb f m').
Proof.
  intros Hne Hsrc HLp Hbp Hbody Hinc.
  pose proof (bf_N _ _ _ _ _ _ _ _ _ F) as PN. pose proof (bf_K _ _ _ _ _ _ _ _ _ F) as PK.
  assert (Hntd : forall m, 0 <= m < Nb x -> blk_nt x m = blk_nt x m / n_r * n_r /\ 0 < blk_nt x m /\ 0 <= blk_nt x m / n_r).
  { intros m Hm. pose proof (pt_w _ _ _ _ PN m Hm). split; [apply div_exact_of; auto; apply (bf_nr _ _ _ _ _ _ _ _ _ F); auto|].
    split; [lia|apply Z.div_pos; lia]. }
  destruct swap.
  - eapply pok_mono.
    { eapply (pack2 body inc pb (fun b _ => b = bb) (Nb x) (n_c x) (N_padded x) (blk_nt x) (Kb x) (p * k_c x) K (blk_kcb x p)
        (fun m k => blk_pk x p k) (fun m k => core_kx x k) (fun m k => blk_kcb x p k) (fun m k => blk_nt x m)
        (fun m k => core_kt x k)
        (fun m k core m' => panels m' pb (bbase_M k m + core * core_kx x k * blk_nt x m) n_r (blk_nt x m / n_r) (core_kt x k core)
           (fun col kk => f (k * (p * k_c x) + core * core_kx x k + kk) (m * n_c x + col))) mm); auto.
      - intros i j Hi Hj. destruct (Hntd i Hi) as (_ & ? & _).
        split; [apply (bf_C _ _ _ _ _ _ _ _ _ F); auto|]. rewrite (Hinc j i). repeat split; lia.
      - intros i j c Hi Hj Hc. cbv beta.
        destruct (Hntd i Hi) as (E & ? & ?). pose proof (pt_w _ _ _ _ (bf_C _ _ _ _ _ _ _ _ _ F j Hj) c Hc).
        change (i * n_c x * K + blk_nt x i * (j * (p * k_c x))) with (bbase_M j i).
        replace (core_kt x j c * blk_nt x i) with (blk_nt x i / n_r * n_r * core_kt x j c) by (rewrite <- E; ring).
        apply panels_stable; lia.
      - intros i j c m' Hi Hj Hc HL HF Hbnd. cbv beta.
        change (i * n_c x * K + blk_nt x i * (j * (p * k_c x))) with (bbase_M j i) in *.
        destruct (Hbody j i (bbase_M j i) c Hj Hi) as (bo & Ebo & ->).
        eapply (packB_core bb pb f bp _ j i c m'); auto; try (rewrite HL; auto); try lia.
        eapply bsrc_frame; [exact HL| |exact Hsrc]. intros y. apply HF. intros (? & _). congruence. }
    cbn. intros _ m' (HL & HF & HP). split; [auto|split].
    + intros b y Hy. apply HF. intros (-> & H). apply Hy. split; auto. lia.
    + intros k m core Hk Hm Hc. apply (HP m k core); auto.
  - eapply pok_mono.
    { eapply (pack2 body inc pb (fun b _ => b = bb) (Kb x) (p * k_c x) K (blk_kcb x p) (Nb x) (n_c x) (N_padded x) (blk_nt x)
        (fun k m => blk_pk x p k) (fun k m => core_kx x k) (fun k m => blk_kcb x p k) (fun k m => blk_nt x m)
        (fun k m => core_kt x k)
        (fun k m core m' => panels m' pb (bbase_N k m + core * core_kx x k * blk_nt x m) n_r (blk_nt x m / n_r) (core_kt x k core)
           (fun col kk => f (k * (p * k_c x) + core * core_kx x k + kk) (m * n_c x + col))) mm); auto.
      - intros j i Hj Hi. destruct (Hntd i Hi) as (_ & ? & _).
        split; [apply (bf_C _ _ _ _ _ _ _ _ _ F); auto|]. rewrite (Hinc j i). repeat split; lia.
      - intros j i c Hj Hi Hc. cbv beta.
        destruct (Hntd i Hi) as (E & ? & ?). pose proof (pt_w _ _ _ _ (bf_C _ _ _ _ _ _ _ _ _ F j Hj) c Hc).
        change (j * (p * k_c x) * N_padded x + blk_kcb x p j * (i * n_c x)) with (bbase_N j i).
        replace (core_kt x j c * blk_nt x i) with (blk_nt x i / n_r * n_r * core_kt x j c) by (rewrite <- E; ring).
        apply panels_stable; lia.
      - intros j i c m' Hj Hi Hc HL HF Hbnd. cbv beta.
        change (j * (p * k_c x) * N_padded x + blk_kcb x p j * (i * n_c x)) with (bbase_N j i) in *.
        destruct (Hbody j i (bbase_N j i) c Hj Hi) as (bo & Ebo & ->).
        eapply (packB_core bb pb f bp _ j i c m'); auto; try (rewrite HL; auto); try lia.
        eapply bsrc_frame; [exact HL| |exact Hsrc]. intros y. apply HF. intros (? & _). congruence. }
    cbn. intros _ m' (HL & HF & HP). split; [auto|split; [auto|]]. intros k m core Hk Hm Hc. apply (HP k m core); auto.
Qed.

End PK.
