(** * Facts about the convolution example: the schedule. *)

From Coq Require Import ZArith List Bool Permutation Lia.
From Verif Require Import Lang Lang_facts Spec SpecTop SpecSmall SpecConv ModelSizing ModelKernel ModelPack ModelSmall ModelTop
     Kernel_facts Sizing_facts Mult_facts Small_facts ModelConv.
Import ListNotations.
Open Scope Z_scope.

(** ** The kernel, reading only the filters, the input and its own tile *)

Section Kern.

Variable S : scalar.
Notation T := (elt S).

Lemma ctile_load (W Rd : region) c co ldc (fc : Z -> Z -> T) m :
  row_stored m c co ldc 6 16 fc -> (forall r s, 0 <= r < 6 -> 0 <= s < 16 -> W c (co + r * ldc + s)) ->
  twp W Rd (load_tile S (c, co) ldc)
    (fun f m' => m' = m /\ forall i j, 0 <= i < 6 -> 0 <= j < 16 -> f (i * 16 + j) = fc i j) m.
Proof.
  intros HC HW. unfold load_tile.
  eapply (twp_tfor1 W Rd (fun i f m' => m' = m /\ forall i' j, 0 <= i' < i -> 0 <= j < 16 -> f (i' * 16 + j) = fc i' j)); [lia| | |].
  - split; auto. intros; lia.
  - intros i f m' Hi (-> & Hf) _ _. apply twp_bind.
    destruct (HC i 0) as (bi & L & B0 & _); [lia|lia|]. destruct (HC i 15) as (bi' & L' & B15 & _); [lia|lia|].
    rewrite L in L'. injection L' as <-.
    eapply twp_mono.
    { eapply (load_vec_spec S W Rd 1 (padd (c, co) (i * ldc)) 16 (fc i) bi m); cbn [padd fst snd]; auto; try lia.
      intros j Hj. split; [right; now apply HW|]. destruct (HC i j) as (? & _ & _ & E); auto. }
    intros r m' (-> & Hr). apply twp_ret. split; auto. intros i' j Hi' Hj.
    destruct (Z.eq_dec i' i) as [->|].
    + replace ((i * 16 <=? i * 16 + j) && (i * 16 + j <? (i + 1) * 16)) with true by lia.
      rewrite <- Hr by lia. f_equal. lia.
    + replace ((i * 16 <=? i' * 16 + j) && (i' * 16 + j <? (i + 1) * 16)) with false by lia.
      apply Hf; lia.
  - intros f m' (-> & Hf) _ _. auto.
Qed.

Lemma c_step (Rd : region) ldb (ab bb : buf) (ao bo : Z) (c : Z -> T) (va vb : Z -> T) m :
  (forall i, Rd ab i) -> (forall i, Rd bb i) ->
  (forall i, 0 <= i < 6 -> cell m ab (ao + i) (va i)) ->
  (forall j, 0 <= j < 16 -> cell m bb (bo + j) (vb j)) ->
  twp rnone Rd (s_step S 1 0 ldb ((ab, ao), (bb, bo), c))
    (fun st m' => m' = m /\ fst (fst st) = (ab, ao + 6) /\ snd (fst st) = (bb, bo + ldb) /\
       forall i j, 0 <= i < 6 -> 0 <= j < 16 ->
         snd st (i * 16 + j) = fma S (va i) (vb j) (c (i * 16 + j))) m.
Proof.
  intros Ra Rb HA HB. unfold s_step. apply twp_bind.
  destruct (HA 0) as (ba & La & A0 & _); [lia|]. destruct (HA 5) as (ba' & La' & A5 & _); [lia|].
  rewrite La in La'. injection La' as <-.
  destruct (HB 0) as (bi & Lb & B0 & _); [lia|]. destruct (HB 15) as (bi' & L' & B15 & _); [lia|].
  rewrite Lb in L'. injection L' as <-.
  eapply twp_mono.
  { eapply (inner_spec S Rd (Arch 2 16 6 16 2 2 1) 6 16 ldb ab bb ao bo c va vb ba bi m); cbn [lanes]; auto; try lia.
    - intros i Hi. destruct (HA i Hi) as (? & _ & _ & E). split; [apply Ra|exact E].
    - intros j Hj. destruct (HB j Hj) as (? & _ & _ & E). split; [apply Rb|exact E]. }
  intros [[pa pb] c'] m' (-> & E1 & E2 & E3). cbn in E1, E2, E3. subst pa pb. apply twp_ret.
  unfold padd. cbn. split; [auto|split; [f_equal; lia|split; [reflexivity|exact E3]]].
Qed.

Lemma conv_kernel (Rd : region) ldb ldc (ab bb cb : buf) (ao bo co k : Z) (fa fb fc : Z -> Z -> T) m :
  16 <= ldc -> 0 <= k -> (forall i, Rd ab i) -> (forall i, Rd bb i) ->
  col_stored m ab ao 6 6 k fa -> row_stored m bb bo ldb k 16 fb -> row_stored m cb co ldc 6 16 fc ->
  twp (tile_reg cb co ldc 6 16) Rd (cake_conv_haswell_6x16 S (ab, ao) (bb, bo) (cb, co) ldb ldc k)
    (fun _ m' => forall i j, 0 <= i < 6 -> 0 <= j < 16 ->
       dat m' cb (co + i * ldc + j) = Some (dot S (fa i) (fun kk => fb kk j) (zrange 0 k) (fc i j))) m.
Proof.
  intros Hldc Hk Ra Rb HA HB HC. unfold cake_conv_haswell_6x16, s_kernel. apply twp_bind.
  set (Inv := fun (kk : Z) (st : ptr * ptr * (Z -> T)) (m' : mem T) =>
     m' = m /\ fst (fst st) = (ab, ao + kk * 6) /\ snd (fst st) = (bb, bo + kk * ldb) /\
     forall i j, 0 <= i < 6 -> 0 <= j < 16 ->
       snd st (i * 16 + j) = dot S (fa i) (fun kk => fb kk j) (zrange 0 kk) (fc i j)).
  assert (Step : forall W kk st, 0 <= kk < k -> Inv kk st m ->
            twp W Rd (s_step S 1 0 ldb st) (Inv (kk + 1)) m).
  { intros W kk [[pa pb] c] Hkk (_ & Hpa & Hpb & Hc). cbn [fst snd] in Hpa, Hpb, Hc. subst pa pb.
    apply (twp_weaken rnone Rd); [eapply twp_mono|intros b x []|intros; now left].
    - apply (c_step Rd ldb ab bb (ao + kk * 6) (bo + kk * ldb) c (fun i => fa i kk) (fb kk) m); [exact Ra|exact Rb| |].
      + intros i Hi. apply HA; lia.
      + intros j Hj. apply HB; lia.
    - intros [[pa pb] c'] m' (-> & Hpa & Hpb & Hc'). cbn [fst snd] in Hpa, Hpb, Hc'. subst pa pb.
      split; [auto|cbn [fst snd]]. split; [apply (f_equal (pair ab)); lia|split; [apply (f_equal (pair bb)); lia|]].
      intros i j Hi Hj. rewrite Hc', Hc, zrange_snoc, dot_app by lia. reflexivity. }
  eapply twp_mono; [apply (ctile_load _ Rd cb co ldc fc m HC)|].
  { intros r s Hr Hs. split; auto. exists r, s. auto. }
  cbv beta. intros c m' (-> & Hc).
  assert (I0 : Inv 0 ((ab, ao), (bb, bo), c) m).
  { split; [auto|cbn [fst snd]]. split; [f_equal; lia|split; [f_equal; lia|]]. exact Hc. }
  assert (Hrem : 0 <= Z.rem k 4 < 4) by (apply Z.rem_bound_pos; lia).
  assert (Hq : k - Z.rem k 4 = 0 + Z.quot k 4 * 4) by (pose proof (Z.quot_rem' k 4); lia).
  assert (Hq0 : 0 <= Z.quot k 4) by (apply Z.quot_pos; lia).
  apply twp_bind.
  eapply (twp_tfor _ Rd (fun cnt => Inv (cnt * 4)) _ 0 (k - Z.rem k 4) 4 (Z.quot k 4)); auto; [lia| |].
  - intros cnt st m' Hcnt HI _ _. pose proof HI as (-> & _).
    apply twp_bind. eapply twp_mono; [eapply Step; [|exact HI]; lia|].
    intros st1 m1 H1. pose proof H1 as (-> & _).
    apply twp_bind. eapply twp_mono; [eapply Step; [|exact H1]; lia|].
    intros st2 m2 H2. pose proof H2 as (-> & _).
    apply twp_bind. eapply twp_mono; [eapply Step; [|exact H2]; lia|].
    intros st3 m3 H3. pose proof H3 as (-> & _).
    eapply twp_mono; [eapply Step; [|exact H3]; lia|].
    intros st4 m4 H4. replace ((cnt + 1) * 4) with (cnt * 4 + 1 + 1 + 1 + 1) by lia. exact H4.
  - intros st m' HI _ _. pose proof HI as (-> & _). apply twp_bind.
    eapply (twp_tfor1 _ Rd (fun i => Inv (Z.quot k 4 * 4 + i))); [lia| | |].
    + now rewrite Z.add_0_r.
    + intros i st' m' Hi HI' _ _. pose proof HI' as (-> & _).
      eapply twp_mono; [eapply Step; [|exact HI']; lia|].
      intros st1 m1 H1. rewrite Z.add_assoc. exact H1.
    + intros st' m' HI' _ _. pose proof HI' as (-> & _ & _ & Hfin).
      replace (Z.quot k 4 * 4 + Z.rem k 4) with k in Hfin by lia.
      eapply twp_mono; [apply (store_tile_spec S Rd cb co ldc (snd st') m m fc); auto|].
      cbv beta. intros [] m' H i j Hi Hj. rewrite H by auto. now rewrite Hfin.
Qed.

End Kern.

(** ** Outputs by points *)

Definition pts : Type := Z -> Z -> Z -> Prop.

Section Tri.

Variable S : scalar.
Notation T := (elt S).
Variables (F : Z -> Z -> Z -> Z -> T) (In : Z -> Z -> Z -> T) (Out : Z -> Z -> Z -> T).
Variables (H Wd : Z) (Rd : region) (Inp : mem T -> Prop).
Hypothesis Inp_stable : forall m m', Inp m -> live m' = live m ->
  (forall b i, b <> BufC -> dat m' b i = dat m b i) -> Inp m'.

Definition ix (o y x : Z) : Z := (o * H + y) * Wd + x.
Definition reg (P : pts) : region := fun b i => b = BufC /\ exists o y x, P o y x /\ i = ix o y x.
Definition good (P : pts) : Prop := forall o y x, P o y x -> 0 <= y < H /\ 0 <= x < Wd.
Definition outs (m : mem T) (P : pts) (ts : list (Z * Z * Z)) : Prop :=
  forall o y x, P o y x -> cell m BufC (ix o y x) (conv_sum S F In ts o y x (Out o y x)).
Definition tri (P : pts) (t : thr T unit) (ts ts' : list (Z * Z * Z)) : Prop :=
  forall m, Inp m -> outs m P ts -> twp (reg P) Rd t (fun _ m' => outs m' P ts') m.
Definition ptri (P : pts) (t : prog T unit) (ts ts' : list (Z * Z * Z)) : Prop :=
  forall m, Inp m -> outs m P ts ->
    pok t m (fun _ m' => outs m' P ts' /\ live m' = live m /\
                         forall b i, ~ reg P b i -> dat m' b i = dat m b i).

Lemma ix_inj o y x o' y' x' : 0 <= y < H -> 0 <= x < Wd -> 0 <= y' < H -> 0 <= x' < Wd ->
  ix o y x = ix o' y' x' -> o = o' /\ y = y' /\ x = x'.
Proof.
  unfold ix. intros Hy Hx Hy' Hx' E.
  assert (E1 : o * H + y = o' * H + y').
  { transitivity (((o * H + y) * Wd + x) / Wd); [apply (Z.div_unique _ Wd _ x); lia|].
    symmetry. apply (Z.div_unique _ Wd _ x'); lia. }
  assert (E2 : o = o').
  { transitivity ((o * H + y) / H); [apply (Z.div_unique _ H _ y); lia|].
    symmetry. apply (Z.div_unique _ H _ y'); lia. }
  subst o'. lia.
Qed.

Lemma reg_inj P o y x : good P -> 0 <= y < H -> 0 <= x < Wd -> reg P BufC (ix o y x) -> P o y x.
Proof.
  intros G Hy Hx (_ & o' & y' & x' & HP & E). destruct (G _ _ _ HP).
  apply ix_inj in E; auto. destruct E as (-> & -> & ->). exact HP.
Qed.

Lemma outs_frame m m' P Q ts : good P -> good Q -> (forall o y x, P o y x -> ~ Q o y x) -> live m' = live m ->
  (forall b i, ~ reg Q b i -> dat m' b i = dat m b i) -> outs m P ts -> outs m' P ts.
Proof.
  intros GP GQ D L E O o y x HP. destruct (O o y x HP) as (bi & L1 & B1 & V1).
  exists bi. rewrite L. split; [exact L1|split; [exact B1|]]. rewrite E; [exact V1|].
  intros HR. destruct (GP _ _ _ HP). apply reg_inj in HR; auto. now apply (D o y x).
Qed.

Lemma stable_reg m m' P : Inp m -> live m' = live m ->
  (forall b i, ~ reg P b i -> dat m' b i = dat m b i) -> Inp m'.
Proof.
  intros HI L E. apply (Inp_stable m); auto. intros b i Hb. apply E. intros (-> & _). contradiction.
Qed.

Lemma tri_par n body (Pj : Z -> pts) (P : pts) ts ts' : 0 <= n -> good P ->
  (forall j o y x, 0 <= j < n -> Pj j o y x -> P o y x) ->
  (forall o y x, P o y x -> exists j, 0 <= j < n /\ Pj j o y x) ->
  (forall j j' o y x, 0 <= j < n -> 0 <= j' < n -> Pj j o y x -> Pj j' o y x -> j = j') ->
  (forall j, 0 <= j < n -> tri (Pj j) (body j) ts ts') ->
  tri P (tfor_ 0 n 1 body) ts ts'.
Proof.
  intros Hn G Hin Hcov Hdis Hb m HI HO. unfold tfor_.
  assert (Gj : forall j, 0 <= j < n -> good (Pj j)) by (intros j Hj o y x HP; apply (G o y x); eauto).
  eapply (twp_tfor1 _ Rd (fun i _ m' => forall j, 0 <= j < n -> outs m' (Pj j) (if j <? i then ts' else ts))); [lia| | |].
  - intros j Hj. replace (j <? 0) with false by lia. intros o y x HP. apply HO. eauto.
  - intros i [] m' Hi HJ L E. 
    assert (HI' : Inp m') by (apply (stable_reg m m' P); auto).
    pose proof (HJ i ltac:(lia)) as Hi'. replace (i <? i) with false in Hi' by lia.
    eapply twp_call; [apply (Hb i ltac:(lia) m' HI' Hi')| | |].
    + intros b z (-> & o & y & x & HP & ->). split; auto. exists o, y, x. split; auto. apply (Hin i); auto; lia.
    + intros b z Hr. now left.
    + intros [] m2 Ho L2 E2 j Hj. destruct (Z.eq_dec j i) as [->|Nji].
      * replace (i <? i + 1) with true by lia. exact Ho.
      * specialize (HJ j Hj). replace (j <? i + 1) with (j <? i) by lia.
        apply (outs_frame m' m2 (Pj j) (Pj i)); auto.
        intros o y x H1 H2. apply Nji. apply (Hdis j i o y x); auto; lia.
  - intros [] m' HJ _ _ o y x HP. destruct (Hcov o y x HP) as (j & Hj & HPj).
    specialize (HJ j Hj). replace (j <? n) with true in HJ by lia. now apply HJ.
Qed.

Lemma tri_seq n body (P : pts) (tsf : Z -> list (Z * Z * Z)) : 0 <= n ->
  (forall j, 0 <= j < n -> tri P (body j) (tsf j) (tsf (j + 1))) ->
  tri P (tfor_ 0 n 1 body) (tsf 0) (tsf n).
Proof.
  intros Hn Hb m HI HO. unfold tfor_.
  eapply (twp_tfor1 _ Rd (fun i _ m' => outs m' P (tsf i))); [lia|exact HO| |auto].
  intros i [] m' Hi HJ L E. apply Hb; auto. apply (stable_reg m m' P); auto.
Qed.

Lemma ptri_par n body (Pj : Z -> pts) (P : pts) ts ts' : 0 <= n -> good P ->
  (forall j o y x, 0 <= j < n -> Pj j o y x -> P o y x) ->
  (forall o y x, P o y x -> exists j, 0 <= j < n /\ Pj j o y x) ->
  (forall j j' o y x, 0 <= j < n -> 0 <= j' < n -> Pj j o y x -> Pj j' o y x -> j = j') ->
  (forall j, 0 <= j < n -> ptri (Pj j) (body j) ts ts') ->
  ptri P (pfor_ 0 n 1 body) ts ts'.
Proof.
  intros Hn G Hin Hcov Hdis Hb m HI HO. unfold pfor_.
  assert (Gj : forall j, 0 <= j < n -> good (Pj j)) by (intros j Hj o y x HP; apply (G o y x); eauto).
  eapply (pok_pfor1 (fun i _ m' => (forall j, 0 <= j < n -> outs m' (Pj j) (if j <? i then ts' else ts)) /\
     live m' = live m /\ forall b z, ~ reg P b z -> dat m' b z = dat m b z)); [lia| | |].
  - split; auto. intros j Hj. replace (j <? 0) with false by lia. intros o y x HP. apply HO. eauto.
  - intros i [] m' Hi (HJ & L & E).
    assert (HI' : Inp m') by (apply (stable_reg m m' P); auto).
    pose proof (HJ i ltac:(lia)) as Hi'. replace (i <? i) with false in Hi' by lia.
    eapply pok_mono; [apply (Hb i ltac:(lia) m' HI' Hi')|].
    intros [] m2 (Ho & L2 & E2). split; [|split].
    + intros j Hj. destruct (Z.eq_dec j i) as [->|Nji].
      * replace (i <? i + 1) with true by lia. exact Ho.
      * specialize (HJ j Hj). replace (j <? i + 1) with (j <? i) by lia.
        apply (outs_frame m' m2 (Pj j) (Pj i)); auto.
        intros o y x H1 H2. apply Nji. apply (Hdis j i o y x); auto; lia.
    + congruence.
    + intros b z Hz. rewrite E2; auto. intros (-> & o & y & x & HP & ->). apply Hz. split; auto.
      exists o, y, x. split; auto. apply (Hin i); auto; lia.
  - intros [] m' (HJ & L & E). split; auto. intros o y x HP. destruct (Hcov o y x HP) as (j & Hj & HPj).
    specialize (HJ j Hj). replace (j <? n) with true in HJ by lia. now apply HJ.
Qed.

Hypothesis Rd_C : forall i, ~ Rd BufC i.

Lemma ptri_threads n body (Pj : Z -> pts) (P : pts) ts ts' : 0 <= n -> good P ->
  (forall j o y x, 0 <= j < n -> Pj j o y x -> P o y x) ->
  (forall o y x, P o y x -> exists j, 0 <= j < n /\ Pj j o y x) ->
  (forall j j' o y x, 0 <= j < n -> 0 <= j' < n -> Pj j o y x -> Pj j' o y x -> j = j') ->
  (forall j, 0 <= j < n -> tri (Pj j) (body j) ts ts') ->
  ptri P (ppar_for 0 n 1 body) ts ts'.
Proof.
  intros Hn G Hin Hcov Hdis Hb m HI HO.
  assert (Gj : forall j, 0 <= j < n -> good (Pj j)) by (intros j Hj o y x HP; apply (G o y x); eauto).
  apply (pok_par_for 0 n 1 n body m (fun j => reg (Pj j)) (fun _ => Rd) (fun j m' => outs m' (Pj j) ts')); try lia.
  - intros c Hc. replace (0 + c * 1) with c by lia. apply Hb; auto. intros o y x HP. apply HO. eauto.
  - intros c d b z Hc Hd N (-> & o & y & x & HP & ->) [HR|HR]; [|exact (Rd_C _ HR)].
    destruct (Gj c Hc _ _ _ HP). apply reg_inj in HR; auto. apply N. apply (Hdis c d o y x); auto.
  - intros m' L Hq E. split; [|split; [exact L|]].
    + intros o y x HP. destruct (Hcov o y x HP) as (j & Hj & HPj).
      destruct (Hq j Hj) as (ms & HOs & Ls & _ & Es). destruct (HOs o y x HPj) as (bi & L1 & B1 & V1).
      exists bi. rewrite L, <- Ls. split; [exact L1|split; [exact B1|]]. rewrite Es; auto.
      split; auto. exists o, y, x. auto.
    + intros b z Hz. apply E. intros c Hc (-> & o & y & x & HP & ->). apply Hz. split; auto. exists o, y, x. eauto.
Qed.

End Tri.
