(** * The kernels on unpacked operands and the sparse kernels. *)

From Coq Require Import ZArith List Bool Permutation Lia.
From Verif Require Import Lang Lang_facts Spec SpecTop SpecSmall ModelSizing ModelKernel ModelPack ModelSmall
     Kernel_facts Mult_facts.
Import ListNotations.
Open Scope Z_scope.

Definition rall : region := fun _ _ => True.
Definition tile_reg (c : buf) (co ldc rows cols : Z) : region :=
  fun b x => b = c /\ exists r s, 0 <= r < rows /\ 0 <= s < cols /\ x = co + r * ldc + s.

(** one thread *)
Lemma one_thread {V} (t : thr V unit) (m : mem V) c co ldc rows cols R :
  twp (tile_reg c co ldc rows cols) rall t
    (fun _ m' => forall r s, 0 <= r < rows -> 0 <= s < cols -> dat m' c (co + r * ldc + s) = Some (R r s)) m ->
  turns_tile_into (ppar_for 0 1 1 (fun _ => t)) m c co ldc rows cols R.
Proof.
  intros H. apply pok_always.
  eapply (pok_par_for 0 1 1 1 _ m (fun _ => tile_reg c co ldc rows cols) (fun _ => rall)
     (fun _ m' => forall r s, 0 <= r < rows -> 0 <= s < cols -> dat m' c (co + r * ldc + s) = Some (R r s))); try lia.
  - intros d Hd. exact H.
  - intros m' HL HQ HF. split; [|split].
    + intros r s Hr Hs. destruct (HQ 0 ltac:(lia)) as (ms & Q & _ & _ & E).
      rewrite E; [apply Q; auto|]. split; auto. exists r, s. auto.
    + now rewrite HL.
    + intros b' x Hx. apply HF. intros _ _. exact Hx.
Qed.

Section Small.

Variable S : scalar.
Notation T := (elt S).

Lemma load_tile_spec (W : region) c co ldc (fc : Z -> Z -> T) m :
  row_stored m c co ldc 6 16 fc ->
  twp W rall (load_tile S (c, co) ldc)
    (fun f m' => m' = m /\ forall i j, 0 <= i < 6 -> 0 <= j < 16 -> f (i * 16 + j) = fc i j) m.
Proof.
  intros HC. unfold load_tile.
  eapply (twp_tfor1 W rall (fun i f m' => m' = m /\ forall i' j, 0 <= i' < i -> 0 <= j < 16 -> f (i' * 16 + j) = fc i' j)); [lia| | |].
  - split; auto. intros; lia.
  - intros i f m' Hi (-> & Hf) _ _. apply twp_bind.
    destruct (HC i 0) as (bi & L & B0 & _); [lia|lia|]. destruct (HC i 15) as (bi' & L' & B15 & _); [lia|lia|].
    rewrite L in L'. injection L' as <-.
    eapply twp_mono.
    { eapply (load_vec_spec S W rall 1 (padd (c, co) (i * ldc)) 16 (fc i) bi m); cbn [padd fst snd]; auto; try lia.
      intros j Hj. split; [left; exact I|]. destruct (HC i j) as (? & _ & _ & E); auto. }
    intros r m' (-> & Hr). apply twp_ret. split; auto. intros i' j Hi' Hj.
    destruct (Z.eq_dec i' i) as [->|].
    + replace ((i * 16 <=? i * 16 + j) && (i * 16 + j <? (i + 1) * 16)) with true by lia.
      rewrite <- Hr by lia. f_equal. lia.
    + replace ((i * 16 <=? i' * 16 + j) && (i' * 16 + j <? (i + 1) * 16)) with false by lia.
      apply Hf; lia.
  - intros f m' (-> & Hf) _ _. auto.
Qed.

Lemma store_tile_spec (Rd : region) c co ldc (f : Z -> T) m m0 (fc : Z -> Z -> T) :
  16 <= ldc -> row_stored m0 c co ldc 6 16 fc -> live m = live m0 ->
  twp (tile_reg c co ldc 6 16) Rd (store_tile S (c, co) ldc f)
    (fun _ m' => forall i j, 0 <= i < 6 -> 0 <= j < 16 -> dat m' c (co + i * ldc + j) = Some (f (i * 16 + j))) m.
Proof.
  intros Hl HC HL. unfold store_tile, tfor_.
  eapply (twp_tfor1 _ Rd (fun i _ m' => forall i' j, 0 <= i' < i -> 0 <= j < 16 -> dat m' c (co + i' * ldc + j) = Some (f (i' * 16 + j)))); [lia| | |].
  - intros; lia.
  - intros i _ m' Hi HI HLm _.
    destruct (HC i 0) as (bi & L & B0 & _); [lia|lia|]. destruct (HC i 15) as (bi' & L' & B15 & _); [lia|lia|].
    rewrite L in L'. injection L' as <-.
    eapply twp_weaken.
    2:{ intros b x H. exact H. }
    2:{ intros b x H. left. exact H. }
    eapply twp_call.
    + eapply (store_vec_spec S (padd (c, co) (i * ldc)) 16 (fun j => f (i * 16 + j)) bi m'); cbn [padd fst snd]; try lia.
      rewrite HLm, HL. exact L.
    + cbn [padd fst snd]. intros b x (-> & Hx). split; [reflexivity|]. exists i, (x - co - i * ldc). lia.
    + intros b x [].
    + cbn [padd fst snd]. intros [] m1 HS _ HF i' j Hi' Hj.
      destruct (Z.eq_dec i' i) as [->|].
      * apply HS. lia.
      * rewrite HF; [apply HI; lia|]. intros (_ & Hx). nia.
  - auto.
Qed.

Lemma s_step_spec al da ldb (ab bb : buf) (ao bo : Z) (c : Z -> T) (va vb : Z -> T) bi m :
  0 < al ->
  (forall i, 0 <= i < 6 -> cell m ab (ao + i) (va i)) ->
  (forall j, 0 <= j < 16 -> cell m bb (bo + j) (vb j)) ->
  live m bb = Some bi -> (al = 1 \/ b64 bi = true /\ bo mod al = 0) ->
  twp rnone rall (s_step S al da ldb ((ab, ao), (bb, bo), c))
    (fun st m' => m' = m /\ fst (fst st) = (ab, ao + 6 + da) /\ snd (fst st) = (bb, bo + ldb) /\
       forall i j, 0 <= i < 6 -> 0 <= j < 16 ->
         snd st (i * 16 + j) = fma S (va i) (vb j) (c (i * 16 + j))) m.
Proof.
  intros Hl HA HB Lb Hal. unfold s_step. apply twp_bind.
  destruct (HA 0) as (ba & La & A0 & _); [lia|]. destruct (HA 5) as (ba' & La' & A5 & _); [lia|].
  rewrite La in La'. injection La' as <-.
  destruct (HB 0) as (bi0 & L0 & B0 & _); [lia|]. destruct (HB 15) as (bi' & L' & B15 & _); [lia|].
  rewrite Lb in L', L0. injection L' as <-. injection L0 as <-.
  eapply twp_mono.
  { eapply (inner_spec S rall (Arch 2 16 6 16 2 2 al) 6 16 ldb ab bb ao bo c va vb ba bi m); cbn [lanes]; auto; try lia.
    - intros i Hi. destruct (HA i Hi) as (? & _ & _ & E). split; [exact I|exact E].
    - intros j Hj. destruct (HB j Hj) as (? & _ & _ & E). split; [exact I|exact E]. }
  intros [[pa pb] c'] m' (-> & E1 & E2 & E3). cbn in E1, E2, E3. subst pa pb. apply twp_ret.
  unfold padd. cbn. split; [auto|split; [reflexivity|split; [reflexivity|exact E3]]].
Qed.

(** A by columns [6 + da] apart, B by rows [ldb] apart. *)
Lemma s_kernel_spec al da ldb ldc (ab bb cb : buf) (ao bo co k : Z) (fa fb fc : Z -> Z -> T) m :
  0 < al -> 16 <= ldc -> 0 <= k ->
  col_stored m ab ao (6 + da) 6 k fa -> row_stored m bb bo ldb k 16 fb -> row_stored m cb co ldc 6 16 fc ->
  (al = 1 \/ bo mod al = 0 /\ ldb mod al = 0 /\ exists bi, live m bb = Some bi /\ b64 bi = true) ->
  twp (tile_reg cb co ldc 6 16) rall (s_kernel S al da ldb ldc (ab, ao) (bb, bo) (cb, co) k)
    (fun _ m' => forall i j, 0 <= i < 6 -> 0 <= j < 16 ->
       dat m' cb (co + i * ldc + j) = Some (dot S (fa i) (fun kk => fb kk j) (zrange 0 k) (fc i j))) m.
Proof.
  intros Hl Hldc Hk HA HB HC Hal. unfold s_kernel. apply twp_bind.
  set (Inv := fun (kk : Z) (st : ptr * ptr * (Z -> T)) (m' : mem T) =>
     m' = m /\ fst (fst st) = (ab, ao + kk * (6 + da)) /\ snd (fst st) = (bb, bo + kk * ldb) /\
     forall i j, 0 <= i < 6 -> 0 <= j < 16 ->
       snd st (i * 16 + j) = dot S (fa i) (fun kk => fb kk j) (zrange 0 kk) (fc i j)).
  assert (Step : forall W kk st, 0 <= kk < k -> Inv kk st m ->
            twp W rall (s_step S al da ldb st) (Inv (kk + 1)) m).
  { intros W kk [[pa pb] c] Hkk (_ & Hpa & Hpb & Hc). cbn [fst snd] in Hpa, Hpb, Hc. subst pa pb.
    destruct (HB kk 0) as (bi & Lb & _); [lia|lia|].
    apply (twp_weaken rnone rall); [eapply twp_mono|intros b x []|intros; left; exact I].
    - eapply (s_step_spec al da ldb ab bb _ _ c (fun i => fa i kk) (fb kk) bi m); [exact Hl| | |exact Lb|].
      + intros i Hi. apply HA; lia.
      + intros j Hj. apply HB; lia.
      + destruct Hal as [->|(H1 & H2 & bi' & H3 & H4)]; [now left|right].
        rewrite Lb in H3. injection H3 as <-. split; [auto|]. apply mod0_add; auto. apply mod0_mul; auto.
    - intros [[pa pb] c'] m' (-> & Hpa & Hpb & Hc'). cbn [fst snd] in Hpa, Hpb, Hc'. subst pa pb.
      split; [auto|cbn [fst snd]]. split; [apply (f_equal (pair ab)); lia|split; [apply (f_equal (pair bb)); lia|]].
      intros i j Hi Hj. rewrite Hc', Hc, zrange_snoc, dot_app by lia. reflexivity. }
  eapply twp_mono; [apply (load_tile_spec _ cb co ldc fc m HC)|]. cbv beta. intros c m' (-> & Hc).
  assert (I0 : Inv 0 ((ab, ao), (bb, bo), c) m).
  { split; [auto|cbn [fst snd]]. split; [f_equal; lia|split; [f_equal; lia|]]. exact Hc. }
  assert (Hrem : 0 <= Z.rem k 4 < 4) by (apply Z.rem_bound_pos; lia).
  assert (Hq : k - Z.rem k 4 = 0 + Z.quot k 4 * 4) by (pose proof (Z.quot_rem' k 4); lia).
  assert (Hq0 : 0 <= Z.quot k 4) by (apply Z.quot_pos; lia).
  apply twp_bind.
  eapply (twp_tfor _ rall (fun cnt => Inv (cnt * 4)) _ 0 (k - Z.rem k 4) 4 (Z.quot k 4)); auto; [lia| |].
  - intros cnt st m' Hcnt HI _ _. pose proof HI as (-> & _).
    apply twp_bind. eapply twp_mono; [eapply Step; [|exact HI]; lia|].
    intros st1 m1 H1. pose proof H1 as (-> & _).
    apply twp_bind. eapply twp_mono; [eapply Step; [|exact H1]; lia|].
    intros st2 m2 H2. pose proof H2 as (-> & _).
    apply twp_bind. eapply twp_mono; [eapply Step; [|exact H2]; lia|].
    intros st3 m3 H3. pose proof H3 as (-> & _).
    eapply twp_mono; [eapply Step; [|exact H3]; lia|].
    intros st4 m4 H4. replace ((cnt + 1) * 4) with (cnt * 4 + 1 + 1 + 1 + 1) by lia. exact H4.
  - intros st m' HI _ _. pose proof HI as (-> & _). apply twp_bind.
    eapply (twp_tfor1 _ rall (fun i => Inv (Z.quot k 4 * 4 + i))); [lia| | |].
    + now rewrite Z.add_0_r.
    + intros i st' m' Hi HI' _ _. pose proof HI' as (-> & _).
      eapply twp_mono; [eapply Step; [|exact HI']; lia|].
      intros st1 m1 H1. rewrite Z.add_assoc. exact H1.
    + intros st' m' HI' _ _. pose proof HI' as (-> & _ & _ & Hfin).
      replace (Z.quot k 4 * 4 + Z.rem k 4) with k in Hfin by lia.
      eapply twp_mono; [apply (store_tile_spec rall cb co ldc (snd st') m m fc); auto|].
      cbv beta. intros [] m' H i j Hi Hj. rewrite H by auto. now rewrite Hfin.
Qed.

Lemma unpacked_ok (a b c : buf) ao bo co mm nn k M K N (A B C : Z -> Z -> T) m :
  0 <= k -> 16 <= N ->
  col_stored m a ao M 6 k A -> row_stored m b bo N k 16 B -> row_stored m c co N 6 16 C ->
  turns_tile_into (ppar_for 0 1 1 (fun _ => kernel_unpacked S (a, ao) (b, bo) (c, co) mm nn k M K N)) m c co N 6 16
    (fun r s => dot S (A r) (fun kk => B kk s) (zrange 0 k) (C r s)).
Proof.
  intros Hk HN HA HB HC. apply one_thread. apply s_kernel_spec; auto; try lia.
  now replace (6 + (M - 6)) with M by lia.
Qed.

Lemma A_packed_ok (a b c : buf) ao bo co mm nn k M K N (A B C : Z -> Z -> T) m :
  0 <= k -> 16 <= N ->
  col_stored m a ao 6 6 k A -> row_stored m b bo N k 16 B -> row_stored m c co N 6 16 C ->
  turns_tile_into (ppar_for 0 1 1 (fun _ => kernel_A_packed S (a, ao) (b, bo) (c, co) mm nn k M K N)) m c co N 6 16
    (fun r s => dot S (A r) (fun kk => B kk s) (zrange 0 k) (C r s)).
Proof. intros Hk HN HA HB HC. apply one_thread. apply s_kernel_spec; auto; lia. Qed.

Lemma B_packed_ok (a b c : buf) ao bo co mm nn k M K N (A B C : Z -> Z -> T) m :
  0 <= k -> 16 <= N ->
  col_stored m a ao M 6 k A -> row_stored m b bo nn k 16 B -> row_stored m c co N 6 16 C ->
  bo mod 8 = 0 -> nn mod 8 = 0 -> (exists bi, live m b = Some bi /\ b64 bi = true) ->
  turns_tile_into (ppar_for 0 1 1 (fun _ => kernel_B_packed S (a, ao) (b, bo) (c, co) mm nn k M K N)) m c co N 6 16
    (fun r s => dot S (A r) (fun kk => B kk s) (zrange 0 k) (C r s)).
Proof.
  intros Hk HN HA HB HC H1 H2 H3. apply one_thread. apply s_kernel_spec; auto; try lia.
  now replace (6 + (M - 6)) with M by lia.
Qed.

Lemma C_packed_ok (a b c : buf) ao bo co mm nn k M K N (A B C : Z -> Z -> T) m :
  0 <= k ->
  col_stored m a ao M 6 k A -> row_stored m b bo N k 16 B -> row_stored m c co 16 6 16 C ->
  turns_tile_into (ppar_for 0 1 1 (fun _ => kernel_C_packed S (a, ao) (b, bo) (c, co) mm nn k M K N)) m c co 16 6 16
    (fun r s => dot S (A r) (fun kk => B kk s) (zrange 0 k) (C r s)).
Proof.
  intros Hk HA HB HC. apply one_thread. apply s_kernel_spec; auto; try lia.
  now replace (6 + (M - 6)) with M by lia.
Qed.

End Small.
