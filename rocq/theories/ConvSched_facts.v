(** * Facts about the convolution example: the schedule over packed filters. *)

From Coq Require Import ZArith List Bool Permutation Lia.
From Verif Require Import Lang Lang_facts Spec SpecTop SpecSmall SpecConv ModelSizing ModelKernel ModelPack ModelSmall ModelTop
     Kernel_facts Sizing_facts Mult_facts Small_facts ModelConv Conv_facts.
Import ListNotations.
Open Scope Z_scope.

(** ** The order of the terms *)

Definition run3 (c0 kt h w : Z) : list (Z * Z * Z) := map (fun i => (c0 + i, h, w)) (zrange 0 kt).
Definition blk3 (c0 kt : Z) : list (Z * Z * Z) :=
  flat_map (fun h => flat_map (run3 c0 kt h) (zrange 0 3)) (zrange 0 3).
Definition ord3 (kc : Z) (w : Z -> Z) (nb : Z) : list (Z * Z * Z) :=
  flat_map (fun k => blk3 (k * kc) (w k)) (zrange 0 nb).

Lemma flat_map_snoc {A B} (f : A -> list B) l a : flat_map f (l ++ [a]) = flat_map f l ++ f a.
Proof. rewrite flat_map_app. cbn. now rewrite app_nil_r. Qed.

Lemma flat_map_nil {A B} (l : list A) : flat_map (fun _ => @nil B) l = [].
Proof. induction l; cbn; auto. Qed.

Lemma flat_map_two {A B} (f g : A -> list B) l :
  Permutation (flat_map (fun a => f a ++ g a) l) (flat_map f l ++ flat_map g l).
Proof.
  induction l as [|a l IH]; cbn; auto.
  rewrite IH. rewrite <- !app_assoc. apply Permutation_app_head. rewrite !app_assoc.
  apply Permutation_app_tail. apply Permutation_app_comm.
Qed.

Lemma flat_map_swap {A B C} (f : A -> B -> list C) la lb :
  Permutation (flat_map (fun a => flat_map (f a) lb) la) (flat_map (fun b => flat_map (fun a => f a b) la) lb).
Proof.
  induction la as [|a la IH]; cbn; [now rewrite flat_map_nil|].
  rewrite IH. symmetry. apply flat_map_two.
Qed.

Lemma flat_map_perm {A B} (f g : A -> list B) l : (forall a, Permutation (f a) (g a)) ->
  Permutation (flat_map f l) (flat_map g l).
Proof. intros E. induction l; cbn; auto. now apply Permutation_app. Qed.

Lemma map_flat {A B} (f : A -> B) l : map f l = flat_map (fun a => [f a]) l.
Proof. induction l; cbn; congruence. Qed.

Lemma flat_map_map_shift {B} (g : Z -> list B) c0 n : 0 <= n ->
  flat_map (fun i => g (c0 + i)) (zrange 0 n) = flat_map g (zrange c0 n).
Proof.
  intros Hn. pattern n. apply natlike_ind; auto.
  intros x Hx IH. unfold Z.succ. rewrite !zrange_snoc by auto. now rewrite !flat_map_snoc, IH.
Qed.

Definition chan (c : Z) : list (Z * Z * Z) :=
  flat_map (fun h => map (fun w => (c, h, w)) (zrange 0 3)) (zrange 0 3).

Lemma blk3_perm c0 kt : 0 <= kt -> Permutation (blk3 c0 kt) (flat_map chan (zrange c0 kt)).
Proof.
  intros Hk. unfold blk3, run3.
  rewrite <- (flat_map_map_shift chan c0 kt Hk). unfold chan.
  rewrite (flat_map_swap (fun i h => map (fun w => (c0 + i, h, w)) (zrange 0 3)) (zrange 0 kt) (zrange 0 3)).
  apply flat_map_perm. intros h.
  rewrite (flat_map_perm _ (fun w => flat_map (fun i => [(c0 + i, h, w)]) (zrange 0 kt)))
    by (intros w; now rewrite map_flat).
  rewrite (flat_map_perm (fun i => map (fun w => (c0 + i, h, w)) (zrange 0 3)) (fun i => flat_map (fun w => [(c0 + i, h, w)]) (zrange 0 3)))
    by (intros i; now rewrite map_flat).
  apply (flat_map_swap (fun w i => [(c0 + i, h, w)])).
Qed.

Lemma ord3_perm nb t D w : part nb t D w -> Permutation (ord3 t w nb) (all_terms D).
Proof.
  intros HP. unfold all_terms. change (fun c => flat_map _ (zrange 0 3)) with chan.
  pose proof (pt_nb _ _ _ _ HP) as Hn.
  assert (G : forall c, 0 <= c -> c <= nb -> Permutation (ord3 t w c) (flat_map chan (zrange 0 (off nb t D c)))).
  { intros c Hc. pattern c. apply natlike_ind; auto.
    - intros _. unfold off. destruct (Z.ltb_spec 0 nb); [reflexivity|].
      rewrite (pt_0 _ _ _ _ HP) by lia. reflexivity.
    - intros x Hx IH Hle. unfold Z.succ in *. unfold ord3. rewrite zrange_snoc by auto. rewrite flat_map_snoc.
      fold (ord3 t w x). rewrite IH by lia. rewrite Z.add_0_l.
      pose proof (pt_w _ _ _ _ HP x ltac:(lia)).
      rewrite blk3_perm by lia. rewrite <- flat_map_app.
      replace (off nb t D x) with (x * t) by (unfold off; destruct (Z.ltb_spec x nb); lia).
      replace (off nb t D (x + 1)) with (x * t + w x).
      2:{ unfold off. destruct (Z.ltb_spec (x + 1) nb).
          - rewrite (pt_full _ _ _ _ HP x) by lia. lia.
          - rewrite <- (pt_last _ _ _ _ HP) by lia. replace (nb - 1) with x by lia. lia. }
      rewrite zrange_app by nia. rewrite Z.add_0_l. reflexivity. }
  specialize (G nb Hn ltac:(lia)). replace (off nb t D nb) with D in G; auto.
  unfold off. now rewrite Z.ltb_irrefl.
Qed.

Lemma conv_sum_app S F In ts ts' o y x acc :
  conv_sum S F In (ts ++ ts') o y x acc = conv_sum S F In ts' o y x (conv_sum S F In ts o y x acc).
Proof. unfold conv_sum. apply fold_left_app. Qed.

Lemma conv_sum_run S F In c0 kt h w o y x acc :
  conv_sum S F In (run3 c0 kt h w) o y x acc =
  dot S (fun i => F o (c0 + i) h w) (fun i => In (c0 + i) (y + h) (x + w)) (zrange 0 kt) acc.
Proof.
  unfold conv_sum, run3, dot. revert acc. induction (zrange 0 kt) as [|i l IH]; intros acc; cbn; auto.
Qed.

(** ** The schedule *)

Section Sched.

Variable S : scalar.
Notation T := (elt S).
Variables (F : Z -> Z -> Z -> Z -> T) (In : Z -> Z -> Z -> T) (Out : Z -> Z -> Z -> T).
Variables (fb : buf) (d : conv_shape) (p : Z) (x : blk_dims).
Hypothesis fb_C : fb <> BufC.
Hypothesis kf : kmn_facts (Cout d) (Hout d) (Cin d) p 6 1 x.
Hypothesis Wf3 : Wf d = 3.
Hypothesis Hf3 : Hf d = 3.
Hypothesis Wout_pos : 0 < Wout d.
Hypothesis Hin_ok : Hout d + 2 <= Hin d.
Hypothesis Win_ok : Wout d + 2 <= Win d.
Hypothesis Cout_6 : (6 | Cout d).
Hypothesis Cin_0 : 0 <= Cin d.

(** Filter o0 + j of a group of six, channel c0 + i of a block of kt, position (h, w). *)
Definition packed_filters (m : mem T) : Prop :=
  forall mi k core q h w i j, 0 <= mi < Mb x -> 0 <= k < Kb x -> 0 <= core < blk_pu x p mi ->
    0 <= q -> q * 6 + 6 <= core_mt x mi core -> 0 <= h < 3 -> 0 <= w < 3 -> 0 <= i < blk_kt x k -> 0 <= j < 6 ->
    cell m fb (mi * p * m_c x * (Cin d * 9) + k * blk_mcb x p 6 mi * k_c x * 9
               + core * core_mx x mi * blk_kt x k * 9 + (((q * 9 + (h * 3 + w)) * blk_kt x k + i) * 6 + j))
      (F (mi * p * m_c x + core * core_mx x mi + q * 6 + j) (k * k_c x + i) h w).

Definition Inp (m : mem T) : Prop := packed_filters m /\ planes_stored m BufB (Cin d) (Hin d) (Win d) In.
Definition rd : region := fun b _ => b = fb \/ b = BufB.

Lemma Inp_stable m m' : Inp m -> live m' = live m ->
  (forall b i, b <> BufC -> dat m' b i = dat m b i) -> Inp m'.
Proof.
  intros (HF & HI) L E. split.
  - intros mi k core q h w i j H1 H2 H3 H4 H5 H6 H7 H8 H9.
    destruct (HF mi k core q h w i j H1 H2 H3 H4 H5 H6 H7 H8 H9) as (bi & L1 & B1 & V1).
    exists bi. rewrite L, E by auto. auto.
  - intros c yy xx H1 H2 H3. destruct (HI c yy xx H1 H2 H3) as (bi & L1 & B1 & V1).
    exists bi. rewrite L, E by discriminate. auto.
Qed.

Notation Tri := (tri S F In Out (Hout d) (Wout d) rd Inp).
Notation PTri := (ptri S F In Out (Hout d) (Wout d) Inp).
Notation Ix := (ix (Hout d) (Wout d)).
Notation Good := (good (Hout d) (Wout d)).

Definition box (o0 on y0 yn x0 xn : Z) : pts :=
  fun o y xx => o0 <= o < o0 + on /\ y0 <= y < y0 + yn /\ x0 <= xx < x0 + xn.

Lemma kernel_tri o0 y0 x0 c0 kt h w fo io oo ts :
  0 <= kt -> 0 <= y0 < Hout d -> 0 <= x0 -> x0 + 16 <= Wout d ->
  (forall m, Inp m -> col_stored m fb fo 6 6 kt (fun j i => F (o0 + j) (c0 + i) h w)) ->
  (forall m, Inp m -> row_stored m BufB io (Win d * Hin d) kt 16 (fun i s => In (c0 + i) (y0 + h) (x0 + s + w))) ->
  oo = Ix o0 y0 x0 ->
  Tri (box o0 6 y0 1 x0 16)
    (cake_conv_haswell_6x16 S (fb, fo) (BufB, io) (BufC, oo) (Win d * Hin d) (Wout d * Hout d) kt)
    ts (ts ++ run3 c0 kt h w).
Proof.
  intros Hk Hy Hx Hx16 HF HB -> m HI HO.
  assert (IxE : forall i j, Ix (o0 + i) y0 (x0 + j) = Ix o0 y0 x0 + i * (Wout d * Hout d) + j) by (intros; unfold ix; ring).
  assert (Hldc : 16 <= Wout d * Hout d) by nia.
  eapply twp_call.
  - apply (conv_kernel S rd (Win d * Hin d) (Wout d * Hout d) fb BufB BufC fo io (Ix o0 y0 x0) kt
             (fun j i => F (o0 + j) (c0 + i) h w) (fun i s => In (c0 + i) (y0 + h) (x0 + s + w))
             (fun i j => conv_sum S F In ts (o0 + i) y0 (x0 + j) (Out (o0 + i) y0 (x0 + j)))); auto.
    + intros i. now left.
    + intros i. now right.
    + intros i j Hi Hj. rewrite <- IxE. apply HO. repeat split; lia.
  - intros b z (-> & i & j & Hi & Hj & ->). split; auto. exists (o0 + i), y0, (x0 + j).
    split; [repeat split; lia|]. now rewrite IxE.
  - intros b z Hr. now left.
  - cbv beta. intros [] m' Hd L E o y xx (Ho & Hyy & Hxx).
    specialize (Hd (o - o0) (xx - x0) ltac:(lia) ltac:(lia)).
    assert (y = y0) by lia. subst y. rewrite <- IxE in Hd.
    replace (o0 + (o - o0)) with o in Hd by lia. replace (x0 + (xx - x0)) with xx in Hd by lia.
    destruct (HO o y0 xx ltac:(repeat split; lia)) as (bi & L1 & B1 & _).
    exists bi. rewrite L. split; [exact L1|split; [exact B1|]]. rewrite Hd, conv_sum_app, conv_sum_run. reflexivity.
Qed.

Lemma M_pad_eq : M_padded x = Cout d.
Proof.
  pose proof (kf_Mp _ _ _ _ _ _ _ kf). pose proof (kf_Mpu _ _ _ _ _ _ _ kf).
  assert (D : (6 | M_padded x)).
  { pose proof (kf_M _ _ _ _ _ _ _ kf) as P. destruct (Z.eq_dec (Mb x) 0) as [E|E].
    - rewrite (pt_0 _ _ _ _ P E). apply Z.divide_0_r.
    - pose proof (pt_nb _ _ _ _ P). rewrite <- (pt_last _ _ _ _ P) by lia.
      apply Z.divide_add_r; [do 2 apply Z.divide_mul_r; apply (kf_mcd _ _ _ _ _ _ _ kf)|].
      pose proof (kf_C _ _ _ _ _ _ _ kf (Mb x - 1) ltac:(lia)) as PC.
      pose proof (kf_pu _ _ _ _ _ _ _ kf (Mb x - 1) ltac:(lia)).
      rewrite <- (pt_last _ _ _ _ PC) by lia.
      apply Z.divide_add_r; [apply Z.divide_mul_r; apply (kf_mxr _ _ _ _ _ _ _ kf); lia|apply (kf_mr _ _ _ _ _ _ _ kf); lia]. }
  destruct D as (a & Ha). destruct Cout_6 as (b & Hb). lia.
Qed.

Lemma N_pad_eq : N_padded x = Hout d.
Proof. pose proof (kf_Np _ _ _ _ _ _ _ kf). pose proof (kf_Npu _ _ _ _ _ _ _ kf). lia. Qed.

Definition Wc : Z := 16 * Z.quot (Wout d) 16.

Lemma Wc_le : 0 <= Wc <= Wout d.
Proof. unfold Wc. pose proof (Z.quot_rem' (Wout d) 16). pose proof (Z.rem_bound_pos (Wout d) 16). pose proof (Z.quot_pos (Wout d) 16). lia. Qed.

Definition core_box (n mi core : Z) : pts :=
  box (mi * p * m_c x + core * core_mx x mi) (core_mt x mi core) (n * n_c x) (blk_nt x n) 0 Wc.

Definition all_ord : list (Z * Z * Z) := ord3 (k_c x) (blk_kt x) (Kb x).

Lemma core_tri n mi core : 0 <= n < Nb x -> 0 <= mi < Mb x -> 0 <= core < blk_pu x p mi ->
  Tri (core_box n mi core) (conv_core S fb d p 6 16 x n mi core) [] all_ord.
Proof.
  intros Hn Hmi Hco. unfold conv_core. rewrite Wf3, Hf3.
  pose proof (kf_K _ _ _ _ _ _ _ kf) as PK. pose proof (kf_N _ _ _ _ _ _ _ kf) as PN.
  pose proof (pt_nb _ _ _ _ PK) as HKb. rewrite N_pad_eq in PN.
  pose proof (part_end _ _ _ _ PN n Hn) as Hend. pose proof (pt_w _ _ _ _ PN n Hn) as Hnt.
  pose proof (kf_nc _ _ _ _ _ _ _ kf) as Hnc.
  pose proof (kf_mr _ _ _ _ _ _ _ kf mi core Hmi Hco) as (q6 & Eq).
  pose proof (pt_w _ _ _ _ (kf_C _ _ _ _ _ _ _ kf mi Hmi) core Hco) as Hmt.
  pose proof Wc_le as HW.
  set (o0 := mi * p * m_c x + core * core_mx x mi).
  change all_ord with ((fun k => ord3 (k_c x) (blk_kt x) k) (Kb x)).
  change (@nil (Z * Z * Z)) with ((fun k => ord3 (k_c x) (blk_kt x) k) 0).
  apply tri_seq; [apply Inp_stable|auto|]. intros k Hk. cbv beta.
  replace (ord3 (k_c x) (blk_kt x) (k + 1)) with (ord3 (k_c x) (blk_kt x) k ++ blk3 (k * k_c x) (blk_kt x k))
    by (unfold ord3; rewrite zrange_snoc by lia; now rewrite flat_map_snoc).
  generalize (ord3 (k_c x) (blk_kt x) k). intros ts.
  pose proof (pt_w _ _ _ _ PK k Hk) as Hkt. pose proof (part_end _ _ _ _ PK k Hk) as Hkend.
  pose proof (kf_kc _ _ _ _ _ _ _ kf) as Hkc.
  assert (Hk0 : 0 <= k * k_c x) by nia. assert (Hn0 : 0 <= n * n_c x) by nia.
  apply (tri_par S F In Out (Hout d) (Wout d) rd Inp Inp_stable _ _
           (fun ho => box o0 (core_mt x mi core) (n * n_c x + ho) 1 0 Wc)); [lia| | | | |].
  { intros o y xx (H1 & H2 & H3). lia. }
  { intros ho o y xx Hho (H1 & H2 & H3). unfold core_box. fold o0. repeat split; lia. }
  { intros o y xx (H1 & H2 & H3). exists (y - n * n_c x). fold o0 in H1. unfold box. lia. }
  { intros j j' o y xx _ _ (_ & H2 & _) (_ & H3 & _). lia. }
  intros ho Hho. set (y0 := n * n_c x + ho).
  assert (Hy0 : 0 <= y0 < Hout d) by lia.
  assert (GB : forall on x0 xn, 0 <= x0 -> x0 + xn <= Wout d -> Good (box o0 on y0 1 x0 xn))
    by (intros on x0 xn Hx0 Hxn o y xx (H1 & H2 & H3); lia).
  set (th := fun h => ts ++ flat_map (fun h => flat_map (run3 (k * k_c x) (blk_kt x k) h) (zrange 0 3)) (zrange 0 h)).
  change (ts ++ blk3 (k * k_c x) (blk_kt x k)) with (th 3).
  replace ts with (th 0) by (unfold th; cbn; now rewrite app_nil_r).
  apply tri_seq; [apply Inp_stable|lia|]. intros hf Hhf.
  replace (th (hf + 1)) with (th hf ++ flat_map (run3 (k * k_c x) (blk_kt x k) hf) (zrange 0 3))
    by (unfold th; rewrite zrange_snoc by lia; rewrite flat_map_snoc; now rewrite app_assoc).
  generalize (th hf). clear th. intros ts2.
  set (tw := fun w => ts2 ++ flat_map (run3 (k * k_c x) (blk_kt x k) hf) (zrange 0 w)).
  change (ts2 ++ flat_map (run3 (k * k_c x) (blk_kt x k) hf) (zrange 0 3)) with (tw 3).
  replace ts2 with (tw 0) by (unfold tw; cbn; now rewrite app_nil_r).
  apply tri_seq; [apply Inp_stable|lia|]. intros wf Hwf. cbv zeta.
  replace (tw (wf + 1)) with (tw wf ++ run3 (k * k_c x) (blk_kt x k) hf wf)
    by (unfold tw; rewrite zrange_snoc by lia; rewrite flat_map_snoc; now rewrite app_assoc).
  generalize (tw wf). clear tw. intros ts3.
  assert (Hq : 0 <= Z.quot (Wout d) 16) by (apply Z.quot_pos; lia).
  apply (tri_par S F In Out (Hout d) (Wout d) rd Inp Inp_stable _ _
           (fun nr => box o0 (core_mt x mi core) y0 1 (nr * 16) 16)); [exact Hq| | | | |].
  { apply GB; lia. }
  { intros j o y xx Hj (H1 & H2 & H3). unfold Wc. repeat split; lia. }
  { intros o y xx (H1 & H2 & H3). exists (xx / 16). unfold Wc in H3.
    pose proof (Z.div_mod xx 16 ltac:(lia)). pose proof (Z.mod_pos_bound xx 16 ltac:(lia)). unfold box. lia. }
  { intros j j' o y xx _ _ (_ & _ & H2) (_ & _ & H3). lia. }
  intros nr Hnr. rewrite Eq, Z.quot_mul by lia.
  assert (Hx16 : nr * 16 + 16 <= Wout d) by (unfold Wc in HW; lia).
  apply (tri_par S F In Out (Hout d) (Wout d) rd Inp Inp_stable _ _
           (fun mr => box (o0 + mr * 6) 6 y0 1 (nr * 16) 16)); [lia| | | | |].
  { apply GB; lia. }
  { intros j o y xx Hj (H1 & H2 & H3). repeat split; lia. }
  { intros o y xx (H1 & H2 & H3). exists ((o - o0) / 6).
    pose proof (Z.div_mod (o - o0) 6 ltac:(lia)). pose proof (Z.mod_pos_bound (o - o0) 6 ltac:(lia)). unfold box. lia. }
  { intros j j' o y xx _ _ (H2 & _) (H3 & _). lia. }
  intros mr Hmr. apply kernel_tri; try lia.
  - intros m (HF & _) r i Hr Hi.
    eapply eq_ind_r with (P := fun z => cell m fb z _).
    { unfold o0. apply (HF mi k core mr hf wf i r); auto; lia. }
    unfold o0. ring.
  - intros m (_ & HB) i s Hi Hs.
    eapply eq_ind_r with (P := fun z => cell m BufB z _).
    { apply HB; lia. }
    unfold y0. ring.
  - unfold ix, y0, o0. ring.
Qed.

Definition whole : pts := box 0 (Cout d) 0 (Hout d) 0 Wc.

Lemma sched_tri : PTri whole (schedule_KMN_conv S fb d p 6 16 x) [] all_ord.
Proof.
  unfold schedule_KMN_conv.
  pose proof (kf_N _ _ _ _ _ _ _ kf) as PN. rewrite N_pad_eq in PN.
  pose proof (kf_M _ _ _ _ _ _ _ kf) as PM. rewrite M_pad_eq in PM.
  pose proof (kf_nc _ _ _ _ _ _ _ kf) as Hnc. pose proof Wc_le as HW.
  apply (ptri_par S F In Out (Hout d) (Wout d) Inp Inp_stable _ _
           (fun n => box 0 (Cout d) (n * n_c x) (blk_nt x n) 0 Wc)).
  { apply (pt_nb _ _ _ _ PN). }
  { intros o y xx (H1 & H2 & H3). lia. }
  { intros n o y xx Hn (H1 & H2 & H3). pose proof (part_end _ _ _ _ PN n Hn). assert (0 <= n * n_c x) by nia. repeat split; lia. }
  { intros o y xx (H1 & H2 & H3). destruct (part_cover _ _ _ _ PN y ltac:(lia)) as (n & Hn & Hy). exists n. split; [auto|repeat split; lia]. }
  { intros n n' o y xx Hn Hn' (_ & H2 & _) (_ & H3 & _). apply (part_uniq _ _ _ _ PN n n' y); auto. }
  intros n Hn. pose proof (part_end _ _ _ _ PN n Hn) as Hend. assert (Hn0 : 0 <= n * n_c x) by nia.
  assert (Hpm : forall mi, mi * (p * m_c x) = mi * p * m_c x) by (intros; ring).
  apply (ptri_par S F In Out (Hout d) (Wout d) Inp Inp_stable _ _
           (fun mi => box (mi * p * m_c x) (blk_mcb x p 6 mi) (n * n_c x) (blk_nt x n) 0 Wc)).
  { apply (pt_nb _ _ _ _ PM). }
  { intros o y xx (H1 & H2 & H3). lia. }
  { intros mi o y xx Hmi (H1 & H2 & H3). pose proof (part_end _ _ _ _ PM mi Hmi).
    pose proof (pt_w _ _ _ _ PM mi Hmi). assert (0 <= mi * (p * m_c x)) by nia. rewrite <- Hpm in H1. repeat split; lia. }
  { intros o y xx (H1 & H2 & H3). destruct (part_cover _ _ _ _ PM o ltac:(lia)) as (mi & Hmi & Ho). rewrite Hpm in Ho.
    exists mi. split; [auto|repeat split; lia]. }
  { intros mi mi' o y xx Hmi Hmi' (H2 & _) (H3 & _). rewrite <- Hpm in H2, H3. apply (part_uniq _ _ _ _ PM mi mi' o); auto. }
  intros mi Hmi. pose proof (kf_C _ _ _ _ _ _ _ kf mi Hmi) as PC.
  pose proof (kf_mx _ _ _ _ _ _ _ kf mi Hmi) as Hmx.
  apply (ptri_threads S F In Out (Hout d) (Wout d) rd Inp) with (Pj := fun core => core_box n mi core).
  { intros i [E|E]; [now apply fb_C|discriminate]. }
  { apply (pt_nb _ _ _ _ PC). }
  { intros o y xx (H1 & H2 & H3). lia. }
  { intros core o y xx Hco (H1 & H2 & H3). pose proof (part_end _ _ _ _ PC core Hco).
    assert (0 <= core * core_mx x mi) by nia. repeat split; lia. }
  { intros o y xx (H1 & H2 & H3). destruct (part_cover _ _ _ _ PC (o - mi * p * m_c x) ltac:(lia)) as (core & Hco & Ho).
    exists core. split; [auto|]. unfold core_box. repeat split; lia. }
  { intros core core' o y xx Hc Hc' (H2 & _) (H3 & _). apply (part_uniq _ _ _ _ PC core core' (o - mi * p * m_c x)); auto; lia. }
  intros core Hco. now apply core_tri.
Qed.

End Sched.
