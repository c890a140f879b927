(** * Facts about the convolution example: im_2_col. *)

From Coq Require Import ZArith List Bool Lia.
From Verif Require Import Lang Lang_facts Spec SpecTop SpecSmall SpecConv SpecTouch ModelSizing ModelKernel ModelPack ModelSmall ModelTop
     Kernel_facts Tile_facts Loop_facts Mult_facts Touch_facts TouchOut_facts ModelConv.
Import ListNotations.
Open Scope Z_scope.

Section Fill.

Variable V : Type.
Variables (db : buf) (len : Z) (Rd : region) (Inp : mem V -> Prop).
Hypothesis Inp_stable : forall m m', Inp m -> live m' = live m ->
  (forall b i, b <> db -> dat m' b i = dat m b i) -> Inp m'.

(** [g] writes the next [w] elements and establishes [P] of them. *)
Definition fill (g : Z -> thr V Z) (w : Z) (P : Z -> mem V -> Prop) : Prop :=
  0 <= w /\ (forall base, stable db base (base + w) (P base)) /\
  forall ind m, Inp m -> (exists bi, live m db = Some bi /\ blen bi = len) -> 0 <= ind -> ind + w <= len ->
    twp (rng db ind (ind + w)) Rd (g ind) (fun ind' m' => ind' = ind + w /\ P ind m') m.

Lemma fill_loop n w (g : Z -> Z -> thr V Z) (P : Z -> Z -> mem V -> Prop) : 0 <= n -> 0 <= w ->
  (forall q, 0 <= q < n -> fill (g q) w (P q)) ->
  fill (fun ind => tfor 0 n 1 ind g) (n * w) (fun base m => forall q, 0 <= q < n -> P q (base + q * w) m).
Proof.
  intros Hn Hw Hg. split; [nia|]. split.
  - intros base m1 m2 Hs H q Hq. destruct (Hg q Hq) as (_ & St & _). apply (St _ m1 m2); [|apply H; auto].
    intros x Hx. apply Hs. assert (0 <= q * w /\ q * w + w <= n * w) by nia. lia.
  - intros ind m HI HL H0 H1.
    eapply twp_mono; [apply (blk_loop g db ind n 0 n 1 w ind (fun q m' => P q (ind + q * w) m')); try lia|].
    + intros q Hq. destruct (Hg q Hq) as (_ & St & _). replace (ind + (q + 1) * w) with (ind + q * w + w) by ring. apply St.
    + intros q m' Hq L E. destruct (Hg q Hq) as (_ & _ & Hb). replace (0 + q * 1) with q by lia.
      replace (ind + (q + 1) * w) with (ind + q * w + w) by ring.
      assert (0 <= q * w /\ q * w + w <= n * w) by nia.
      apply Hb; try lia.
      * apply (Inp_stable m m'); auto. intros b i Hbi. apply E. intros (-> & _). contradiction.
      * now rewrite L.
    + cbv beta. auto.
Qed.

Lemma fill_one sb j v : (forall m, Inp m -> cell m sb j v) -> Rd sb j ->
  fill (fun ind => (let+ v := tload sb j in tstore db ind v ;;+ TRet (ind + 1))%thr) 1
    (fun base m => dat m db base = Some v).
Proof.
  intros Hc HR. split; [lia|]. split.
  - intros base m1 m2 Hs H. rewrite <- Hs by lia. exact H.
  - intros ind m HI (bi & L & Hl) H0 H1. destruct (Hc m HI) as (bs & Ls & Bs & Vs).
    apply twp_bind. eapply twp_load; eauto. apply twp_bind.
    eapply twp_store; eauto; [split; [auto|lia]|lia|]. apply twp_ret. split; [auto|]. apply dat_upd_same.
Qed.

End Fill.

Section Col.

Variable S : scalar.
Notation T := (elt S).
Variables (d : conv_shape) (In : Z -> Z -> Z -> T).
Hypothesis Wf_pos : 0 < Wf d.
Hypothesis Hf_pos : 0 < Hf d.
Hypothesis Cin_0 : 0 <= Cin d.
Hypothesis Wout_0 : 0 <= Wout d.
Hypothesis Hout_0 : 0 <= Hout d.
Hypothesis Win_ok : Wout d + Wf d - 1 <= Win d.
Hypothesis Hin_ok : Hout d + Hf d - 1 <= Hin d.

Let sz := Cin d * Wf d * Hf d * Win d * Hin d.
Let N := Hout d * Wout d.
Let K := Wf d * Hf d * Cin d.

Definition tmp_at (h1 w1 c h w : Z) : Z := (h1 * Wout d + w1) * K + ((c * Hf d + h) * Wf d + w).

Lemma K_0 : 0 <= K.
Proof. unfold K. apply Z.mul_nonneg_nonneg; [nia|auto]. Qed.

Lemma sz_ok : N * K <= sz.
Proof.
  unfold N, sz. replace (Cin d * Wf d * Hf d * Win d * Hin d) with (Hin d * Win d * K) by (unfold K; ring).
  apply Z.mul_le_mono_nonneg_r; [apply K_0|]. apply Z.mul_le_mono_nonneg; lia.
Qed.

Definition InI (m : mem T) : Prop := planes_stored m BufB (Cin d) (Hin d) (Win d) In.
Definition rdI : region := fun b _ => b = BufB \/ b = BufX 1.

Lemma stage1 : fill T (BufX 1) sz rdI InI (fun ind =>
     tfor 0 (Hout d) 1 ind (fun h1 ind => tfor 0 (Wout d) 1 ind (fun w1 ind =>
       tfor 0 (Cin d) 1 ind (fun k ind => tfor 0 (Hf d) 1 ind (fun h ind => tfor 0 (Wf d) 1 ind (fun w ind =>
         (let+ v := tload BufB (k * Hin d * Win d + w1 + h1 * Win d + w + h * Win d) in
          tstore (BufX 1) ind v ;;+ TRet (ind + 1))%thr))))))
  (Hout d * (Wout d * (Cin d * (Hf d * (Wf d * 1)))))
  (fun base m => forall h1, 0 <= h1 < Hout d -> forall w1, 0 <= w1 < Wout d -> forall c, 0 <= c < Cin d ->
     forall h, 0 <= h < Hf d -> forall w, 0 <= w < Wf d ->
     dat m (BufX 1) (base + h1 * (Wout d * (Cin d * (Hf d * (Wf d * 1)))) + w1 * (Cin d * (Hf d * (Wf d * 1)))
        + c * (Hf d * (Wf d * 1)) + h * (Wf d * 1) + w * 1) = Some (In c (h1 + h) (w1 + w))).
Proof.
  assert (St : forall m m', InI m -> live m' = live m -> (forall b i, b <> BufX 1 -> dat m' b i = dat m b i) -> InI m').
  { intros m m' HI L E c y x Hc Hy Hx. destruct (HI c y x Hc Hy Hx) as (bi & A & B & C). exists bi. rewrite L, E by discriminate. auto. }
  assert (P1 : 0 <= Wf d * 1) by lia. assert (P2 : 0 <= Hf d * (Wf d * 1)) by nia.
  assert (P3 : 0 <= Cin d * (Hf d * (Wf d * 1))) by nia. assert (P4 : 0 <= Wout d * (Cin d * (Hf d * (Wf d * 1)))) by nia.
  apply (fill_loop T (BufX 1) sz rdI InI St (Hout d) _ _ (fun h1 base m => forall w1, 0 <= w1 < Wout d -> forall c, 0 <= c < Cin d ->
     forall h, 0 <= h < Hf d -> forall w, 0 <= w < Wf d ->
     dat m (BufX 1) (base + w1 * (Cin d * (Hf d * (Wf d * 1)))
        + c * (Hf d * (Wf d * 1)) + h * (Wf d * 1) + w * 1) = Some (In c (h1 + h) (w1 + w)))); auto. intros h1 Hh1.
  apply (fill_loop T (BufX 1) sz rdI InI St (Wout d) _ _ (fun w1 base m => forall c, 0 <= c < Cin d ->
     forall h, 0 <= h < Hf d -> forall w, 0 <= w < Wf d ->
     dat m (BufX 1) (base + c * (Hf d * (Wf d * 1)) + h * (Wf d * 1) + w * 1) = Some (In c (h1 + h) (w1 + w)))); auto. intros w1 Hw1.
  apply (fill_loop T (BufX 1) sz rdI InI St (Cin d) _ _ (fun c base m =>
     forall h, 0 <= h < Hf d -> forall w, 0 <= w < Wf d ->
     dat m (BufX 1) (base + h * (Wf d * 1) + w * 1) = Some (In c (h1 + h) (w1 + w)))); auto. intros c Hc.
  apply (fill_loop T (BufX 1) sz rdI InI St (Hf d) _ _ (fun h base m => forall w, 0 <= w < Wf d ->
     dat m (BufX 1) (base + w * 1) = Some (In c (h1 + h) (w1 + w)))); auto; [lia|]. intros h Hh.
  apply (fill_loop T (BufX 1) sz rdI InI St (Wf d) _ _ (fun w base m => dat m (BufX 1) base = Some (In c (h1 + h) (w1 + w)))); auto; try lia. intros w Hw.
  apply fill_one; [|now left]. intros m HI.
  replace (c * Hin d * Win d + w1 + h1 * Win d + w + h * Win d) with ((c * Hin d + (h1 + h)) * Win d + (w1 + w)) by ring.
  apply HI; lia.
Qed.

(** The intermediate array. *)
Definition InT (m : mem T) : Prop :=
  forall h1 w1 c h w, 0 <= h1 < Hout d -> 0 <= w1 < Wout d -> 0 <= c < Cin d -> 0 <= h < Hf d -> 0 <= w < Wf d ->
    cell m (BufX 1) (tmp_at h1 w1 c h w) (In c (h1 + h) (w1 + w)).

Definition val (k n : Z) : T :=
  In (k / (Hf d * Wf d)) (n / Wout d + k mod (Hf d * Wf d) / Wf d) (n mod Wout d + k mod (Hf d * Wf d) mod Wf d).

Lemma InT_at m k n : InT m -> 0 <= k < K -> 0 <= n < N -> cell m (BufX 1) (n * K + k) (val k n).
Proof.
  intros HI Hk Hn. unfold N in Hn.
  assert (HWo : 0 < Wout d) by nia. assert (HB : 0 < Hf d * Wf d) by nia.
  pose proof (Z.div_mod n (Wout d) ltac:(lia)) as Dn. pose proof (Z.mod_pos_bound n (Wout d) ltac:(lia)) as Bn.
  pose proof (Z.div_mod k (Hf d * Wf d) ltac:(lia)) as Dk. pose proof (Z.mod_pos_bound k (Hf d * Wf d) ltac:(lia)) as Bk.
  set (r := k mod (Hf d * Wf d)) in *.
  pose proof (Z.div_mod r (Wf d) ltac:(lia)) as Dr. pose proof (Z.mod_pos_bound r (Wf d) ltac:(lia)) as Br.
  unfold val. fold r. 
  set (h1 := n / Wout d) in *. set (w1 := n mod Wout d) in *. set (c := k / (Hf d * Wf d)) in *.
  set (h := r / Wf d) in *. set (w := r mod Wf d) in *.
  assert (0 <= h1 < Hout d) by nia. assert (0 <= c < Cin d) by (unfold K in Hk; nia). assert (0 <= h < Hf d) by nia.
  replace (n * K + k) with (tmp_at h1 w1 c h w); [apply HI; auto|].
  unfold tmp_at. rewrite Dn, Dk, Dr. ring.
Qed.

Lemma stage2 : fill T (BufX 0) sz rdI InT (fun ind =>
     tfor 0 K 1 ind (fun k ind => tfor 0 N 1 ind (fun n ind =>
       (let+ v := tload (BufX 1) (n * K + k) in tstore (BufX 0) ind v ;;+ TRet (ind + 1))%thr)))
  (K * (N * 1))
  (fun base m => forall k, 0 <= k < K -> forall n, 0 <= n < N ->
     dat m (BufX 0) (base + k * (N * 1) + n * 1) = Some (val k n)).
Proof.
  assert (St : forall m m', InT m -> live m' = live m -> (forall b i, b <> BufX 0 -> dat m' b i = dat m b i) -> InT m').
  { intros m m' HI L E h1 w1 c h w H1 H2 H3 H4 H5. destruct (HI h1 w1 c h w H1 H2 H3 H4 H5) as (bi & A & B & C).
    exists bi. rewrite L, E by discriminate. auto. }
  pose proof K_0. assert (0 <= N * 1) by (unfold N; nia).
  apply (fill_loop T (BufX 0) sz rdI InT St K _ _ (fun k base m => forall n, 0 <= n < N ->
     dat m (BufX 0) (base + n * 1) = Some (val k n))); auto. intros k Hk.
  apply (fill_loop T (BufX 0) sz rdI InT St N _ _ (fun n base m => dat m (BufX 0) base = Some (val k n))); auto; try lia. intros n Hn.
  apply fill_one; [|now right]. intros m HI. now apply InT_at.
Qed.

Lemma val_at c h w h1 w1 : 0 <= c < Cin d -> 0 <= h < Hf d -> 0 <= w < Wf d -> 0 <= h1 < Hout d -> 0 <= w1 < Wout d ->
  val ((c * Hf d + h) * Wf d + w) (h1 * Wout d + w1) = In c (h1 + h) (w1 + w).
Proof.
  intros Hc Hh Hw H1 H2. unfold val.
  assert (0 <= h * Wf d + w < Hf d * Wf d) by nia.
  rewrite <- (Z.div_unique ((c * Hf d + h) * Wf d + w) (Hf d * Wf d) c (h * Wf d + w)) by lia.
  rewrite <- (Z.mod_unique ((c * Hf d + h) * Wf d + w) (Hf d * Wf d) c (h * Wf d + w)) by lia.
  rewrite <- (Z.div_unique (h * Wf d + w) (Wf d) h w) by lia.
  rewrite <- (Z.mod_unique (h * Wf d + w) (Wf d) h w) by lia.
  rewrite <- (Z.div_unique (h1 * Wout d + w1) (Wout d) h1 w1) by lia.
  now rewrite <- (Z.mod_unique (h1 * Wout d + w1) (Wout d) h1 w1) by lia.
Qed.

Lemma im_2_col_ok (m : mem T) : InI m -> live m (BufX 0) = None -> live m (BufX 1) = None ->
  always (im_2_col S d) m (fun _ m' =>
    (forall b, b <> BufX 0 -> live m' b = live m b) /\
    (exists bi, live m' (BufX 0) = Some bi /\ blen bi = Cin d * Wf d * Hf d * Win d * Hin d) /\
    (forall c h w y x, 0 <= c < Cin d -> 0 <= h < Hf d -> 0 <= w < Wf d -> 0 <= y < Hout d -> 0 <= x < Wout d ->
       dat m' (BufX 0) (((c * Hf d + h) * Wf d + w) * (Hout d * Wout d) + (y * Wout d + x)) = Some (In c (y + h) (x + w))) /\
    (forall b i, b <> BufX 0 -> b <> BufX 1 -> dat m' b i = dat m b i)).
Proof.
  intros HI N0 N1. apply pok_always. unfold im_2_col. cbv zeta. fold sz N K.
  pose proof K_0 as HK0. pose proof sz_ok as Hsz. assert (HN0 : 0 <= N) by (unfold N; nia).
  assert (Hs0 : 0 <= sz) by nia.
  apply pok_bind. apply pok_alloc; [exact Hs0|exact N0|].
  apply pok_bind. apply pok_alloc; [exact Hs0|unfold do_alloc; cbn [live]; destruct (buf_eqb_spec (BufX 0) (BufX 1)); [discriminate|exact N1]|].
  set (m2 := do_alloc (do_alloc m (BufX 0) sz false None) (BufX 1) sz false None).
  assert (L0 : live m2 (BufX 0) = Some (BInfo sz false)) by reflexivity.
  assert (L1 : live m2 (BufX 1) = Some (BInfo sz false)) by reflexivity.
  assert (LE : forall b, b <> BufX 0 -> b <> BufX 1 -> live m2 b = live m b).
  { intros b A B. unfold m2, do_alloc. cbn [live]. destruct (buf_eqb_spec (BufX 1) b); [congruence|]. destruct (buf_eqb_spec (BufX 0) b); congruence. }
  assert (DE : forall b i, b <> BufX 0 -> b <> BufX 1 -> dat m2 b i = dat m b i).
  { intros b i A B. unfold m2, do_alloc. cbn [dat]. destruct (buf_eqb_spec (BufX 1) b); [congruence|]. destruct (buf_eqb_spec (BufX 0) b); congruence. }
  assert (I2 : InI m2).
  { intros c y x Hc Hy Hx. destruct (HI c y x Hc Hy Hx) as (bi & A & B & C). exists bi. rewrite LE, DE by discriminate. auto. }
  clearbody m2.
  set (W := fun (b : buf) (i : Z) => b = BufX 0 \/ b = BufX 1).
  apply pok_bind.
  eapply (pok_par_for 0 1 1 1 _ m2 (fun _ => W) (fun _ => rdI)
    (fun _ m' => forall k, 0 <= k < K -> forall n, 0 <= n < N -> dat m' (BufX 0) (0 + k * (N * 1) + n * 1) = Some (val k n))); try lia.
  - intros c0 _.
    destruct stage1 as (_ & _ & F1). destruct stage2 as (_ & _ & F2).
    assert (EN : Hout d * (Wout d * (Cin d * (Hf d * (Wf d * 1)))) = N * K) by (unfold N, K; ring).
    apply twp_bind. eapply twp_call.
    + apply (F1 0 m2 I2); [exists (BInfo sz false); auto|lia|]. rewrite EN. lia.
    + intros b i (-> & _). now right.
    + intros b i Hb. now left.
    + cbv beta. intros ind m3 (_ & T1) L3 E3. apply twp_bind.
      assert (HT : InT m3).
      { intros h1 w1 c h w H1 H2 H3 H4 H5. exists (BInfo sz false). rewrite L3. split; [auto|split].
        - cbn [blen]. unfold tmp_at.
          assert (0 <= h1 * Wout d + w1 < N) by (unfold N; nia).
          assert (A1 : 0 <= c * Hf d + h < Cin d * Hf d) by nia.
          assert (A2 : 0 <= (c * Hf d + h) * Wf d + w < K) by (unfold K; nia). nia.
        - rewrite <- (T1 h1 H1 w1 H2 c H3 h H4 w H5). f_equal. unfold tmp_at, K. ring. }
      eapply twp_call.
      * apply (F2 0 m3 HT); [exists (BInfo sz false); rewrite L3; auto|lia|]. lia.
      * intros b i (-> & _). now left.
      * intros b i Hb. now left.
      * cbv beta. intros ind' m4 (_ & T2) L4 E4. apply twp_ret. exact T2.
  - intros m' L Hq E. destruct (Hq 0 ltac:(lia)) as (ms & T2 & _ & _ & Es).
    apply pok_free; [rewrite L, L1; discriminate|].
    assert (EX : forall b i, b <> BufX 0 -> b <> BufX 1 -> dat m' b i = dat m b i).
    { intros b i A B. rewrite E, DE by (auto; intros c _ [H|H]; auto). reflexivity. }
    unfold do_free. cbn [live dat]. repeat split.
    + intros b Hb. destruct (buf_eqb_spec (BufX 1) b) as [<-|Nb]; [now rewrite N1|]. rewrite L. apply LE; congruence.
    + exists (BInfo sz false). destruct (buf_eqb_spec (BufX 1) (BufX 0)); [discriminate|]. rewrite L. auto.
    + intros c h w y x Hc Hh Hw Hy Hx. destruct (buf_eqb_spec (BufX 1) (BufX 0)); [discriminate|].
      rewrite Es by (now left). rewrite <- (val_at c h w y x) by auto.
      rewrite <- T2.
      * f_equal. unfold N. ring.
      * assert (0 <= c * Hf d + h < Cin d * Hf d) by nia. unfold K. nia.
      * unfold N. nia.
    + intros b i A B. destruct (buf_eqb_spec (BufX 1) b); [congruence|]. now apply EX.
Qed.

End Col.

Section ColOut.

Variable S : scalar.
Notation T := (elt S).

Lemma im_2_col_out d (m : mem T) bi :
  0 < Wf d -> 0 < Hf d -> 0 < Cin d -> 0 < Wout d -> 0 < Hout d -> 0 <= Win d -> 0 <= Hin d ->
  Hin d < Hout d + Hf d - 1 ->
  live m BufB = Some bi -> blen bi = Cin d * Hin d * Win d ->
  always_undefined (im_2_col S d) m.
Proof.
  intros H1 H2 H3 H4 H5 H6 H7 H8 HL Hlen.
  apply (pout_exec BufB ((Cin d - 1) * Hin d * Win d + 0 + (Hout d - 1) * Win d + 0 + (Hf d - 1) * Win d)).
  2:{ unfold outside. rewrite HL, Hlen.
      assert (Hin d * Win d <= (Hout d - 1 + (Hf d - 1)) * Win d) by (apply Z.mul_le_mono_nonneg_r; lia). lia. }
  unfold im_2_col. cbv zeta. unfold palloc. cbn [pbind pout]. split; [left; discriminate|]. split; [left; discriminate|].
  apply pout_bind_l. apply (pout_ppar1 _ _ _ _ _ 0); [lia|]. apply touches_bind_l.
  apply (touches_tfor1 _ _ _ _ _ _ (Hout d - 1)); [lia|]. intros i1.
  apply (touches_tfor1 _ _ _ _ _ _ 0); [lia|]. intros i2.
  apply (touches_tfor1 _ _ _ _ _ _ (Cin d - 1)); [lia|]. intros i3.
  apply (touches_tfor1 _ _ _ _ _ _ (Hf d - 1)); [lia|]. intros i4.
  apply (touches_tfor1 _ _ _ _ _ _ 0); [lia|]. intros i5.
  apply touches_bind_l. cbn. now left.
Qed.

End ColOut.

Section Uses.

Variable S : scalar.
Notation T := (elt S).

Lemma gemm_conv (F : Z -> Z -> Z -> Z -> T) (In : Z -> Z -> Z -> T) a b o y x acc n : 0 <= n ->
  (forall c h w, 0 <= c < n -> 0 <= h < 3 -> 0 <= w < 3 -> a ((c * 3 + h) * 3 + w) = F o c h w) ->
  (forall c h w, 0 <= c < n -> 0 <= h < 3 -> 0 <= w < 3 -> b ((c * 3 + h) * 3 + w) = In c (y + h) (x + w)) ->
  dot S a b (zrange 0 (3 * 3 * n)) acc = conv_sum S F In (all_terms n) o y x acc.
Proof.
  intros Hn. pattern n. apply natlike_ind; [| |exact Hn].
  - reflexivity.
  - clear n Hn. intros n Hn IH HA HB. unfold Z.succ in *.
    replace (3 * 3 * (n + 1)) with (3 * 3 * n + 9) by ring. rewrite zrange_app by lia.
    unfold all_terms. rewrite zrange_snoc by lia. rewrite flat_map_app. fold (all_terms n).
    unfold dot, conv_sum in *. rewrite !fold_left_app. rewrite IH by (intros; (apply HA || apply HB); lia).
    set (acc' := fold_left _ (all_terms n) acc). clearbody acc'. clear IH acc.
    assert (E : zrange (0 + 3 * 3 * n) 9 = map (fun q => (n * 3 + fst q) * 3 + snd q)
       [(0,0);(0,1);(0,2);(1,0);(1,1);(1,2);(2,0);(2,1);(2,2)]).
    { unfold zrange. change (Z.to_nat 9) with 9%nat. cbn [zseq map fst snd]. repeat (apply (f_equal2 (@cons Z)); [lia|]). reflexivity. }
    rewrite E. cbn [map fold_left fst snd]. rewrite !HA, !HB by lia.
    change (zrange 0 3) with [0; 1; 2]. cbn [flat_map map app fold_left]. now rewrite Z.add_0_l.
Qed.

Lemma tail_columns {R} (P : prog T R) (m : mem T) tmp n1 n H Wo W F In Out :
  tmp <> BufC -> 0 <= W <= Wo ->
  adds_convolution S P m tmp n1 n H Wo W F In Out ->
  always P m (fun _ m' => forall o y x, 0 <= o < n -> 0 <= y < H -> W <= x < Wo ->
    dat m' BufC ((o * H + y) * Wo + x) = dat m BufC ((o * H + y) * Wo + x)).
Proof.
  intros Ht HW (ts & _ & HX & HA). split; [exact HX|]. intros o He. destruct (HA o He) as (r & m' & -> & _ & _ & E).
  exists r, m'. split; auto. intros c y x Hc Hy Hx. apply E; [congruence|].
  intros (_ & c' & y' & x' & Hc' & Hy' & Hx' & EI). assert (c * H + y = c' * H + y') by nia. nia.
Qed.

End Uses.
