(** * cake_sgemm_online as the user calls it. *)

From Coq Require Import ZArith List Bool Lia Permutation.
From Verif Require Import Lang Lang_facts Spec SpecTop SpecOnline ModelSizing ModelKernel ModelPack ModelSched ModelTop
     Kernel_facts Tile_facts Loop_facts Pack_facts Unpack_facts Sizing_facts PackMat_facts PackB_facts
     Order_facts Cphase_facts SchedK_facts Frame_facts Init_facts TopK_facts TopMN_facts Call_facts CallAll_facts
     PackCall_facts Reuse_facts SchedOnline_facts Mult_facts.
Import ListNotations.
Open Scope Z_scope.

Section Top.

Variable S : scalar.
Notation T := (elt S).

Lemma free_fam2 (mk1 mk2 : Z -> buf) p m (Post : unit -> mem T -> Prop) :
  (forall i j, mk1 i = mk1 j -> i = j) -> (forall i j, mk2 i = mk2 j -> i = j) -> (forall i j, mk1 i <> mk2 j) -> 0 <= p ->
  (forall k, 0 <= k < p -> live m (mk1 k) <> None) ->
  (forall k, 0 <= k < p -> live m (mk2 k) <> None) ->
  (forall m', (forall k, 0 <= k < p -> live m' (mk1 k) = None) ->
     (forall k, 0 <= k < p -> live m' (mk2 k) = None) ->
     (forall b, (forall k, 0 <= k < p -> b <> mk1 k) -> (forall k, 0 <= k < p -> b <> mk2 k) -> live m' b = live m b) ->
     (forall b i, (forall k, 0 <= k < p -> b <> mk1 k) -> (forall k, 0 <= k < p -> b <> mk2 k) -> dat m' b i = dat m b i) -> Post tt m') ->
  pok (pfor_ 0 p 1 (fun i => pbind (pfree (mk1 i)) (fun _ => pfree (mk2 i)))) m Post.
Proof.
  intros I1 I2 I12 Hp F1 F2 HPost. unfold pfor_.
  eapply (pok_pfor1 (fun j _ m' =>
     (forall k, 0 <= k < j -> live m' (mk1 k) = None) /\ (forall k, 0 <= k < j -> live m' (mk2 k) = None) /\
     (forall b, (forall k, 0 <= k < j -> b <> mk1 k) -> (forall k, 0 <= k < j -> b <> mk2 k) -> live m' b = live m b) /\
     (forall b i, (forall k, 0 <= k < j -> b <> mk1 k) -> (forall k, 0 <= k < j -> b <> mk2 k) -> dat m' b i = dat m b i))); [lia| | |].
  - repeat split; intros; lia || auto.
  - intros j _ m' Hj (H1 & H2 & H3 & H4). apply pok_bind.
    apply pok_free.
    { rewrite H3; [apply F1; lia| |]; intros k Hk E; [apply I1 in E; lia|now apply (I12 j k)]. }
    apply pok_free.
    { rewrite live_free. destruct (buf_eqb_spec (mk1 j) (mk2 j)) as [E|E]; [exfalso; now apply (I12 j j)|].
      rewrite H3; [apply F2; lia| |]; intros k Hk E'; [now apply (I12 k j)|apply I2 in E'; lia]. }
    assert (L : forall b, live (do_free (do_free m' (mk1 j)) (mk2 j)) b =
      if buf_eqb (mk2 j) b then None else if buf_eqb (mk1 j) b then None else live m' b).
    { intros b. now rewrite live_free, live_free. }
    assert (D : forall b i, dat (do_free (do_free m' (mk1 j)) (mk2 j)) b i =
      if buf_eqb (mk2 j) b then None else if buf_eqb (mk1 j) b then None else dat m' b i).
    { intros b i. now rewrite dat_free, dat_free. }
    split; [|split; [|split]].
    + intros k Hk. rewrite L. destruct (buf_eqb_spec (mk2 j) (mk1 k)); auto.
      destruct (buf_eqb_spec (mk1 j) (mk1 k)); auto. apply H1. assert (k <> j) by congruence. lia.
    + intros k Hk. rewrite L. destruct (buf_eqb_spec (mk2 j) (mk2 k)); auto.
      destruct (buf_eqb_spec (mk1 j) (mk2 k)); auto. apply H2. assert (k <> j) by congruence. lia.
    + intros b Hb1 Hb2. rewrite L. destruct (buf_eqb_spec (mk2 j) b) as [E|E]; [exfalso; apply (Hb2 j); [lia|auto]|].
      destruct (buf_eqb_spec (mk1 j) b) as [E'|E']; [exfalso; apply (Hb1 j); [lia|auto]|].
      apply H3; intros; [apply Hb1|apply Hb2]; lia.
    + intros b i Hb1 Hb2. rewrite D. destruct (buf_eqb_spec (mk2 j) b) as [E|E]; [exfalso; apply (Hb2 j); [lia|auto]|].
      destruct (buf_eqb_spec (mk1 j) b) as [E'|E']; [exfalso; apply (Hb1 j); [lia|auto]|].
      apply H4; intros; [apply Hb1|apply Hb2]; lia.
  - intros [] m' (H1 & H2 & H3 & H4). apply HPost; auto.
Qed.

Lemma fam_case (mk : Z -> buf) p b : (exists k, 0 <= k < p /\ b = mk k) \/ (forall k, 0 <= k < p -> b <> mk k).
Proof. apply bounded_dec. intros k. destruct (buf_eqb_spec b (mk k)); auto. Qed.

Local Ltac isown := exact I || (cbn; lia).

(** scratch objects of a call (everything the library owns but the queried context) *)
Definition scratch (b : buf) : Prop := own b /\ b <> cbuf.

Definition online_tail (so : bool) (ar : arch) (M N K p : Z) (xc : blk_dims * cntx) : prog T cntx :=
  let x := fst xc in
  let c := snd xc in
  (pfor_ 0 p 1 (fun i => palloc (BufAp i) (m_c x * k_c x) true None) ;;;
  palloc BufBp (k_c x * n_c x) true None ;;;
  alloc_Cp S p (m_c x * n_c x) ;;;
  (if so then palloc (BufX 2) 1 false None else PRet tt) ;;;
  schedule_KMN_online S so ar (BufA, 0) (BufB, 0) (BufC, 0) M N K p c x ;;;
  (if so then pfree (BufX 2) else PRet tt) ;;;
  pfor_ 0 p 1 (fun i => pfree (BufAp i) ;;; pfree (BufCp i)) ;;;
  pfree BufBp ;;;
  pfree xbuf ;;;
  PRet c)%prog.

Lemma online_unfold so F ar q M N K p oc mcu kcu ncu :
  cake_sgemm_online S so F ar q M N K p oc mcu kcu ncu =
  pbind (get_ctx S q oc) (fun c0 =>
    pbind (palloc xbuf 1 false None) (fun _ =>
      pbind (lift S (init_block_dims F M N K p c0 KMN mcu kcu ncu)) (online_tail so ar M N K p))).
Proof. reflexivity. Qed.

(** what the packing reads of A and B *)
Definition fromA (K : Z) (m : mem T) (i k : Z) : T :=
  match dat m BufA (i * K + k) with Some v => v | None => zero S end.
Definition fromB (N : Z) (m : mem T) (k j : Z) : T :=
  match dat m BufB (k * N + j) with Some v => v | None => zero S end.

(** one thread has work, as the planned blocks see it *)
Lemma one_thread_pu M N K p x c n m j : 0 < mr c -> 0 < nr c -> 0 < p -> kmn_facts M N K p (mr c) (nr c) x ->
  one_thread M N K p (mr c) ->
  0 <= n < Nb x -> 0 <= m < Mb x -> 0 <= j < Kb x -> blk_pu x p m <= 1.
Proof.
  intros Hmr Hnr Hp F H Hn Hm Hj. pose proof (kf_pu _ _ _ _ _ _ _ F m Hm) as Hpu.
  destruct H as [->|[H|[->| ->]]]; [lia| | |].
  - pose proof (part_end _ _ _ _ (kf_M _ _ _ _ _ _ _ F) m Hm) as He.
    pose proof (kf_mc _ _ _ _ _ _ _ F).
    assert (EM : M_padded x < M + mr c) by apply (kf_Mpu _ _ _ _ _ _ _ F).
    assert (0 <= m * (p * m_c x)) by nia.
    assert (Hb : blk_mcb x p (mr c) m < 2 * mr c) by lia.
    destruct (Z_le_gt_dec (blk_pu x p m) 1) as [|G]; [auto|exfalso].
    pose proof (kf_C _ _ _ _ _ _ _ F m Hm) as PC.
    pose proof (part_end _ _ _ _ PC 1 ltac:(lia)) as He2.
    pose proof (pt_w _ _ _ _ PC 1 ltac:(lia)) as Hw.
    pose proof (kf_mr _ _ _ _ _ _ _ F m 1 Hm ltac:(lia)) as D.
    pose proof (kf_mxr _ _ _ _ _ _ _ F m Hm) as D2. pose proof (kf_mx _ _ _ _ _ _ _ F m Hm) as D3.
    apply Z.divide_pos_le in D; [|lia]. apply Z.divide_pos_le in D2; [|lia]. lia.
  - exfalso. pose proof (kf_n1 _ _ _ _ _ _ _ F n Hn) as (_ & Q). pose proof (kf_nc _ _ _ _ _ _ _ F). nia.
  - exfalso. pose proof (kf_K _ _ _ _ _ _ _ F) as PK. pose proof (part_end _ _ _ _ PK j Hj).
    pose proof (pt_w _ _ _ _ PK j Hj). pose proof (kf_kc _ _ _ _ _ _ _ F). nia.
Qed.

Lemma online_tail_spec so ar M N K p x c A B m1 :
  0 <= M -> 0 <= N -> 0 <= K -> 0 < p -> (so = true -> one_thread M N K p (mr c)) -> arch_ok ar -> ctx_ok ar c ->
  kmn_facts M N K p (mr c) (nr c) x -> 
  at_least m1 BufA (M * K) -> holds m1 BufA M K A -> at_least m1 BufB (K * N) -> holds m1 BufB K N B ->
  at_least m1 BufC (M * N) ->
  A_rim m1 M K (mr c) -> B_rim m1 N K (nr c) 0 ->
  (forall b, scratch b -> b <> BufX 0 -> live m1 b = None) -> live m1 (BufX 0) <> None ->
  pok (online_tail so ar M N K p (x, c)) m1
      (fun r m' => r = c /\ holds m' BufC M N (product S A B (kmn_ord p x)) /\
         (forall b, scratch b -> live m' b = None) /\
         (forall b, ~ scratch b -> live m' b = live m1 b) /\
         (forall b i, ~ scratch b -> ~ (b = BufC /\ 0 <= i < M * N) -> dat m' b i = dat m1 b i)).
Proof.
  intros HM HN HK Hp Hso Har Hc F (ba & LA & LA1) HA (bb & LB & LB1) HB (bc & LC & LC1) RA RB Hfr HX.
  destruct (ctx_pos ar c Har Hc) as (Hmr & Hnr & Hln & Hlk).
  pose proof (ctx_kern S ar c Hc) as Hk.
  pose proof (kf_mc _ _ _ _ _ _ _ F) as Hmc. pose proof (kf_nc _ _ _ _ _ _ _ F) as Hnc. pose proof (kf_kc _ _ _ _ _ _ _ F) as Hkc.
  assert (EM : forall i, M <= i < M_padded x -> M <= i < round_up M (mr c)).
  { intros i Hi. rewrite (roundup_uniq M (mr c) (M_padded x)); auto.
    - eapply kmn_Md; eauto.
    - pose proof (kf_Mp _ _ _ _ _ _ _ F). pose proof (kf_Mpu _ _ _ _ _ _ _ F). lia. }
  assert (EN : forall i, N <= i < N_padded x -> N <= i < round_up N (nr c)).
  { intros i Hi. rewrite (roundup_uniq N (nr c) (N_padded x)); auto.
    - eapply kmn_Nd; eauto.
    - pose proof (kf_Np _ _ _ _ _ _ _ F). pose proof (kf_Npu _ _ _ _ _ _ _ F). lia. }
  unfold online_tail. cbn [fst snd].
  apply pok_bind. apply alloc_fam; try lia.
  { intros i j E. now injection E. }
  { intros k Hk'. apply Hfr; [split; [isown|discriminate]|discriminate]. }
  intros m2 P1 P2 P3 P4.
  apply pok_bind. apply pok_alloc; [nia| |].
  { rewrite P3 by (intros; discriminate). apply Hfr; [split; [isown|discriminate]|discriminate]. }
  set (m3 := do_alloc m2 BufBp (k_c x * n_c x) true None).
  assert (Q1 : live m3 BufBp = Some (BInfo (k_c x * n_c x) true)) by reflexivity.
  assert (Q3 : forall b, b <> BufBp -> live m3 b = live m2 b).
  { intros b Hb. unfold m3. rewrite live_alloc. destruct (buf_eqb_spec BufBp b); congruence. }
  assert (Q4 : forall b i, b <> BufBp -> dat m3 b i = dat m2 b i).
  { intros b i Hb. unfold m3. rewrite dat_alloc. destruct (buf_eqb_spec BufBp b); congruence. }
  clearbody m3.
  apply pok_bind. unfold alloc_Cp. apply alloc_fam; try lia.
  { intros i j E. now injection E. }
  { intros k Hk'. rewrite Q3, P3 by (intros; discriminate). apply Hfr; [split; [isown|discriminate]|discriminate]. }
  intros m4 R1 R2 R3 R4.
  apply pok_bind.
  apply (pok_mono _ _ (fun _ m5 => (so = true -> live m5 (BufX 2) = Some (BInfo 1 false)) /\
     (forall b, ~ (so = true /\ b = BufX 2) -> live m5 b = live m4 b) /\
     (forall b i, ~ (so = true /\ b = BufX 2) -> dat m5 b i = dat m4 b i))).
  { destruct so.
    - apply pok_alloc; [lia| |].
      + rewrite R3, Q3, P3 by (intros; discriminate). apply Hfr; [split; [isown|discriminate]|discriminate].
      + split; [|split].
        * intros _. now rewrite live_alloc, buf_eqb_refl.
        * intros b Hb. rewrite live_alloc. destruct (buf_eqb_spec (BufX 2) b) as [<-|]; [tauto|auto].
        * intros b i Hb. rewrite dat_alloc. destruct (buf_eqb_spec (BufX 2) b) as [<-|]; [tauto|auto].
    - apply pok_ret. split; [discriminate|auto]. }
  intros _ m5 (T1 & T3 & T4).
  assert (Lu : forall b, b = BufX 0 \/ ~ scratch b -> live m5 b = live m1 b).
  { intros b Hb.
    assert (N1 : forall k, b <> BufAp k) by (intros k ->; destruct Hb as [Hb|Hb]; [discriminate|apply Hb; split; [isown|discriminate]]).
    assert (N2 : forall k, b <> BufCp k) by (intros k ->; destruct Hb as [Hb|Hb]; [discriminate|apply Hb; split; [isown|discriminate]]).
    assert (N3 : b <> BufBp) by (intros ->; destruct Hb as [Hb|Hb]; [discriminate|apply Hb; split; [isown|discriminate]]).
    assert (N4 : b <> BufX 2) by (intros ->; destruct Hb as [Hb|Hb]; [discriminate|apply Hb; split; [isown|discriminate]]).
    rewrite T3, R3, Q3, P3; auto. tauto. }
  assert (Du : forall b i, ~ scratch b -> dat m5 b i = dat m1 b i).
  { intros b i Hb.
    assert (N1 : forall k, b <> BufAp k) by (intros k ->; apply Hb; split; [isown|discriminate]).
    assert (N2 : forall k, b <> BufCp k) by (intros k ->; apply Hb; split; [isown|discriminate]).
    assert (N3 : b <> BufBp) by (intros ->; apply Hb; split; [isown|discriminate]).
    assert (N4 : b <> BufX 2) by (intros ->; apply Hb; split; [isown|discriminate]).
    rewrite T4, R4, Q4, P4; auto. tauto. }
  assert (NSA : ~ scratch BufA) by (intros ([] & _)).
  assert (NSB : ~ scratch BufB) by (intros ([] & _)).
  assert (NSC : ~ scratch BufC) by (intros ([] & _)).
  apply pok_bind. eapply pok_mono.
  - eapply (schedule_online_spec S so M N K p x ar c F HN HK Hp (fun Es n m j => one_thread_pu M N K p x c n m j Hmr Hnr Hp F (Hso Es)) Hmr Hnr Hk Hln Hlk
      (fromA K m1) (fromB N m1) m5 ba bb (BInfo (k_c x * n_c x) true) bc).
    + rewrite Lu; auto.
    + rewrite Lu; auto.
    + intros i k Hi Hkk. rewrite Du by auto. unfold fromA.
      destruct (Z_lt_le_dec i M).
      * rewrite (HA i k) by lia. split; [auto|nia].
      * destruct (RA i k (EM i ltac:(lia)) Hkk) as (b' & v & E1 & E2 & E3).
        rewrite LA in E1. injection E1 as <-. rewrite E3. auto.
    + intros k j Hkk Hj. rewrite Du by auto. unfold fromB.
      destruct (Z_lt_le_dec j N).
      * rewrite (HB k j) by lia. split; [auto|nia].
      * destruct (RB k j ltac:(lia) (EN j ltac:(lia))) as (b' & v & E1 & E2 & E3).
        rewrite LB in E1. injection E1 as <-. rewrite E3. auto.
    + rewrite T3, R3 by (intros; try discriminate; intros (_ & ?); discriminate). exact Q1.
    + cbn. lia.
    + right. reflexivity.
    + rewrite Lu; auto.
    + auto.
    + intros i Hi. eexists. rewrite T3, R3, Q3 by (intros; try discriminate; intros (_ & ?); discriminate).
      split; [apply P1; auto|cbn; lia].
    + intros i Hi. eexists. rewrite T3 by (intros (_ & ?); discriminate).
      split; [apply R1; auto|cbn; lia].
    + intros Es. eexists. split; [apply T1; auto|cbn; lia].
    + intros k i Hkk Hi. rewrite T4 by (intros (_ & ?); discriminate). apply R2; auto.
  - cbv beta. intros _ m6 (HL6 & HF6 & HC6).
    apply pok_bind.
    apply (pok_mono _ _ (fun _ m7 => (so = true -> live m7 (BufX 2) = None) /\
     (forall b, ~ (so = true /\ b = BufX 2) -> live m7 b = live m6 b) /\
     (forall b i, ~ (so = true /\ b = BufX 2) -> dat m7 b i = dat m6 b i))).
    { destruct so.
      - apply pok_free.
        + rewrite HL6, T1; [discriminate|auto].
        + split; [|split].
          * intros _. now rewrite live_free, buf_eqb_refl.
          * intros b Hb. rewrite live_free. destruct (buf_eqb_spec (BufX 2) b) as [<-|]; [tauto|auto].
          * intros b i Hb. rewrite dat_free. destruct (buf_eqb_spec (BufX 2) b) as [<-|]; [tauto|auto].
      - apply pok_ret. split; [discriminate|auto]. }
    intros _ m7 (U1 & U3 & U4).
    apply pok_bind. apply (free_fam2 BufAp BufCp); try lia; try discriminate.
    { intros i j E. now injection E. }
    { intros i j E. now injection E. }
    { intros k Hkk. rewrite U3, HL6, T3, R3, Q3, P1 by (auto; intros; try discriminate; intros (_ & ?); discriminate). discriminate. }
    { intros k Hkk. rewrite U3, HL6, T3, R1 by (auto; intros; try discriminate; intros (_ & ?); discriminate). discriminate. }
    intros m8 V1 V2 V3 V4.
    apply pok_bind. apply pok_free.
    { rewrite V3, U3, HL6, T3, R3, Q1 by (intros; try discriminate; intros (_ & ?); discriminate). discriminate. }
    apply pok_bind. apply pok_free.
    { rewrite live_free, buf_eqb_neq by discriminate.
      rewrite V3, U3, HL6, Lu by (auto; intros; try discriminate; intros (_ & ?); discriminate). auto. }
    apply pok_ret.
    assert (Lf : forall b, live (do_free (do_free m8 BufBp) xbuf) b =
      if buf_eqb xbuf b then None else if buf_eqb BufBp b then None else live m8 b).
    { intros b. now rewrite !live_free. }
    assert (Df : forall b i, ~ scratch b -> dat (do_free (do_free m8 BufBp) xbuf) b i = dat m6 b i).
    { intros b i Hb. rewrite !dat_free.
      destruct (buf_eqb_spec xbuf b) as [<-|]; [exfalso; apply Hb; split; [isown|discriminate]|].
      destruct (buf_eqb_spec BufBp b) as [<-|]; [exfalso; apply Hb; split; [isown|discriminate]|].
      assert (N1 : forall k, b <> BufAp k) by (intros k ->; apply Hb; split; [isown|discriminate]).
      assert (N2 : forall k, b <> BufCp k) by (intros k ->; apply Hb; split; [isown|discriminate]).
      assert (N4 : b <> BufX 2) by (intros ->; apply Hb; split; [isown|discriminate]).
      rewrite V4, U4; auto. tauto. }
    split; [auto|split; [|split; [|split]]].
    + intros i j Hi Hj. rewrite Df by auto. rewrite (HC6 i j Hi Hj). f_equal.
      unfold kmn_val, product. apply dot_ext.
      intros k Hin.
      assert (Hk2 : 0 <= k < K).
      { pose proof (kmn_ord_perm M N K p x c F i j) as Hpm.
        apply (Permutation_in _ Hpm) in Hin. rewrite in_zrange in Hin. lia. }
      unfold fromA, fromB. rewrite (HA i k), (HB k j) by lia. auto.
    + intros b Hb. rewrite Lf.
      destruct (buf_eqb_spec xbuf b) as [E|N0]; auto. destruct (buf_eqb_spec BufBp b) as [E|N1]; auto.
      destruct (fam_case BufAp p b) as [(k & Hkk & ->)|N2]; [auto|].
      destruct (fam_case BufCp p b) as [(k & Hkk & ->)|N3]; [auto|].
      rewrite V3 by auto.
      destruct (buf_eqb_spec b (BufX 2)) as [->|N4].
      * destruct so; [apply U1; auto|]. rewrite U3, HL6, T3, R3, Q3, P3 by (auto; intros (? & _); discriminate).
        apply Hfr; auto.
      * rewrite U3, HL6, T3, R3, Q3, P3 by (auto; intros (_ & ?); congruence).
        apply Hfr; auto.
    + intros b Hb. rewrite Lf.
      destruct (buf_eqb_spec xbuf b) as [<-|]; [exfalso; apply Hb; split; [isown|discriminate]|].
      destruct (buf_eqb_spec BufBp b) as [<-|]; [exfalso; apply Hb; split; [isown|discriminate]|].
      assert (N1 : forall k, b <> BufAp k) by (intros k ->; apply Hb; split; [isown|discriminate]).
      assert (N2 : forall k, b <> BufCp k) by (intros k ->; apply Hb; split; [isown|discriminate]).
      assert (N4 : b <> BufX 2) by (intros ->; apply Hb; split; [isown|discriminate]).
      rewrite V3, U3, HL6; auto. tauto.
    + intros b i Hb HnC. rewrite Df by auto. rewrite HF6; [apply Du; auto|].
      intros [[HW|(k & -> & _)]|[(k & -> & _)|[->|(_ & ->)]]].
      * auto.
      * apply Hb; split; [isown|discriminate].
      * apply Hb; split; [isown|discriminate].
      * apply Hb; split; [isown|discriminate].
      * apply Hb; split; [isown|discriminate].
Qed.

(** a call as the user makes it, given what its last part does *)
Lemma call_shape {R R2} M N K (f : cntx -> comp R) (tail : cntx -> R -> prog T R2) q oc r0 c' (val : (Z -> Z -> T) -> (Z -> Z -> T) -> Z -> Z -> T)
      A B m0 :
  let c := match oc with Some c => c | None => q end in
  f c = CRet r0 ->
  caller m0 M N K A B ->
  (forall m1, at_least m1 BufA (M * K) -> holds m1 BufA M K A -> at_least m1 BufB (K * N) -> holds m1 BufB K N B ->
     at_least m1 BufC (M * N) ->
     (forall b i, ~ own b -> dat m1 b i = dat m0 b i) -> (forall b, ~ own b -> live m1 b = live m0 b) ->
     (forall b, scratch b -> b <> BufX 0 -> live m1 b = None) -> live m1 (BufX 0) <> None ->
     pok (tail c r0) m1 (fun r m' => r = c' /\ holds m' BufC M N (val A B) /\
         (forall b, scratch b -> live m' b = None) /\
         (forall b, ~ scratch b -> live m' b = live m1 b) /\
         (forall b i, ~ scratch b -> ~ (b = BufC /\ 0 <= i < M * N) -> dat m' b i = dat m1 b i))) ->
  pok (pbind (get_ctx S q oc) (fun c0 =>
    pbind (palloc xbuf 1 false None) (fun _ =>
      pbind (lift S (f c0)) (tail c0)))) m0
    (fun r m' => r = c' /\ holds m' BufC M N (val A B) /\ only_C_changed (start S m0 oc) m' M N).
Proof.
  intros c Ef ((ba & LA1 & LA2) & HA & (bb & LB1 & LB2) & HB & (bc & LC1 & LC2) & Ho) Htail.
  set (m1 := start S m0 oc).
  assert (Lv : forall b, b <> cbuf -> live m1 b = live m0 b).
  { intros b Hb. unfold m1, start. destruct oc; [auto|]. now rewrite live_alloc, buf_eqb_neq by auto. }
  assert (Dt : forall b i, b <> cbuf -> dat m1 b i = dat m0 b i).
  { intros b i Hb. unfold m1, start. destruct oc; [auto|]. now rewrite dat_alloc, buf_eqb_neq by auto. }
  apply pok_bind.
  apply (pok_mono _ _ (fun c0 m => c0 = c /\ m = m1)).
  { unfold get_ctx, m1, start, c. destruct oc as [c1|].
    - apply pok_ret. auto.
    - apply pok_bind. apply pok_alloc; [lia|apply Ho; isown|]. apply pok_ret. auto. }
  intros c0 m (-> & ->). clearbody m1.
  apply pok_bind. apply pok_alloc; [lia| |].
  { rewrite Lv by discriminate. apply Ho. isown. }
  set (m2 := do_alloc m1 xbuf 1 false None).
  assert (Lv2 : forall b, b <> xbuf -> live m2 b = live m1 b).
  { intros b Hb. unfold m2. now rewrite live_alloc, buf_eqb_neq by auto. }
  assert (Dt2 : forall b i, b <> xbuf -> dat m2 b i = dat m1 b i).
  { intros b i Hb. unfold m2. now rewrite dat_alloc, buf_eqb_neq by auto. }
  assert (Lx : live m2 xbuf <> None) by (unfold m2; rewrite live_alloc, buf_eqb_refl; discriminate).
  clearbody m2.
  apply pok_bind. apply (pok_lift S r0); [auto|].
  eapply pok_mono; [apply (Htail m2)|].
  - exists ba. rewrite Lv2, Lv by discriminate. auto.
  - intros i j Hi Hj. rewrite Dt2, Dt by discriminate. auto.
  - exists bb. rewrite Lv2, Lv by discriminate. auto.
  - intros i j Hi Hj. rewrite Dt2, Dt by discriminate. auto.
  - exists bc. rewrite Lv2, Lv by discriminate. auto.
  - intros b i Hb. rewrite Dt2, Dt; auto; intros ->; apply Hb; isown.
  - intros b Hb. rewrite Lv2, Lv; auto; intros ->; apply Hb; isown.
  - intros b (Hb & Hc) Hx. rewrite Lv2, Lv by auto. auto.
  - auto.
  - cbv beta. intros r m' (E1 & E2 & E3 & E4 & E5). split; [auto|split; [auto|]].
    assert (Dec : forall b, scratch b \/ ~ scratch b).
    { intros b. unfold scratch. destruct (buf_eqb_spec b cbuf) as [->|]; [right; tauto|].
      destruct b as [| | | | | |i]; cbn; try tauto; try (left; split; auto; fail).
      destruct (Z_lt_le_dec i 0); [right; lia|]. destruct (Z_lt_le_dec i 3); [left; split; [lia|auto]|right; lia]. }
    split.
    + intros b. destruct (Dec b) as [Hs|Hs].
      * rewrite E3 by auto. destruct Hs as (Hs1 & Hs2). rewrite Lv by auto. symmetry. auto.
      * rewrite E4 by auto. apply Lv2. intros ->. apply Hs. split; [isown|discriminate].
    + intros b i Hb HC. destruct (Dec b) as [(Hs1 & Hs2)|Hs].
      * exfalso. apply Hb. rewrite Lv by auto. auto.
      * rewrite E5 by auto. apply Dt2. intros ->. apply Hs. split; [isown|discriminate].
Qed.

Theorem online_ok so F ar q M N K p oc c mcu kcu ncu :
  match oc with Some c1 => c = c1 | None => c = q end ->
  legal F ar KMN c M N K p mcu kcu ncu -> (so = true -> one_thread M N K p (mr c)) ->
  exists ord c', orders K ord /\ same_ctx c c' /\
    (exists x, init_block_dims F M N K p c KMN mcu kcu ncu = CRet (x, c') /\ ord = kmn_ord p x) /\
    forall A B m0, caller m0 M N K A B -> A_rim m0 M K (mr c) -> B_rim m0 N K (nr c) 0 ->
      always (cake_sgemm_online S so F ar q M N K p oc mcu kcu ncu) m0
        (fun r m' => r = c' /\ holds m' BufC M N (product S A B ord) /\ only_C_changed (start S m0 oc) m' M N).
Proof.
  intros Eoc (Har & Hc & HM & HN & HK & Hp & Ht) Hso.
  destruct (plan_ok F ar M N K p c KMN mcu kcu ncu) as (s' & x & c' & N1 & N2 & Hc' & Hi & Hsame & HP & _); auto.
  rewrite N2 in * by discriminate. destruct HP as (F' & Es).
  exists (kmn_ord p x), c'. split; [apply (ords_perm M N K p c' KMN x); auto; split; auto|split; [auto|split; [exists x; auto|]]].
  intros A B m0 Hcl RA RB. apply pok_always. rewrite online_unfold.
  assert (Ec : match oc with Some c1 => c1 | None => q end = c) by (destruct oc; auto).
  apply (call_shape M N K (fun c0 => init_block_dims F M N K p c0 KMN mcu kcu ncu) (fun _ => online_tail so ar M N K p) q oc (x, c') c'
     (fun A B => product S A B (kmn_ord p x))); auto.
  { now rewrite Ec. }
  intros m1 H1 H2 H3 H4 H5 H6 H7 H8 H9.
  destruct Hsame as (Em & En & _).
  apply (online_tail_spec so ar M N K p x c' A B m1); auto.
  - now rewrite Em.
  - intros i k Hi' Hk'. rewrite Em in Hi'. destruct (RA i k Hi' Hk') as (bi & v & E1 & E2 & E3).
    exists bi, v. rewrite H7, H6 by (intros []). auto.
  - intros k j Hk' Hj'. rewrite En in Hj'. destruct (RB k j Hk' Hj') as (bi & v & E1 & E2 & E3).
    exists bi, v. rewrite H7, H6 by (intros []). auto.
Qed.

End Top.
