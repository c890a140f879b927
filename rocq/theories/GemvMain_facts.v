(** * main of the matrix-vector example. *)

From Coq Require Import ZArith List Bool Lia.
From Verif Require Import Lang Lang_facts Spec SpecTop SpecSmall SpecPack SpecTouch SpecTests SpecGemv SpecGemvMain ModelSizing ModelKernel ModelPack
     ModelUtil ModelTests ModelGemv ModelGemvMain Kernel_facts Trans_facts Mult_facts Alloc_facts Tests_facts Gemv_facts GemvTop_facts LinearUndef_facts.
Import ListNotations.
Open Scope Z_scope.

Section GM.
Variable S : scalar.
Notation T := (elt S).
Variable elem : Z -> T.
Variable far : T -> T -> bool.
Variable all_correct : T.
Variable some_wrong : Z -> T.

Lemma pok_both {R} (P : prog T R) m Q1 Q2 : pok P m Q1 -> pok P m Q2 -> pok P m (fun r m' => Q1 r m' /\ Q2 r m').
Proof.
  Transparent pok. intros (E & H1) (_ & H2). split; [exact E|]. intros o Ho.
  destruct (H1 o Ho) as (r & m' & -> & X1). destruct (H2 _ Ho) as (r' & m'' & E' & X2). injection E' as <- <-. eauto. Opaque pok.
Qed.

(** ** The comparison *)

Definition fars (f g : Z -> T) (n : Z) : Z := Z.of_nat (length (filter (fun i => far (f i) (g i)) (zrange 0 n))).

Lemma fars_snoc f g n : 0 <= n -> fars f g (n + 1) = fars f g n + (if far (f n) (g n) then 1 else 0).
Proof.
  intros Hn. unfold fars. rewrite zrange_snoc by lia. rewrite filter_app, app_length. cbn [filter].
  rewrite Z.add_0_l. destruct (far (f n) (g n)); cbn [length]; lia.
Qed.

Lemma fars_pos f g n : 0 <= fars f g n.
Proof. unfold fars. lia. Qed.

Definition verdict (n : Z) : T := if n =? 0 then all_correct else some_wrong n.

Lemma compare_ok (f g : Z -> T) M m bx bc br : 0 <= M ->
  live m (BufX 0) = Some bx -> live m BufC = Some bc -> live m retb = Some br -> M <= blen bx -> M <= blen bc -> 1 <= blen br ->
  (forall i, 0 <= i < M -> dat m (BufX 0) i = Some (f i)) -> (forall i, 0 <= i < M -> dat m BufC i = Some (g i)) ->
  pok (pseq (gemv_compare S far all_correct some_wrong M)) m (fun _ m' =>
    live m' = live m /\ (forall b x, ~ (b = retb /\ x = 0) -> dat m' b x = dat m b x) /\
    dat m' retb 0 = Some (verdict (fars f g M))).
Proof.
  intros Hn Lo Lc Ls Bo Bc Bs Hf Hg. unfold gemv_compare.
  eapply (pok_seq (fun b x => b = retb /\ x = 0) (fun b _ => b = BufC \/ b = BufX 0) _ m
    (fun m' => dat m' retb 0 = Some (verdict (fars f g M)))).
  - apply twp_bind.
    eapply (twp_tfor1 _ _ (fun i (r : bool * Z * Z) m' => m' = m /\ r = (fars f g i =? 0, fars f g i, i))); try lia.
    + split; [auto|reflexivity].
    + intros i r m' Hi (-> & ->) _ _. apply twp_bind.
      eapply twp_load; [left; right; reflexivity|exact Lo|lia|apply Hf; lia|]. apply twp_bind.
      eapply twp_load; [left; left; reflexivity|exact Lc|lia|apply Hg; lia|]. apply twp_ret. split; [auto|].
      rewrite fars_snoc by lia. pose proof (fars_pos f g i). destruct (far (f i) (g i)).
      * destruct (Z.eqb_spec (fars f g i + 1) 0); [lia|reflexivity].
      * now rewrite Z.add_0_r.
    + cbv beta. intros r m' (-> & ->) _ _. cbv beta iota.
      eapply (twp_store _ _ _ _ _ _ _ br); [split; auto|auto|lia|]. rewrite dat_upd_same. reflexivity.
  - cbv beta. intros ms m' H1 _ HL HE HF. split; [auto|]. split; [auto|]. now rewrite HE.
  - intros b x. destruct (buf_eqb_spec b retb) as [->|]; [|right; tauto].
    destruct (Z.eq_dec x 0); [left; auto|right; tauto].
Qed.

Lemma comparison_ok M m : 0 <= M -> at_least m (BufX 0) M -> at_least m BufC M -> at_least m retb 1 ->
  initialised m (BufX 0) M -> initialised m BufC M ->
  always (pseq (gemv_compare S far all_correct some_wrong M)) m (fun _ m' =>
    live m' = live m /\ (forall b i, ~ (b = retb /\ i = 0) -> dat m' b i = dat m b i) /\
    dat m' retb 0 = Some (let wrong := far_pairs far m (BufX 0) BufC M in if wrong =? 0 then all_correct else some_wrong wrong)).
Proof.
  intros Hn (bo & Lo & Bo) (bc & Lc & Bc) (bs & Ls & Bs) Io Ic. apply pok_always.
  set (f := fun i => match dat m (BufX 0) i with Some v => v | None => zero S end).
  set (g := fun i => match dat m BufC i with Some v => v | None => zero S end).
  assert (Hf : forall i, 0 <= i < M -> dat m (BufX 0) i = Some (f i)).
  { intros i Hi. destruct (Io i Hi) as (v & E). unfold f. now rewrite E. }
  assert (Hg : forall i, 0 <= i < M -> dat m BufC i = Some (g i)).
  { intros i Hi. destruct (Ic i Hi) as (v & E). unfold g. now rewrite E. }
  eapply pok_mono; [apply (compare_ok f g M m bo bc bs); auto|]. cbv beta zeta. intros _ m' (H1 & H2 & H3).
  split; [exact H1|]. split; [exact H2|]. rewrite H3. unfold verdict.
  replace (far_pairs far m (BufX 0) BufC M) with (fars f g M); [reflexivity|].
  unfold fars, far_pairs. do 2 f_equal. apply filter_ext_in. intros i Hi. apply in_zrange in Hi.
  now rewrite (Hf i), (Hg i) by lia.
Qed.

(** ** The checker with at most one column *)

Lemma check_loop_ok (a : Z -> T) (b : T) M K m bA : 0 <= M -> 0 <= K <= 1 -> live m (BufX 0) = None ->
  live m BufA = Some bA -> M * K <= blen bA -> (forall i, 0 <= i < M -> 0 < K -> dat m BufA i = Some (a i)) ->
  (0 < K -> cell m BufB 0 b) ->
  pok (gemv_check_loop S M K) m (fun _ m' =>
    (forall o, o <> BufX 0 -> live m' o = live m o) /\ live m' (BufX 0) = Some (BInfo M false) /\
    (forall o i, o <> BufX 0 -> dat m' o i = dat m o i) /\
    (forall i, 0 <= i < M -> dat m' (BufX 0) i = Some (if K =? 0 then zero S else fma S (a i) b (zero S)))).
Proof.
  intros HM HK LX LA BA HA HB. unfold gemv_check_loop. apply pok_bind. apply pok_alloc; [lia|exact LX|].
  set (m1 := do_alloc m (BufX 0) M false (Some (zero S))).
  assert (L1 : forall o, o <> BufX 0 -> live m1 o = live m o).
  { intros o Ho. unfold m1, do_alloc. cbn [live]. destruct (buf_eqb_spec (BufX 0) o); congruence. }
  assert (D1 : forall o i, o <> BufX 0 -> dat m1 o i = dat m o i).
  { intros o i Ho. unfold m1, do_alloc. cbn [dat]. destruct (buf_eqb_spec (BufX 0) o); congruence. }
  assert (L1' : live m1 (BufX 0) = Some (BInfo M false)) by reflexivity.
  assert (D1' : forall i, dat m1 (BufX 0) i = Some (zero S)) by reflexivity.
  clearbody m1. assert (KK : K = 0 \/ K = 1) by lia. destruct KK as [-> | ->].
  - eapply (pok_par_for 0 0 1 0 _ m1 (fun _ _ _ => False) (fun _ _ _ => False) (fun _ _ => True)); [lia|lia|lia|intros; lia|intros; lia|].
    intros m' HL _ HF. rewrite HL. split; [exact L1|]. split; [exact L1'|]. split.
    + intros o i Ho. rewrite HF by auto. now apply D1.
    + intros i Hi. rewrite HF by auto. apply D1'.
  - destruct (HB ltac:(lia)) as (bB & LB & BB & DB).
    change (ppar_for 0 1 1 ?f) with (pseq (f 0)). cbv beta.
    eapply (pok_seq (fun o i => o = BufX 0) (fun o _ => o = BufA \/ o = BufB) _ m1
      (fun m' => forall i, 0 <= i < M -> dat m' (BufX 0) i = Some (fma S (a i) b (zero S)))).
    + unfold tfor_. eapply (twp_tfor1 _ _ (fun j _ m' => (forall i, 0 <= i < j -> dat m' (BufX 0) i = Some (fma S (a i) b (zero S))) /\
          (forall i, j <= i -> dat m' (BufX 0) i = Some (zero S)))).
      * lia.
      * split; [intros; lia|]. intros; apply D1'.
      * intros j _ m' Hj (I1 & I2) HL HD. apply twp_bind.
        eapply twp_load; [right; reflexivity|rewrite HL; exact L1'|cbn [blen]; lia|apply I2; lia|]. apply twp_bind.
        eapply twp_load; [left; left; reflexivity|rewrite HL, L1 by discriminate; exact LA|lia|
          rewrite HD, D1 by discriminate; replace (0 * M + j) with j by lia; apply HA; lia|]. apply twp_bind.
        eapply twp_load; [left; right; reflexivity|rewrite HL, L1 by discriminate; exact LB|lia|rewrite HD, D1 by discriminate; exact DB|].
        eapply twp_store; [reflexivity|rewrite HL; exact L1'|cbn [blen]; lia|]. cbn [upd dat]. rewrite buf_eqb_refl. cbn [andb].
        split; intros i Hi; (destruct (Z.eqb_spec j i) as [<-|]; [try reflexivity; lia|]); [apply I1|apply I2]; lia.
      * cbv beta. intros _ m' (I1 & _) _ _. exact I1.
    + cbv beta. intros ms m' I _ HL HE HF. split; [intros o Ho; rewrite HL; now apply L1|]. split; [rewrite HL; exact L1'|]. split.
      * intros o i Ho. rewrite HF by exact Ho. now apply D1.
      * intros i Hi. rewrite HE. now apply I.
    + intros o x. destruct (buf_eqb_spec o (BufX 0)); [left|right]; auto.
Qed.

Lemma prepare_zero rndA rndB M N K m0 : 0 <= M -> 0 <= N -> 0 <= K -> nothing_yet m0 ->
  pok (prepare S elem rndA rndB M N K) m0 (fun _ m => forall i, dat m BufC i = Some (zero S)).
Proof.
  intros HM HN HK (LA & LB & LC & LO).
  assert (HMK : 0 <= M * K) by nia. assert (HKN : 0 <= K * N) by nia. assert (HMN : 0 <= M * N) by nia.
  unfold prepare. apply pok_bind, pok_alloc; [exact HMK|exact LA|].
  apply pok_bind, pok_alloc; [exact HKN|exact LB|].
  apply pok_bind, pok_alloc; [exact HMN|exact LC|].
  set (m3 := do_alloc _ BufC _ _ _).
  assert (A3 : live m3 BufA = Some (BInfo (M * K) false)) by reflexivity.
  assert (B3 : live m3 BufB = Some (BInfo (K * N) false)) by reflexivity.
  assert (C3 : forall i, dat m3 BufC i = Some (zero S)) by reflexivity. clearbody m3.
  apply pok_bind. eapply pok_mono; [apply rand_init_ok; [exact HMK|exists (BInfo (M * K) false); split; [exact A3|cbn; lia]]|].
  intros [] m4 (L4 & D4 & F4).
  eapply pok_mono; [apply rand_init_ok; [exact HKN|exists (BInfo (K * N) false); rewrite L4; split; [exact B3|cbn; lia]]|].
  intros [] m5 (L5 & D5 & F5). intros i. rewrite F5, F4, C3; [reflexivity| |]; intros (X & _); discriminate X.
Qed.

(** ** main *)

Section Run.
Variables (raw : Z) (rndA rndB : Z -> Z) (argc M K p : Z) (m0 : mem T).
Hypothesis Harg : 4 <= argc.
Hypothesis HM : 0 <= M.
Hypothesis HK : 0 <= K.
Hypothesis Hp : 0 < p.
Hypothesis Hraw : 0 <= raw.
Hypothesis H0 : nothing_yet m0.
Notation main f := (gemv_main S elem far all_correct some_wrong raw f rndA rndB argc M K p).

Lemma main_unfold f : main f = one_test S elem (cake_sgemv S raw f M K p 8 None) (fun _ M K => gemv_checker S far all_correct some_wrong M K) rndA rndB M 1 K.
Proof. unfold gemv_main. destruct (Z.ltb_spec argc 3); [lia|]. destruct (Z.ltb_spec argc 4); [lia|reflexivity]. Qed.

Lemma usable : usable_tiles raw M p 8 None.
Proof. split; [exact Hraw|]. left. exists 8. reflexivity. Qed.

Lemma operands m : ready S elem m0 m rndA rndB M 1 K -> (forall i, dat m BufC i = Some (zero S)) ->
  gemv_operands m M K (fun i k => elem (rndA (k * M + i))) (fun k => elem (rndB k)) (fun _ => zero S).
Proof.
  intros ((_ & HA & _ & HB & _) & LA & LB & LC & _) HC. split; [|split].
  - intros i k Hi Hk. eexists; split; [exact LA|]. cbn [blen]. split; [nia|].
    assert (0 <= k * M + i < M * K) by nia.
    pose proof (Z.div_mod (k * M + i) K ltac:(lia)) as D. pose proof (Z.mod_pos_bound (k * M + i) K ltac:(lia)) as B.
    specialize (HA ((k * M + i) / K) ((k * M + i) mod K)). cbv beta in HA.
    replace ((k * M + i) / K * K + (k * M + i) mod K) with (k * M + i) in HA by lia. rewrite Z.add_0_l. apply HA; [|exact B].
    split; [apply Z.div_pos; lia|apply Z.div_lt_upper_bound; lia].
  - intros k Hk. eexists; split; [exact LB|]. cbn [blen]. split; [lia|]. specialize (HB k 0 Hk ltac:(lia)). cbv beta in HB.
    replace (k * 1 + 0) with k in HB by lia. exact HB.
  - intros i Hi. eexists; split; [exact LC|]. cbn [blen]. split; [lia|apply HC].
Qed.

Lemma main_one_column : (8 | M) -> K <= 1 -> (forall a, far a a = false) -> at_least m0 retb 1 ->
  always (main (Some KMN)) m0 (fun _ m' => dat m' retb 0 = Some all_correct /\
    live m' BufA = None /\ live m' BufB = None /\ live m' BufC = None /\ live m' (BufX 0) = Some (BInfo M false)).
Proof.
  intros H8 H1 Hfar (br & Lr & Br). apply pok_always. rewrite main_unfold, one_test_split.
  apply pok_bind. eapply pok_mono; [apply pok_both; [apply prepare_ok; auto; lia|apply prepare_zero; auto; lia]|].
  cbv beta. intros _ m1 (HR & HZ). pose proof (operands m1 HR HZ) as HO.
  pose proof HR as (HCl & LA & LB & LC & LO).
  apply pok_bind. eapply pok_mono.
  { apply always_pok. apply (sgemv_ok S raw M K p None _ _ _ m1 HM H8 HK Hp usable HO). }
  cbv beta. intros [] m2 (L2 & C2 & D2). apply pok_bind. unfold gemv_checker. apply pok_bind.
  destruct HO as (OA & OB & OC).
  eapply pok_mono.
  { apply (check_loop_ok (fun i => elem (rndA i)) (elem (rndB 0)) M K m2 (BInfo (M * K) false)); auto; try lia.
    - rewrite L2, LO by discriminate. apply H0. cbn. lia.
    - rewrite L2. exact LA.
    - cbn [blen]. lia.
    - intros i Hi Hk. rewrite D2 by (intros (X & _); discriminate X). destruct (OA i 0 Hi ltac:(lia)) as (bi & _ & _ & V).
      replace (0 + 0 * M + i) with i in V by lia. replace (0 * M + i) with i in V by lia. exact V.
    - intros Hk. destruct (OB 0 ltac:(lia)) as (bi & X1 & X2 & X3). exists bi. rewrite L2, D2 by (intros (X & _); discriminate X). auto. }
  cbv beta. intros _ m3 (L3 & L3' & D3 & X3).
  assert (VC : forall i, 0 <= i < M -> dat m3 BufC i = Some (if K =? 0 then zero S else fma S (elem (rndA i)) (elem (rndB 0)) (zero S))).
  { intros i Hi. rewrite D3 by discriminate. rewrite C2 by auto. assert (KK : K = 0 \/ K = 1) by lia.
    destruct KK as [E|E]; rewrite E; cbn; [reflexivity|]. do 4 f_equal. }
  eapply pok_mono.
  { eapply (compare_ok _ _ M m3 (BInfo M false) (BInfo (M * 1) false) br HM L3'); [..|exact X3|exact VC].
    - rewrite L3, L2 by discriminate. exact LC.
    - rewrite L3, L2, LO by discriminate. exact Lr.
    - cbn; lia.
    - cbn; lia.
    - exact Br. }
  cbv beta. intros _ m4 (L4 & D4 & V4).
  assert (LL : forall b, b <> BufX 0 -> live m4 b = live m1 b) by (intros b Hb; rewrite L4, L3, L2 by auto; reflexivity).
  apply finish_ok; try (rewrite LL by discriminate; congruence).
  intros m' HF N1 N2 N3. split; [|split; [exact N1|split; [exact N2|split; [exact N3|]]]].
  - rewrite (proj2 (HF retb ltac:(discriminate) ltac:(discriminate) ltac:(discriminate))), V4. unfold verdict, fars.
    replace (filter _ _) with (@nil Z); [reflexivity|]. symmetry. generalize (zrange 0 M).
    induction l as [|x l IH]; [reflexivity|]. cbn [filter]. now rewrite Hfar.
  - rewrite (proj1 (HF (BufX 0) ltac:(discriminate) ltac:(discriminate) ltac:(discriminate))), L4. exact L3'.
Qed.

Lemma main_race : (8 | M) -> 0 < M -> 2 <= K -> pexec (main (Some KMN)) m0 Undef.
Proof.
  intros H8 HM' H2. rewrite main_unfold, one_test_split.
  destruct (some_exec (prepare S elem rndA rndB M 1 K) m0) as (o & Ho).
  assert (X : pok (prepare S elem rndA rndB M 1 K) m0 (fun _ m => ready S elem m0 m rndA rndB M 1 K /\ forall i, dat m BufC i = Some (zero S)))
    by (apply pok_both; [apply prepare_ok; auto; lia|apply prepare_zero; auto; lia]).
  Transparent pok. destruct (proj2 X o Ho) as (r & m1 & -> & HR & HZ). Opaque pok.
  apply pexec_bind. left. exists r, m1. split; [exact Ho|].
  pose proof (sgemv_ok S raw M K p None _ _ _ m1 HM H8 HK Hp usable (operands m1 HR HZ)) as ((o2 & Ho2) & HY).
  destruct (HY o2 Ho2) as (r2 & m2 & -> & _). apply pexec_bind. left. exists r2, m2. split; [exact Ho2|].
  apply pexec_bind. right. left. split; [reflexivity|]. unfold gemv_checker. apply pexec_bind. right. left. split; [reflexivity|].
  now apply check_race.
Qed.

Lemma main_field : always_undefined (main None) m0.
Proof.
  rewrite main_unfold. apply one_test_undefined; auto; try lia. intros m _.
  apply (sgemv_field S raw M K p None m HM Hp usable).
Qed.

Lemma main_rows : 0 < M -> 0 < K -> ~ (8 | M) -> always_undefined (main (Some KMN)) m0.
Proof.
  intros HM' HK' H8. rewrite main_unfold. apply one_test_undefined; auto; try lia. intros m (_ & _ & _ & LC & _).
  apply (sgemv_out S raw M K p 8 None m (BInfo (M * 1) false)); auto; try lia; [apply usable|cbn; lia].
Qed.
End Run.
End GM.
