(** * The PyTorch layer. *)

From Coq Require Import ZArith List Bool Permutation Lia.
From Verif Require Import Lang Lang_facts Spec SpecTop ModelSizing ModelKernel ModelPack ModelSched ModelTop ModelUtil ModelLinear
     SpecLinear Kernel_facts Frame_facts Misc_facts Mult_facts Trans_facts Sizing_facts SizingMN_facts PackCall_facts Init_facts SpecTouch CallAll_facts TouchMN_facts BadMap_facts Witness Witness_facts.
Import ListNotations.
Open Scope Z_scope.

(** ** NA is the schedule it turns out to be *)
Lemma cache_dims_NA F M N K p c mcu kcu ncu r :
  get_cache_dims F M N K p c NA mcu kcu ncu = CRet r ->
  get_cache_dims F M N K p c (cd_sch (fst r)) mcu kcu ncu = CRet r.
Proof.
  unfold get_cache_dims. destruct (imod _ _) as [r2| |]; cbn [cbind]; try discriminate.
  destruct (imod (fp_mcL3 F (L3 c) (ncores c)) _) as [r3| |]; cbn [cbind]; try discriminate.
  destruct (clip_mc _ _ _ _) as [mc| |]; cbn [cbind]; try discriminate.
  set (d := derive_schedule _ _ _ _ _ _ _).
  destruct (truthy mcu && truthy ncu && truthy kcu).
  { intros E. injection E as <-. cbn. now destruct d. }
  destruct d.
  - destruct (ofopt _) as [n0| |] eqn:E1; cbn [cbind]; try discriminate.
    destruct (imod n0 _) as [rn| |] eqn:E2; cbn [cbind]; try discriminate. intros E. injection E as <-. cbn [fst cd_sch].
    cbn [cbind]. rewrite ?E2. reflexivity.
  - destruct (ofopt _) as [n0| |] eqn:E1; cbn [cbind]; try discriminate.
    destruct (imod n0 _) as [rn| |] eqn:E2; cbn [cbind]; try discriminate. intros E. injection E as <-. cbn [fst cd_sch].
    cbn [cbind]. rewrite ?E2. reflexivity.
  - destruct (imod _ _) as [rn| |] eqn:E0; cbn [cbind]; try discriminate.
    destruct (ofopt _) as [m0| |] eqn:E1; cbn [cbind]; try discriminate.
    destruct (imod m0 _) as [rm| |] eqn:E2; cbn [cbind]; try discriminate. intros E. injection E as <-. cbn [fst cd_sch].
    cbn [cbind]. rewrite ?E1. cbn [cbind]. rewrite ?E2. reflexivity.
  - discriminate.
Qed.

Lemma init_NA F M N K p c mcu kcu ncu x c' :
  init_block_dims F M N K p c NA mcu kcu ncu = CRet (x, c') ->
  init_block_dims F M N K p c (sch x) mcu kcu ncu = CRet (x, c') /\ sch x <> NA.
Proof.
  unfold init_block_dims. intros E. destruct (cbind_ret _ _ _ E) as (r & E1 & E2).
  assert (Ek : cd_sch (fst r) = sch x /\ sch x <> NA).
  { apply cbind_ret in E2. destruct E2 as (y & Ey & E2). injection E2 as -> _.
    destruct (cd_sch (fst r)); [| | |discriminate]; revert Ey; unfold dims_KMN, dims_MKN, dims_NKM;
    repeat (match goal with |- cbind ?a _ = _ -> _ => destruct a; cbn [cbind]; try discriminate end);
    intros Ey; injection Ey as <-; split; [reflexivity|discriminate|reflexivity|discriminate|reflexivity|discriminate]. }
  destruct Ek as (Ek & Hna). split; [|exact Hna]. rewrite <- Ek, (cache_dims_NA _ _ _ _ _ _ _ _ _ _ E1). cbn [cbind]. exact E2.
Qed.

Lemma init_total F M N K p c s mcu kcu ncu :
  0 <= M -> 0 <= N -> 0 <= K -> 0 < p -> 0 < mr c -> 0 < nr c -> tiles_ok F M p c mcu kcu ncu ->
  exists x c', init_block_dims F M N K p c s mcu kcu ncu = CRet (x, c').
Proof.
  intros HM HN HK Hp Hmr Hnr Ht.
  destruct (init_ok F M N K p c s mcu kcu ncu HM Hp Hmr Hnr Ht)
    as (mc & kc & nc & al' & s' & E' & H1 & H2 & H3 & H4 & H5 & Hna & H6 & Hu).
  assert (D : exists x, dims_of s' M N K p mc kc nc (mr c) (nr c) = CRet x).
  { destruct s'; cbn [dims_of]; [| | |congruence].
    - apply dims_KMN_total; lia.
    - destruct (dims_MKN_facts M N K p mc kc nc (mr c) (nr c)) as (y & Ey & _); auto; try lia. eauto.
    - destruct (dims_NKM_facts M N K p mc kc nc (mr c) (nr c)) as (y & Ey & _); auto; try lia. eauto. }
  destruct D as (x & Ex). rewrite E', Ex. cbn [cbind]. eauto.
Qed.

(** two ways to know that a call fits *)
Lemma fits_16 F c M N K p : 0 < p -> 0 <= M -> 0 <= N -> 0 <= K -> mr c = 6 -> nr c = 16 -> auto_tiles F M p c 0 0 0 ->
  m_map c = 0 -> n_map c = 0 -> (16 | N) -> layer_call F c M N K p.
Proof.
  intros Hp HM HN HK E1 E2 Ha E3 E4 Hd. split; [exact Ha|]. intros x c' E.
  assert (L : legal F haswell NA c M N K p 0 0 0).
  { split; [apply w_arch|split; [|do 4 (split; [assumption|]); now right]].
    unfold ctx_for, ctx_ok, ctx_min. rewrite E1, E2, E3, E4. cbn. lia. }
  destruct (sch x) eqn:Hs; auto; right;
    (assert (Hk : 0 < k_c x);
     [destruct (plan_ok F haswell M N K p c NA 0 0 0) as (s' & x' & c2 & N1 & N2 & Hc' & Hi & Hsame & HP & _);
        try (destruct L as (? & ? & ? & ? & ? & ? & ?); assumption); rewrite E in Hi; injection Hi as <- <-;
        rewrite <- (plan_sch _ _ _ _ _ _ _ HP), Hs in HP; first [contradiction|destruct HP as (Fb & _); exact (bf_kc _ _ _ _ _ _ _ _ _ Fb)]
     |pose proof (k_tail_nonneg K p (k_c x) HK Hp Hk); destruct Hd as (d & ->);
      unfold round_up, ceil_div; replace (d * 16 + 16 - 1) with (15 + d * 16) by lia;
      rewrite Z.div_add by lia; change (15 / 16) with 0; nia]).
Qed.

Lemma fits_dec F c M N K p : layer_fits F c M N K p \/ ~ layer_fits F c M N K p.
Proof.
  unfold layer_fits. destruct (init_block_dims F M N K p c NA 0 0 0) as [(x & c')| |] eqn:E.
  2,3: left; intros; discriminate.
  assert (D : match sch x with KMN => m_map c = 0 /\ n_map c = 0
     | _ => K = k_tail K p (k_c x) \/ round_up N 16 <= (k_tail K p (k_c x) + 1) * N end \/ ~ match sch x with KMN => m_map c = 0 /\ n_map c = 0
     | _ => K = k_tail K p (k_c x) \/ round_up N 16 <= (k_tail K p (k_c x) + 1) * N end).
  { destruct (sch x); lia. }
  destruct D as [D|D]; [left|right].
  - intros x' c2 E'. injection E' as <- <-. exact D.
  - intros H. apply D, (H x c' eq_refl).
Qed.

Section Linear.

Variable S : scalar.
Notation T := (elt S).
Variable add : T -> T -> T.

Lemma sgemm_NA F ar q nz M N K p c al be mcu kcu ncu x c' :
  init_block_dims F M N K p c NA mcu kcu ncu = CRet (x, c') ->
  cake_sgemm S F ar q nz M N K p (Some c) false false al be NA mcu kcu ncu =
  cake_sgemm S F ar q nz M N K p (Some c) false false al be (sch x) mcu kcu ncu.
Proof.
  intros E. Transparent pbind. unfold cake_sgemm, get_ctx. cbn [pbind]. rewrite E, (proj1 (init_NA _ _ _ _ _ _ _ _ _ _ _ E)).
  reflexivity. Opaque pbind.
Qed.

(** the matrices of a call, exactly as large as needed *)
Definition exact_ops (m : mem T) (M N K : Z) (A B : Z -> Z -> T) : Prop :=
  (exists ba, live m BufA = Some ba /\ blen ba = M * K) /\ holds m BufA M K A /\
  (exists bb, live m BufB = Some bb /\ blen bb = K * N) /\ holds m BufB K N B /\
  at_least m BufC (M * N) /\ (forall b, own b -> live m b = None).

Lemma exact_caller m0 M N K A B : exact_ops m0 M N K A B -> caller m0 M N K A B.
Proof.
  intros ((ba & L1 & L2) & H1 & (bb & L3 & L4) & H2 & H3 & H4).
  split; [exists ba; split; [auto|lia]|split; [auto|split; [exists bb; split; [auto|lia]|auto]]].
Qed.

(** the call the library makes of NA *)
Lemma gemm_legal F M N K p c :
  0 <= M -> 0 <= N -> 0 <= K -> 0 < p -> mr c = 6 -> nr c = 16 -> auto_tiles F M p c 0 0 0 ->
  exists x c', init_block_dims F M N K p c NA 0 0 0 = CRet (x, c') /\
    (sch x <> KMN -> legal F haswell (sch x) c M N K p 0 0 0 /\ (sch x = MKN \/ sch x = NKM)) /\
    (sch x = KMN -> m_map c = 0 -> n_map c = 0 -> legal F haswell KMN c M N K p 0 0 0).
Proof.
  intros HM HN HK Hp E1 E2 Ha.
  destruct (init_total F M N K p c NA 0 0 0) as (x & c' & E); auto; try lia; [now right|].
  exists x, c'. split; [exact E|]. destruct (init_NA _ _ _ _ _ _ _ _ _ _ _ E) as (_ & Hna). split.
  - intros Hs. split; [|destruct (sch x); tauto]. split; [apply w_arch|split; [|do 4 (split; [assumption|]); now right]].
    unfold ctx_for, ctx_min. destruct (sch x); try tauto; cbn; auto.
  - intros Hs E3 E4. split; [apply w_arch|split; [|do 4 (split; [assumption|]); now right]].
    unfold ctx_for, ctx_ok. rewrite E1, E2, E3, E4. cbn. lia.
Qed.

Lemma gemm_ok F nz one junk M N K p c :
  0 <= M -> 0 <= N -> 0 <= K -> 0 < p -> nz (zero S) = false ->
  mr c = 6 -> nr c = 16 -> layer_call F c M N K p ->
  exists ord c', orders K ord /\ same_ctx c c' /\
    forall A B m0, exact_ops m0 M N K A B ->
      pok (gemm S F nz one junk c M N K p) m0
        (fun r m' => r = c' /\ holds m' BufC M N (product S A B ord) /\ only_C_changed m0 m' M N).
Proof.
  intros HM HN HK Hp Hz E1 E2 (Ha & Hf).
  destruct (gemm_legal F M N K p c HM HN HK Hp E1 E2 Ha) as (x & c1 & E & L1 & L2). specialize (Hf _ _ E).
  unfold gemm. rewrite (sgemm_NA _ _ _ _ _ _ _ _ _ _ _ _ _ _ _ _ E).
  assert (D : sch x = KMN \/ sch x <> KMN) by (destruct (sch x); (left; reflexivity) || (right; discriminate)).
  destruct D as [Hs|Hs].
  - rewrite Hs in Hf |- *. destruct Hf as (E3 & E4). specialize (L2 Hs E3 E4).
    destruct (plain_ok S F haswell junk nz M N K p c one (zero S) KMN 0 0 0 L2 (Some c) 0 eq_refl (or_intror Hz) (or_introl eq_refl)) as (ord & c' & H1 & H2 & H3).
    exists ord, c'. split; [auto|split; [auto|]]. intros A B m0 Ho.
    apply always_pok. apply (H3 A B m0); [now apply exact_caller|]. intros H. now destruct H.
  - destruct (L1 Hs) as (L & Hmn).
    assert (Hf' : K = k_tail K p (k_c x) \/ round_up N 16 <= (k_tail K p (k_c x) + 1) * N).
    { destruct Hmn as [-> | ->] in Hf; exact Hf. }
    pose proof (proj1 (init_NA _ _ _ _ _ _ _ _ _ _ _ E)) as E'.
    destruct (MN_ok_gen S F haswell junk nz M N K p c one (zero S) (sch x) 0 0 0 x c1 Hmn L Hz E') as (ord & c' & H1 & H2 & H3).
    exists ord, c'. split; [auto|split; [auto|]]. intros A B m0 Ho. apply (H3 A B m0); [now apply exact_caller|].
    pose proof Ho as (_ & _ & (bb & L3 & L4) & _). destruct (MN_kc F haswell M N K p c (sch x) 0 0 0 x c1 Hmn L E') as (Hk & _).
    rewrite E2. apply (rim_exact S m0 A B M N K 16 _ bb); auto; try lia; [|now apply exact_caller].
    split; [apply k_tail_nonneg|apply k_tail_le]; auto.
Qed.

(** ... and when it does not fit *)
Lemma gemm_undefined F nz one junk M N K p c A B m0 :
  0 < M -> 0 < N -> 0 < K -> 0 < p -> mr c = 6 -> nr c = 16 -> auto_tiles F M p c 0 0 0 -> ~ layer_fits F c M N K p ->
  exact_ops m0 M N K A B -> always_undefined (gemm S F nz one junk c M N K p) m0.
Proof.
  intros HM HN HK Hp E1 E2 Ha Hf Ho.
  destruct (gemm_legal F M N K p c ltac:(lia) ltac:(lia) ltac:(lia) Hp E1 E2 Ha) as (x & c1 & E & L1 & L2).
  assert (Hf' : ~ match sch x with KMN => m_map c = 0 /\ n_map c = 0
     | _ => K = k_tail K p (k_c x) \/ round_up N 16 <= (k_tail K p (k_c x) + 1) * N end).
  { intros G. apply Hf. intros x' c2 E'. rewrite E in E'. injection E' as <- <-. exact G. }
  unfold gemm. assert (D : sch x = KMN \/ sch x <> KMN) by (destruct (sch x); (left; reflexivity) || (right; discriminate)).
  pose proof Ho as ((ba & La & La') & _ & (bb & Lb & Lb') & _ & _ & Hown).
  destruct D as [Hs|Hs].
  - rewrite Hs in Hf'.
    apply (bad_kernel S F haswell junk nz M N K p c one (zero S) NA 0 0 0 x c1); auto; try lia.
    + now right.
    + apply Hown. exact I.
    + apply Hown. exact I.
    + unfold in_table, km_of, kn_of. rewrite E1, E2.
      change (MR_MIN haswell) with 6. change (NR_MIN haswell) with 16.
      assert (0 < MR_FACT haswell /\ 0 < NR_FACT haswell) by (split; reflexivity).
      destruct (Z_le_dec 0 (m_map c)); [|left; lia]. destruct (Z_le_dec 0 (n_map c)); [|left; lia].
      right. nia.
  - destruct (L1 Hs) as (L & Hmn). rewrite (sgemm_NA _ _ _ _ _ _ _ _ _ _ _ _ _ _ _ _ E).
    pose proof (proj1 (init_NA _ _ _ _ _ _ _ _ _ _ _ E)) as E'.
    destruct (MN_kc F haswell M N K p c (sch x) 0 0 0 x c1 Hmn L E') as (Hk & _).
    assert (G : K <> k_tail K p (k_c x) /\ (k_tail K p (k_c x) + 1) * N < round_up N 16).
    { destruct Hmn as [Em|Em]; rewrite Em in Hf'; lia. }
    pose proof (k_tail_nonneg K p (k_c x) ltac:(lia) Hp Hk). pose proof (k_tail_le K p (k_c x) ltac:(lia) Hp Hk).
    set (t := k_tail K p (k_c x)) in *. set (R := round_up N 16) in *.
    assert (HR : N < R) by nia. assert (HR2 : K * N <= (K - t - 1) * N + (R - 1)) by nia.
    apply (MN_undefined S F haswell junk nz M N K p c one (zero S) (sch x) 0 0 0 x c1 m0
      (K - t - 1) (R - 1)); auto; try (fold t); try (rewrite E2; fold R); try lia.
    intros bi v Eb Hlt. rewrite Lb in Eb. injection Eb as <-. exfalso. lia.
Qed.

(** ** The other statements *)
Definition dom (b0 : buf) (n : Z) : region := fun b i => b = b0 /\ 0 <= i < n.
Lemma dom_dec b0 n b i : {dom b0 n b i} + {~ dom b0 n b i}.
Proof.
  unfold dom. destruct (buf_eqb_spec b b0); [|right; tauto].
  destruct (Z_le_dec 0 i); [|right; lia]. destruct (Z_lt_dec i n); [left; auto|right; lia].
Qed.

Lemma fill_spec b n (f : Z -> T) m bi (Post : unit -> mem T -> Prop) :
  0 <= n -> live m b = Some bi -> n <= blen bi ->
  (forall m', live m' = live m -> (forall i, 0 <= i < n -> dat m' b i = Some (f i)) ->
     (forall b' i, ~ dom b n b' i -> dat m' b' i = dat m b' i) -> Post tt m') ->
  pok (pseq (tfor_ 0 n 1 (fun i => tstore b i (f i)))) m Post.
Proof.
  intros Hn L1 L2 HP.
  apply (pok_seq (dom b n) (fun _ _ => False) _ m (fun m' => live m' = live m /\ forall i, 0 <= i < n -> dat m' b i = Some (f i))).
  - unfold tfor_. eapply (twp_tfor1 _ _ (fun i _ m' => live m' = live m /\ forall j, 0 <= j < i -> dat m' b j = Some (f j))); [lia|split; [auto|lia]| |].
    + intros i [] m' Hi (HL & HD) _ _. eapply twp_store; [split; auto|rewrite HL; exact L1|lia|].
      split; [exact HL|]. intros j Hj. cbn [upd dat]. rewrite buf_eqb_refl. cbn [andb].
      destruct (Z.eqb_spec i j) as [->|]; [auto|apply HD; lia].
    + intros [] m' H _ _. exact H.
  - intros ms m' (_ & HD) _ HL HE HF. apply HP; [auto| |exact HF]. intros i Hi. rewrite HE. auto.
  - apply dom_dec.
Qed.

Lemma place_spec b (t : tensor S) m (Post : unit -> mem T -> Prop) :
  0 <= numel S t -> live m b = None ->
  (forall m', live m' b = Some (BInfo (numel S t) false) -> (forall b', b' <> b -> live m' b' = live m b') ->
     (forall i, 0 <= i < numel S t -> dat m' b i = Some (elems t i)) ->
     (forall b' i, b' <> b -> dat m' b' i = dat m b' i) -> Post tt m') ->
  pok (place S b t) m Post.
Proof.
  intros Hn HL HP. unfold place. apply pok_bind. apply pok_alloc; [auto|auto|].
  eapply fill_spec; [auto|rewrite live_alloc, buf_eqb_refl; reflexivity|cbn; lia|].
  intros m' L1 D1 D2. apply HP.
  - rewrite L1, live_alloc, buf_eqb_refl. auto.
  - intros b' Hb. rewrite L1, live_alloc, buf_eqb_neq; auto.
  - exact D1.
  - intros b' i Hb. rewrite D2 by (intros (E & _); congruence). rewrite dat_alloc, buf_eqb_neq; auto.
Qed.

Lemma reshape_ok sh (t : tensor S) : count sh = numel S t -> reshape S sh t = CRet (Tensor sh (elems t)).
Proof. intros E. unfold reshape. now rewrite E, Z.eqb_refl. Qed.
Lemma size_ok (t : tensor S) d n : nth_error (sizes t) d = Some n -> size S t d = CRet n.
Proof. unfold size. now intros ->. Qed.

Lemma count1 a : count [a] = a. Proof. cbn. lia. Qed.
Lemma count2 a b : count [a; b] = a * b. Proof. cbn. lia. Qed.

(** the objects after A, B, C have been placed, from a memory where only [keep] lives *)
Lemma ops_spec {R} (a b : tensor S) M N K m (A B : Z -> Z -> T) (kk : unit -> prog T R) Post :
  0 <= M -> 0 <= N -> 0 <= K -> numel S a = M * K -> numel S b = K * N ->
  (forall i k, 0 <= i < M -> 0 <= k < K -> elems a (i * K + k) = A i k) ->
  (forall k j, 0 <= k < K -> 0 <= j < N -> elems b (k * N + j) = B k j) ->
  live m BufA = None -> live m BufB = None -> live m BufC = None -> (forall b, own b -> live m b = None) ->
  (forall m', exact_ops m' M N K A B -> live m' BufC = Some (BInfo (M * N) false) ->
     (forall b, b <> BufA -> b <> BufB -> b <> BufC -> live m' b = live m b /\ forall i, dat m' b i = dat m b i) -> pok (kk tt) m' Post) ->
  pok (pbind (place S BufA a) (fun _ => pbind (place S BufB b) (fun _ => pbind (palloc BufC (M * N) false (Some (zero S))) kk))) m Post.
Proof.
  intros HM HN HK Na Nb Ea Eb LA LB LC Lo HP.
  apply pok_bind. apply place_spec; [rewrite Na; nia|auto|]. intros m1 P1 P2 P3 P4.
  apply pok_bind. apply place_spec; [rewrite Nb; nia|rewrite P2; auto; discriminate|]. intros m2 Q1 Q2 Q3 Q4.
  apply pok_bind. apply pok_alloc; [nia|rewrite Q2, P2; auto; discriminate|].
  set (m3 := do_alloc m2 BufC (M * N) false (Some (zero S))).
  assert (R1 : forall b, b <> BufC -> live m3 b = live m2 b) by (intros b' Hb; unfold m3; now rewrite live_alloc, buf_eqb_neq by auto).
  assert (R2 : forall b i, b <> BufC -> dat m3 b i = dat m2 b i) by (intros b' i Hb; unfold m3; now rewrite dat_alloc, buf_eqb_neq by auto).
  assert (R3 : live m3 BufC = Some (BInfo (M * N) false)) by reflexivity.
  clearbody m3. apply HP.
  - split; [|split; [|split; [|split; [|split]]]].
    + eexists. rewrite R1, Q2 by discriminate. split; [exact P1|exact Na].
    + intros i k Hi Hk. rewrite R2, Q4, P3 by (discriminate || rewrite Na; nia). now rewrite Ea.
    + eexists. rewrite R1 by discriminate. split; [exact Q1|exact Nb].
    + intros k j Hk Hj. rewrite R2, Q3 by (discriminate || rewrite Nb; nia). now rewrite Eb.
    + eexists. split; [exact R3|cbn; lia].
    + intros b' Hb. assert (b' <> BufA /\ b' <> BufB /\ b' <> BufC) as (? & ? & ?) by (repeat split; intros ->; exact Hb).
      rewrite R1, Q2, P2; auto.
  - exact R3.
  - intros b' H1 H2 H3. split; [rewrite R1, Q2, P2; auto|]. intros i. rewrite R2, Q4, P4; auto.
Qed.

Lemma bias_spec (b : tensor S) M N (bv : Z -> T) R m bi (Post : unit -> mem T -> Prop) :
  0 <= M -> 0 <= N -> is_vector b N bv -> live m BufC = Some bi -> M * N <= blen bi -> holds m BufC M N R ->
  (forall m', live m' = live m -> holds m' BufC M N (fun i j => add (R i j) (bv j)) -> Post tt m') ->
  pok (add_bias S add BufC M N b) m Post.
Proof.
  intros HM HN (Es & Eb) L1 L2 HR HP. unfold add_bias. rewrite Es, Z.eqb_refl. cbn [orb].
  set (h := fun e => elems b (if N =? 1 then 0 else e mod N)).
  apply (pok_seq (dom BufC (M * N)) (fun _ _ => False) _ m (fun m' => live m' = live m /\
     forall e, 0 <= e < M * N -> dat m' BufC e = Some (add (R (e / N) (e mod N)) (h e)))).
  - unfold tfor_.
    assert (D0 : forall e, 0 <= e < M * N -> dat m BufC e = Some (R (e / N) (e mod N))).
    { intros e He. assert (0 < N) by nia. rewrite <- HR.
      - f_equal. rewrite (Z.div_mod e N) at 1 by lia. lia.
      - split; [apply Z.div_pos; lia|apply Z.div_lt_upper_bound; lia].
      - apply Z.mod_pos_bound; lia. }
    eapply (twp_tfor1 _ _ (fun i _ m' => live m' = live m /\
      (forall e, 0 <= e < i -> dat m' BufC e = Some (add (R (e / N) (e mod N)) (h e))) /\
      (forall e, i <= e < M * N -> dat m' BufC e = dat m BufC e))); [nia|split; [auto|split; [lia|auto]]| |].
    + intros i [] m' Hi (HL & HD & HK) _ _. apply twp_bind.
      eapply twp_load; [right; split; auto|rewrite HL; exact L1|lia|rewrite HK by lia; apply D0; lia|].
      eapply twp_store; [split; auto|rewrite HL; exact L1|lia|].
      split; [exact HL|split]; intros e He; cbn [upd dat]; rewrite buf_eqb_refl; cbn [andb].
      * destruct (Z.eqb_spec i e) as [->|]; [reflexivity|apply HD; lia].
      * destruct (Z.eqb_spec i e) as [->|]; [lia|apply HK; lia].
    + intros [] m' (H1 & H2 & _) _ _. split; [exact H1|exact H2].
  - intros ms m' (_ & HD) _ HL HE HF. apply HP; [auto|]. intros i j Hi Hj. rewrite HE, HD by nia.
    unfold h. replace ((i * N + j) / N) with i by (apply (Z.div_unique _ _ _ j); lia).
    replace ((i * N + j) mod N) with j by (apply (Z.mod_unique _ _ i); lia).
    rewrite <- Eb by lia. destruct (Z.eqb_spec N 1); [|reflexivity]. now replace j with 0 by lia.
  - apply dom_dec.
Qed.

Section Forward.

Variables (F : fpenv) (nz : T -> bool) (one : T) (junk : cntx) (l2 l3 : Z).
Let c := cake_query_cntx_torch junk l2 l3.
Variables (M N K : Z) (X W : tensor S) (x w : Z -> Z -> T).
Hypothesis HM : 0 <= M.
Hypothesis HN : 0 <= N.
Hypothesis HK : 0 <= K.
Hypothesis Hz : nz (zero S) = false.
Hypothesis HX : is_matrix X M K x.
Hypothesis HW : is_matrix W N K w.
Hypothesis Hcall : layer_call F c M N K 10.

Lemma forward_ok : exists ord, orders K ord /\
  forall m0 bias, nothing m0 ->
  match bias with Some b => exists bv, is_vector b N bv | None => True end ->
  always (linear_forward S add F nz one junk l2 l3 X W bias) m0 (fun _ m' =>
    live m' BufC = Some (BInfo (M * N) false) /\ live m' (BufX 5) <> None /\
    match bias with
    | Some b => forall bv, is_vector b N bv -> holds m' BufC M N (fun i j => add (product S x (fun k j => w j k) ord i j) (bv j))
    | None => holds m' BufC M N (product S x (fun k j => w j k) ord)
    end).
Proof.
  destruct HX as (SX & EX), HW as (SW & EW).
  destruct (gemm_ok F nz one junk M N K 10 c HM HN HK ltac:(lia) Hz eq_refl eq_refl Hcall) as (ord & c' & O1 & _ & O3).
  exists ord. split; [exact O1|]. intros m0 bias H0 Hb. apply pok_always. unfold linear_forward.
  apply pok_bind. apply (pok_lift S M); [apply size_ok; now rewrite SX|].
  apply pok_bind. apply (pok_lift S N); [apply size_ok; now rewrite SW|].
  apply pok_bind. apply (pok_lift S K); [apply size_ok; now rewrite SX|].
  apply pok_bind. eapply pok_lift; [apply reshape_ok; unfold numel; rewrite SX, count1, count2; lia|].
  apply pok_bind. eapply pok_lift; [unfold tt_; rewrite SW; reflexivity|].
  apply pok_bind. eapply pok_lift; [apply reshape_ok; unfold numel; cbn [sizes]; rewrite count1, count2; lia|].
  cbn [elems].
  eapply (ops_spec _ _ M N K m0 x (fun k j => w j k)); auto; unfold numel; cbn [sizes elems]; rewrite ?count1; try lia.
  { intros k j Hk Hj. rewrite <- EW by lia. f_equal.
    replace ((k * N + j) mod N) with j by (apply (Z.mod_unique _ _ k); lia).
    replace ((k * N + j) / N) with k by (apply (Z.div_unique _ _ _ j); lia). reflexivity. }
  intros m1 HO LC HF.
  apply pok_bind. apply pok_alloc; [lia|destruct (HF tcbuf) as (-> & _); [discriminate..|apply H0]|].
  apply pok_bind. eapply pok_mono; [apply (O3 x (fun k j => w j k))|].
  { destruct HO as (P1 & P2 & P3 & P4 & P5 & P6).
    split; [|split; [|split; [|split; [|split]]]].
    - exact P1.
    - exact P2.
    - exact P3.
    - exact P4.
    - exact P5.
    - intros b' Hb'. rewrite live_alloc, buf_eqb_neq; [auto|]. intros <-. cbn in Hb'. lia. }
  cbv beta. intros r m2 (-> & G1 & G2 & _).
  assert (LC2 : live m2 BufC = Some (BInfo (M * N) false)) by (rewrite G2; exact LC).
  assert (LT2 : live m2 (BufX 5) <> None) by (rewrite G2, live_alloc; cbn; discriminate).
  destruct bias as [b|].
  - destruct Hb as (bv & Hbv). eapply bias_spec; [exact HM|exact HN|exact Hbv|exact LC2|cbn; lia|exact G1|].
    intros m3 L3 H3. rewrite L3. split; [exact LC2|split; [exact LT2|]]. intros bv' Hbv' i j Hi Hj. rewrite H3 by auto.
    destruct Hbv as (_ & V1), Hbv' as (_ & V2). now rewrite <- V1, <- V2 by auto.
  - apply pok_ret. auto.
Qed.

(** Matrices that do not fit together are refused before anything is computed. *)
Lemma forward_mismatch W' K' m0 bias o : sizes W' = [N; K'] -> N * K' <> N * K ->
  pexec (linear_forward S add F nz one junk l2 l3 X W' bias) m0 o -> o = Exited.
Proof.
  intros SW' Hne. destruct HX as (SX & _). Transparent pbind. unfold linear_forward.
  rewrite (size_ok X 0 M), (size_ok W' 0 N), (size_ok X 1 K) by (rewrite ?SX, ?SW'; reflexivity).
  cbn [lift pbind]. rewrite (reshape_ok [M * K] X) by (unfold numel; rewrite SX, count1, count2; lia).
  cbn [lift pbind]. unfold tt_. rewrite SW'. cbn [lift pbind]. unfold reshape at 1. unfold numel at 1. cbn [sizes].
  rewrite count1, count2. replace (N * K =? K' * N) with false by (symmetry; apply Z.eqb_neq; lia).
  cbn [lift pbind]. Opaque pbind. intros H. inversion H; reflexivity.
Qed.

End Forward.

Lemma rename_spec n (f : Z -> T) m bi (Post : unit -> mem T -> Prop) :
  0 <= n -> live m BufC = Some bi -> n <= blen bi -> (forall i, 0 <= i < n -> dat m BufC i = Some (f i)) ->
  live m BufA <> None -> live m BufB <> None -> live m gibuf = None ->
  (forall m', live m' gibuf = Some (BInfo n false) -> (forall i, 0 <= i < n -> dat m' gibuf i = Some (f i)) ->
     live m' BufA = None -> live m' BufB = None -> live m' BufC = None ->
     (forall b, b <> gibuf -> b <> BufA -> b <> BufB -> b <> BufC -> live m' b = live m b) -> Post tt m') ->
  pok (rename S n) m Post.
Proof.
  intros Hn L1 L2 HD LA LB LG HP. unfold rename. apply pok_bind. apply pok_alloc; [auto|auto|].
  set (m1 := do_alloc m gibuf n false None).
  assert (R1 : forall b, b <> gibuf -> live m1 b = live m b) by (intros b' Hb; unfold m1; now rewrite live_alloc, buf_eqb_neq by auto).
  assert (R2 : forall b i, b <> gibuf -> dat m1 b i = dat m b i) by (intros b' i Hb; unfold m1; now rewrite dat_alloc, buf_eqb_neq by auto).
  assert (R3 : live m1 gibuf = Some (BInfo n false)) by reflexivity.
  clearbody m1. apply pok_bind.
  apply (pok_seq (dom gibuf n) (fun b _ => b = BufC) _ m1 (fun m' => live m' = live m1 /\
     forall e, 0 <= e < n -> dat m' gibuf e = Some (f e))).
  - unfold tfor_.
    eapply (twp_tfor1 _ _ (fun i _ m' => live m' = live m1 /\
      (forall e, 0 <= e < i -> dat m' gibuf e = Some (f e)))); [nia|split; [auto|lia]| |].
    + intros i [] m' Hi (HL & HD') _ HK. apply twp_bind.
      eapply twp_load; [left; auto|rewrite HL, R1 by discriminate; exact L1|lia| |].
      { rewrite HK by (intros (E & _); discriminate). rewrite R2 by discriminate. apply HD. lia. }
      eapply twp_store; [split; auto|rewrite HL; exact R3|cbn; lia|].
      split; [exact HL|]. intros e He; cbn [upd dat]; rewrite buf_eqb_refl; cbn [andb].
      destruct (Z.eqb_spec i e) as [->|]; [reflexivity|apply HD'; lia].
    + intros [] m' (H1 & H2) _ _. split; [exact H1|exact H2].
  - intros ms m2 (_ & HD') _ HL HE HF.
    apply pok_bind. apply pok_free; [rewrite HL, R1, L1; discriminate|].
    apply pok_bind. apply pok_free; [rewrite live_free; cbn [buf_eqb]; rewrite HL, R1 by discriminate; exact LA|].
    apply pok_free; [rewrite !live_free; cbn [buf_eqb]; rewrite HL, R1 by discriminate; exact LB|].
    apply HP.
    + rewrite !live_free. cbn [buf_eqb gibuf]. rewrite HL. exact R3.
    + intros i Hi. rewrite !dat_free. cbn [buf_eqb gibuf]. rewrite HE. apply HD'; auto.
    + rewrite !live_free. reflexivity.
    + rewrite !live_free. reflexivity.
    + rewrite !live_free. reflexivity.
    + intros b H1 H2 H3 H4. rewrite !live_free, !buf_eqb_neq by auto. rewrite HL. auto.
  - apply dom_dec.
Qed.

Section Backward.

Variables (F : fpenv) (nz : T -> bool) (one : T) (junk : cntx) (l2 l3 : Z).
Let c := cake_query_cntx_torch junk l2 l3.
Variables (M N K : Z) (G X W : tensor S) (g x w : Z -> Z -> T).
Hypothesis HM : 0 <= M.
Hypothesis HN : 0 <= N.
Hypothesis HK : 0 <= K.
Hypothesis Hz : nz (zero S) = false.
Hypothesis HG : is_matrix G M K g.
Hypothesis HX : is_matrix X M N x.
Hypothesis HW : is_matrix W K N w.
Hypothesis Hcall1 : layer_call F c M N K 10.
Hypothesis Hcall2 : layer_call F c K N M 10.

Lemma backward_ok : exists ord1 ord2, orders K ord1 /\ orders M ord2 /\
  forall m0 bias, nothing m0 ->
  always (linear_backward S add F nz one junk l2 l3 G X W bias) m0 (fun r m' =>
    holds m' (BufX 6) M N (product S g w ord1) /\
    holds m' BufC K N (product S (fun k i => g i k) x ord2) /\
    match bias with
    | Some _ => exists gb, r = Some gb /\
        is_vector gb K (fun j => total add M (fun i => g ((i * K + j) mod M) ((i * K + j) / M)))
    | None => r = None
    end).
Proof.
  destruct HG as (SG & EG), HX as (SX & EX), HW as (SW & EW).
  destruct (gemm_ok F nz one junk M N K 10 c HM HN HK ltac:(lia) Hz eq_refl eq_refl Hcall1) as (ord1 & c1 & O1 & O2 & O3).
  destruct (gemm_ok F nz one junk K N M 10 c HK HN HM ltac:(lia) Hz eq_refl eq_refl Hcall2) as (ord2 & c2 & P1 & P2 & P3).
  exists ord1, ord2. split; [exact O1|split; [exact P1|]]. intros m0 bias H0. apply pok_always. unfold linear_backward.
  apply pok_bind. apply pok_alloc; [lia|apply H0|].
  set (m1 := do_alloc m0 tcbuf 1 false None).
  assert (R1 : forall b, b <> tcbuf -> live m1 b = None) by (intros b' Hb; unfold m1; rewrite live_alloc, buf_eqb_neq by auto; apply H0).
  clearbody m1.
  apply pok_bind. apply (pok_lift S M); [apply size_ok; now rewrite SG|].
  apply pok_bind. apply (pok_lift S N); [apply size_ok; now rewrite SW|].
  apply pok_bind. apply (pok_lift S K); [apply size_ok; now rewrite SG|].
  apply pok_bind. eapply pok_lift; [apply reshape_ok; unfold numel; rewrite SG, count1, count2; lia|].
  apply pok_bind. eapply pok_lift; [apply reshape_ok; unfold numel; rewrite SW, count1, count2; lia|].
  eapply (ops_spec _ _ M N K m1 g w); auto; unfold numel; cbn [sizes elems]; rewrite ?count1; try lia;
    try (apply R1; discriminate).
  { intros b Hb. apply R1. intros ->. cbn in Hb. lia. }
  intros m2 HO LC HF.
  apply pok_bind. eapply pok_mono; [apply (O3 g w m2 HO)|]. cbv beta.
  intros r m3 (-> & G1 & G2 & _).
  destruct HO as ((ba & A1 & A2) & _ & (bb & B1 & B2) & _ & _ & Ho).
  apply pok_bind. eapply (rename_spec (M * N) (fun e => product S g w ord1 (e / N) (e mod N)) m3).
  { nia. }
  { rewrite G2. exact LC. }
  { cbn. lia. }
  { intros e He. assert (0 < N) by nia. rewrite <- G1.
    - f_equal. rewrite (Z.div_mod e N) at 1 by lia. lia.
    - split; [apply Z.div_pos; lia|apply Z.div_lt_upper_bound; lia].
    - apply Z.mod_pos_bound; lia. }
  { rewrite G2, A1. discriminate. }
  { rewrite G2, B1. discriminate. }
  { rewrite G2. destruct (HF gibuf) as (-> & _); [discriminate..|]. apply R1. discriminate. }
  intros m4 Q1 Q2 Q3 Q4 Q5 Q6.
  apply pok_bind. eapply pok_lift; [apply reshape_ok; unfold numel; cbn [sizes]; rewrite count1, count2; lia|].
  apply pok_bind. eapply pok_lift; [reflexivity|].
  apply pok_bind. eapply pok_lift; [reflexivity|].
  apply pok_bind. apply (pok_lift S M); [apply size_ok; now rewrite SX|].
  apply pok_bind. apply (pok_lift S N); [apply size_ok; now rewrite SX|].
  apply pok_bind. eapply pok_lift; [apply reshape_ok; unfold numel; cbn [sizes]; rewrite count1, count2; lia|].
  apply pok_bind. eapply pok_lift; [apply reshape_ok; unfold numel; rewrite SX, count1, count2; lia|].
  cbn [elems].
  assert (ET : forall e, 0 <= e < K * M -> elems G ((e mod M) * K + e / M) = g (e mod M) (e / M)).
  { intros e He. assert (0 < M) by nia. apply EG; [apply Z.mod_pos_bound; lia|].
    split; [apply Z.div_pos; lia|apply Z.div_lt_upper_bound; lia]. }
  eapply (ops_spec _ _ K N M m4 (fun k i => g i k) x); auto; unfold numel; cbn [sizes elems]; rewrite ?count1; try lia.
  { intros k i Hk Hi. rewrite ET by nia.
    replace ((k * M + i) mod M) with i by (apply (Z.mod_unique _ _ k); lia).
    replace ((k * M + i) / M) with k by (apply (Z.div_unique _ _ _ i); lia). reflexivity. }
  { intros b Hb. rewrite Q6 by (intros ->; cbn in Hb; lia). rewrite G2. apply Ho. exact Hb. }
  intros m5 HO5 LC5 HF5.
  apply pok_bind. replace (gemm S F nz one junk c1 K N M 10) with (gemm S F nz one junk c K N M 10)
    by (symmetry; apply sgemm_same_ctx; exact O2).
  eapply pok_mono; [apply (P3 (fun k i => g i k) x m5 HO5)|]. cbv beta.
  intros r m6 (-> & I1 & I2 & I3).
  apply pok_bind. eapply pok_lift; [apply reshape_ok; unfold numel; cbn [sizes]; rewrite count1, count2; lia|].
  assert (J1 : holds m6 (BufX 6) M N (product S g w ord1)).
  { intros i j Hi Hj. change (BufX 6) with gibuf. destruct (HF5 gibuf) as (Lg & Dg); [discriminate..|].
    rewrite I3, Dg, Q2 by (nia || (intros (E & _); discriminate) || (rewrite Lg, Q1; discriminate)).
    replace ((i * N + j) / N) with i by (apply (Z.div_unique _ _ _ j); lia).
    replace ((i * N + j) mod N) with j by (apply (Z.mod_unique _ _ i); lia). reflexivity. }
  destruct bias as [b|].
  - apply pok_bind. eapply pok_lift; [reflexivity|]. apply pok_ret. split; [exact J1|split; [exact I1|]].
    eexists. split; [reflexivity|]. split; [reflexivity|]. intros j Hj. cbn [elems]. unfold total, zrange.
    generalize (zero S). assert (GI : forall i, In i (zrange 0 M) -> 0 <= i < M) by (intros i Hi; apply in_zrange in Hi; lia).
    unfold zrange in GI. induction (zseq (Z.to_nat M) 0 1) as [|i l IH]; intros acc; cbn [fold_left]; [reflexivity|].
    assert (0 <= i < M) by (apply GI; now left).
    rewrite ET by nia. apply IH. intros; apply GI; now right.
  - apply pok_ret. auto.
Qed.

End Backward.

End Linear.

(** ** The bias *)
Lemma total_eq (S : scalar) add n (f h : Z -> S) : (forall i, 0 <= i < n -> f i = h i) -> total add n f = total add n h.
Proof.
  intros E. unfold total. generalize (zero S).
  assert (GI : forall i, In i (zrange 0 n) -> 0 <= i < n) by (intros i Hi; apply in_zrange in Hi; lia).
  induction (zrange 0 n) as [|i l IH]; intros acc; cbn; auto. rewrite E by (apply GI; now left). apply IH. intros; apply GI; now right.
Qed.

Lemma bias_right (S : scalar) add M K (g : Z -> Z -> S) j : 0 <= j < K -> M = 1 \/ K = 1 ->
  total add M (fun i => g ((i * K + j) mod M) ((i * K + j) / M)) = total add M (fun i => g i j).
Proof.
  intros Hj H. apply total_eq. intros i Hi. destruct H as [->| ->].
  - assert (i = 0) by lia. subst i. now rewrite Z.mod_1_r, Z.div_1_r, Z.mul_0_l, Z.add_0_l.
  - assert (j = 0) by lia. subst j. rewrite Z.mul_1_r, Z.add_0_r, Z.mod_small, Z.div_small by lia. reflexivity.
Qed.

Lemma total_ind n (P : Z -> bool) : 0 <= n ->
  total (S := Witness.Zs) Z.add n (fun i => if P i then 1 else 0) = Z.of_nat (length (filter P (zrange 0 n))).
Proof.
  intros _. unfold total. cbn [zero Witness.Zs].
  assert (G : forall l a, fold_left (fun acc i => acc + (if P i then 1 else 0)) l a = a + Z.of_nat (length (filter P l))).
  { induction l as [|i l IH]; intros a; cbn [fold_left filter]; [cbn; lia|]. rewrite IH. destruct (P i); cbn [length]; lia. }
  apply (G _ 0).
Qed.

(** One nonzero gradient, in row 1 and column 0: it is missing from the gradient of bias 0. *)
Definition one_grad (i j : Z) : Z := if (i =? 1) && (j =? 0) then 1 else 0.

Lemma bias_wrong M K : 2 <= M -> 2 <= K ->
  total (S := Witness.Zs) Z.add M (fun i => one_grad ((i * K + 0) mod M) ((i * K + 0) / M)) = 0 /\
  total (S := Witness.Zs) Z.add M (fun i => one_grad i 0) = 1.
Proof.
  intros HM HK. unfold one_grad. split.
  - etransitivity; [apply (total_ind M (fun i => ((i * K + 0) mod M =? 1) && ((i * K + 0) / M =? 0))); lia|].
    replace (filter _ _) with (@nil Z); [reflexivity|]. symmetry.
    assert (GI : forall i, In i (zrange 0 M) -> 0 <= i < M) by (intros i Hi; apply in_zrange in Hi; lia).
    induction (zrange 0 M) as [|i l IH]; [reflexivity|]. cbn [filter].
    replace (((i * K + 0) mod M =? 1) && ((i * K + 0) / M =? 0)) with false; [apply IH; intros; apply GI; now right|].
    symmetry. apply andb_false_iff. destruct (Z.eqb_spec ((i * K + 0) / M) 0) as [E|]; [|now right]. left. apply Z.eqb_neq.
    intros E1. pose proof (Z.div_mod (i * K + 0) M ltac:(lia)) as D. rewrite E, E1 in D.
    assert (0 <= i) by (apply GI; now left). destruct (Z.eq_dec i 0) as [->|]; [lia|]. nia.
  - etransitivity; [apply (total_ind M (fun i => (i =? 1) && (0 =? 0))); lia|].
    replace M with (2 + (M - 2)) by lia. rewrite zrange_app, filter_app by lia.
    replace (filter _ (zrange (0 + 2) (M - 2))) with (@nil Z); [reflexivity|]. symmetry.
    assert (GI : forall i, In i (zrange (0 + 2) (M - 2)) -> 2 <= i) by (intros i Hi; apply in_zrange in Hi; lia).
    induction (zrange (0 + 2) (M - 2)) as [|i l IH]; [reflexivity|]. cbn [filter].
    replace (i =? 1) with false; [cbn [andb]; apply IH; intros; apply GI; now right|].
    symmetry. apply Z.eqb_neq. specialize (GI i (or_introl eq_refl)). lia.
Qed.
