(** * The two halves of examples/cake_conv.cpp's main. *)

From Coq Require Import ZArith List Bool Lia Permutation.
From Verif Require Import Lang Lang_facts Spec SpecTop SpecSmall SpecConv SpecPack SpecConvMain SpecTouch ModelSizing ModelKernel ModelPack ModelSched ModelTop
     ModelConv ModelConvMain Kernel_facts Trans_facts Mult_facts Alloc_facts Prepack_facts ConvTop_facts ConvOut_facts ConvCol_facts Rename_facts.
Import ListNotations.
Open Scope Z_scope.

(** ** Names *)

Lemma conv_vars_inv b : conv_vars (conv_vars b) = b.
Proof.
  destruct b as [| | |i| |i|i]; try reflexivity.
  unfold conv_vars, swap, varF, varIn, varOut. cbn [buf_eqb].
  repeat (match goal with
          | H : ?x <> i |- context [?x =? i] => rewrite (proj2 (Z.eqb_neq x i) H)
          | |- context [?x =? i] => destruct (Z.eqb_spec x i) as [<-|]; [reflexivity|]
          end; cbn [buf_eqb]).
  reflexivity.
Qed.

Lemma col_vars_inv b : col_vars (col_vars b) = b.
Proof.
  destruct b as [| | |i| |i|i]; try reflexivity.
  unfold col_vars, swap, varIn, srcB. cbn [buf_eqb].
  repeat (match goal with
          | H : ?x <> i |- context [?x =? i] => rewrite (proj2 (Z.eqb_neq x i) H)
          | |- context [?x =? i] => destruct (Z.eqb_spec x i) as [<-|]; [reflexivity|]
          end; cbn [buf_eqb]).
  reflexivity.
Qed.

Section CM.
Variable S : scalar.
Notation T := (elt S).

Definition view (s : buf -> buf) (m : mem T) : mem T := Mem (fun b => live m (s b)) (fun b i => dat m (s b) i).

Lemma pok_view {R} s (P : prog T R) m (Q : R -> mem T -> Prop) : (forall b, s (s b) = b) -> pok P (view s m) Q ->
  pok (ren_prog s P) m (fun r m' => exists m1, Q r m1 /\ forall b, live m' b = live m1 (s b) /\ forall i, dat m' b i = dat m1 (s b) i).
Proof.
  intros Hs H. eapply pok_mono.
  - apply (pok_ren T s) with (m1 := view s m) (Q := Q); [|split; reflexivity|exact H].
    intros a b E. rewrite <- (Hs a), <- (Hs b). now rewrite E.
  - cbv beta. intros r m' (m1 & HQ & HR). exists m1. split; [exact HQ|]. intros b. specialize (HR (s b)). now rewrite Hs in HR.
Qed.

(** ** The comparison *)

Variable far : T -> T -> bool.
Variable all_correct : T.
Variable some_wrong : Z -> Z -> T.

Definition nfar (f g : Z -> T) (n : Z) : Z := Z.of_nat (length (filter (fun i => far (g i) (f i)) (zrange 0 n))).

Lemma nfar_snoc f g n : 0 <= n -> nfar f g (n + 1) = nfar f g n + (if far (g n) (f n) then 1 else 0).
Proof.
  intros Hn. unfold nfar. rewrite zrange_snoc by lia. rewrite filter_app, app_length. cbn [filter].
  rewrite Z.add_0_l. destruct (far (g n) (f n)); cbn [length]; lia.
Qed.

Lemma compare_spec (f g : Z -> T) M N m bo bc bs : 0 <= M * N ->
  live m varOut = Some bo -> live m BufC = Some bc -> live m said = Some bs -> M * N <= blen bo -> M * N <= blen bc -> 1 <= blen bs ->
  (forall i, 0 <= i < M * N -> dat m varOut i = Some (f i)) -> (forall i, 0 <= i < M * N -> dat m BufC i = Some (g i)) ->
  pok (conv_gemm_checker S far all_correct some_wrong (varOut, 0) (BufC, 0) M N) m (fun _ m' =>
    live m' = live m /\ (forall b x, ~ (b = said /\ x = 0) -> dat m' b x = dat m b x) /\
    dat m' said 0 = Some (if nfar f g (M * N) =? 0 then all_correct else some_wrong (nfar f g (M * N)) (M * N - nfar f g (M * N)))).
Proof.
  intros Hn Lo Lc Ls Bo Bc Bs Hf Hg. unfold conv_gemm_checker.
  eapply (pok_seq (fun b x => b = said /\ x = 0) (fun b _ => b = BufC \/ b = varOut) _ m
    (fun m' => dat m' said 0 = Some (if nfar f g (M * N) =? 0 then all_correct else some_wrong (nfar f g (M * N)) (M * N - nfar f g (M * N))))).
  - apply twp_bind.
    eapply (twp_tfor1 _ _ (fun i (wc : Z * Z) m' => m' = m /\ wc = (nfar f g i, i - nfar f g i))); try lia.
    + split; [auto|reflexivity].
    + intros i wc m' Hi (-> & ->) _ _. apply twp_bind. unfold pload. cbn [fst snd]. rewrite Z.add_0_l.
      eapply twp_load; [left; left; reflexivity|exact Lc|lia|apply Hg; lia|]. apply twp_bind.
      eapply twp_load; [left; right; reflexivity|exact Lo|lia|apply Hf; lia|]. apply twp_ret. split; [auto|].
      rewrite nfar_snoc by lia. cbn [fst snd]. destruct (far (g i) (f i)); f_equal; lia.
    + cbv beta. intros wc m' (-> & ->) _ _. cbn [fst snd]. unfold pstore. cbn [fst snd].
      eapply (twp_store _ _ _ _ _ _ _ bs); [split; auto|auto|lia|]. rewrite dat_upd_same. unfold truthy.
      destruct (nfar f g (M * N) =? 0); reflexivity.
  - cbv beta. intros ms m' H1 _ HL HE HF. split; [auto|]. split; [auto|]. now rewrite HE.
  - intros b x. destruct (buf_eqb_spec b said) as [->|]; [|right; tauto].
    destruct (Z.eq_dec x 0); [left; auto|right; tauto].
Qed.

Lemma comparison_ok M N m : 0 <= M * N -> at_least m varOut (M * N) -> at_least m BufC (M * N) -> at_least m said 1 ->
  initialised m varOut (M * N) -> initialised m BufC (M * N) ->
  always (conv_gemm_checker S far all_correct some_wrong (varOut, 0) (BufC, 0) M N) m (fun _ m' =>
    live m' = live m /\ (forall b i, ~ (b = said /\ i = 0) -> dat m' b i = dat m b i) /\
    dat m' said 0 = Some (let wrong := far_cells far m (M * N) in
                          if wrong =? 0 then all_correct else some_wrong wrong (M * N - wrong))).
Proof.
  intros Hn (bo & Lo & Bo) (bc & Lc & Bc) (bs & Ls & Bs) Io Ic. apply pok_always.
  set (f := fun i => match dat m varOut i with Some v => v | None => zero S end).
  set (g := fun i => match dat m BufC i with Some v => v | None => zero S end).
  assert (Hf : forall i, 0 <= i < M * N -> dat m varOut i = Some (f i)).
  { intros i Hi. destruct (Io i Hi) as (v & E). unfold f. now rewrite E. }
  assert (Hg : forall i, 0 <= i < M * N -> dat m BufC i = Some (g i)).
  { intros i Hi. destruct (Ic i Hi) as (v & E). unfold g. now rewrite E. }
  eapply pok_mono; [apply (compare_spec f g M N m bo bc bs); auto|]. cbv beta zeta. intros _ m' (H1 & H2 & H3).
  split; [exact H1|]. split; [exact H2|]. rewrite H3. replace (far_cells far m (M * N)) with (nfar f g (M * N)); [reflexivity|].
  unfold nfar, far_cells. do 2 f_equal. apply filter_ext_in. intros i Hi. apply in_zrange in Hi.
  now rewrite (Hf i), (Hg i) by lia.
Qed.

(** ** Terms *)

Definition term_of (k : Z) : Z * Z * Z := (k / 9, k mod 9 / 3, k mod 3).

Lemma term_at c h w : 0 <= h < 3 -> 0 <= w < 3 -> term_of ((c * 3 + h) * 3 + w) = (c, h, w).
Proof.
  intros Hh Hw. unfold term_of. replace ((c * 3 + h) * 3 + w) with (3 * h + w + c * 9) by lia.
  rewrite Z.div_add, Z.mod_add by lia. replace (3 * h + w + c * 9) with (w + (h + c * 3) * 3) by lia. rewrite Z.mod_add by lia.
  rewrite (Z.div_small (3 * h + w)), (Z.mod_small (3 * h + w)), (Z.mod_small w) by lia.
  rewrite Z.mul_comm, Z.div_add_l, (Z.div_small w) by lia. now rewrite Z.add_0_l, Z.add_0_r.
Qed.

Lemma terms_all n : 0 <= n -> map term_of (zrange 0 (9 * n)) = all_terms n.
Proof.
  intros Hn. pattern n. apply natlike_ind; [reflexivity| |exact Hn].
  clear n Hn. intros n Hn IH. unfold Z.succ.
  replace (9 * (n + 1)) with (9 * n + 9) by ring. rewrite zrange_app by lia. rewrite map_app, IH.
  unfold all_terms at 2. rewrite zrange_snoc by lia. rewrite flat_map_app. fold (all_terms n). f_equal.
  assert (E : zrange (0 + 9 * n) 9 = map (fun q => (n * 3 + fst q) * 3 + snd q)
     [(0,0);(0,1);(0,2);(1,0);(1,1);(1,2);(2,0);(2,1);(2,2)]).
  { unfold zrange. change (Z.to_nat 9) with 9%nat. cbn [zseq map fst snd]. repeat (apply (f_equal2 (@cons Z)); [lia|]). reflexivity. }
  rewrite E. cbn [map fst snd]. rewrite !term_at by lia.
  change (zrange 0 3) with [0; 1; 2]. cbn [flat_map map app]. now rewrite Z.add_0_l.
Qed.

Section Values.
Variables (Fl : Z -> Z -> Z -> Z -> T) (In : Z -> Z -> Z -> T) (W : Z).
Definition rowF (i k : Z) : T := Fl i (k / 9) (k mod 9 / 3) (k mod 3).
Definition colI (k j : Z) : T := In (k / 9) (j / W + k mod 9 / 3) (j mod W + k mod 3).

Lemma dot_conv i j l acc : dot S (rowF i) (fun k => colI k j) l acc = conv_sum S Fl In (map term_of l) i (j / W) (j mod W) acc.
Proof. unfold dot, conv_sum. revert acc. induction l as [|k l IH]; intros acc; [reflexivity|]. cbn [map fold_left]. rewrite IH. reflexivity. Qed.

Lemma conv_sum_perm add mul l l' o y x : sums S add mul -> Permutation l l' ->
  forall acc, conv_sum S Fl In l o y x acc = conv_sum S Fl In l' o y x acc.
Proof.
  intros (H1 & H2 & H3). unfold conv_sum.
  induction 1 as [|k l l' _ IH|k k' l|l l' l'' _ IH1 _ IH2]; intros acc; cbn [fold_left]; auto.
  - destruct k as ((c & h) & w), k' as ((c' & h') & w'). rewrite !H1. f_equal.
    rewrite !H3. f_equal. apply H2.
  - now rewrite IH1.
Qed.
End Values.

(** ** main *)

Section Main.
Variables (rawH : Z -> Z) (rawK : Z -> Z -> Z) (F : fpenv) (ar : arch) (nz : T -> bool) (alpha beta : T)
  (d : conv_shape) (st p : Z) (cx : cntx) (mcu kcu ncu : Z) (Fl : Z -> Z -> Z -> Z -> T) (In : Z -> Z -> Z -> T) (m0 : mem T).
Hypothesis HA : conv_args rawH rawK d p.
Hypothesis HF : conv_fits d.
Hypothesis Hmr : mr cx = 6.
Hypothesis Hnr : nr cx = 16.
Hypothesis HL : legal F ar KMN cx (Cout d) (Hout d * Wout d) (Wf d * Hf d * Cin d) p mcu kcu ncu.
Hypothesis HS : conv_start m0 d Fl In.

Notation M := (Cout d).
Notation N := (Hout d * Wout d).
Notation K := (Wf d * Hf d * Cin d).

Lemma fill m bf bs : live m varF = Some bf -> live m srcA = Some bs -> M * K <= blen bs -> filters_stored m varF M (Cin d) Fl ->
  pok (pseq (tfor_ 0 (Cout d * Cin d * Wf d * Hf d) 1 (fun i => tbind (tload varF i) (fun v => tstore srcA i v)))) m (fun _ m' =>
    live m' = live m /\ (forall b x, b <> srcA -> dat m' b x = dat m b x) /\ holds m' srcA M K (rowF Fl)).
Proof.
  destruct HA as (E1 & E2 & HC & HO & _). rewrite E1, E2. intros L1 L2 HB HFs.
  assert (P0 : 0 < M * Cin d) by nia.
  assert (Cell : forall i k, 0 <= i < M -> 0 <= k < 9 * Cin d -> 0 <= i * (9 * Cin d) + k < blen bf /\ dat m varF (i * (9 * Cin d) + k) = Some (rowF Fl i k)).
  { intros i k Hi Hk. pose proof (Z.div_mod k 9 ltac:(lia)) as D1. pose proof (Z.mod_pos_bound k 9 ltac:(lia)) as B1.
    pose proof (Z.div_mod (k mod 9) 3 ltac:(lia)) as D2. pose proof (Z.mod_pos_bound (k mod 9) 3 ltac:(lia)) as B2.
    assert (E3 : k mod 9 mod 3 = k mod 3) by (symmetry; apply Znumtheory.Zmod_div_mod; [lia|lia|exists 3; lia]). rewrite E3 in *.
    assert (0 <= k / 9 < Cin d) by (split; [apply Z.div_pos; lia|apply Z.div_lt_upper_bound; lia]).
    assert (0 <= k mod 9 / 3 < 3) by (split; [apply Z.div_pos; lia|apply Z.div_lt_upper_bound; lia]).
    destruct (HFs i (k / 9) (k mod 9 / 3) (k mod 3)) as (bi & X1 & X2 & X3); auto.
    replace (((i * Cin d + k / 9) * 3 + k mod 9 / 3) * 3 + k mod 3) with (i * (9 * Cin d) + k) in * by lia.
    rewrite L1 in X1. injection X1 as <-. split; [lia|exact X3]. }
  assert (Cell' : forall j, 0 <= j < M * Cin d * 3 * 3 -> 0 <= j < blen bf /\ exists v, dat m varF j = Some v).
  { intros j Hj. pose proof (Z.div_mod j (9 * Cin d) ltac:(lia)) as D. pose proof (Z.mod_pos_bound j (9 * Cin d) ltac:(lia)) as B.
    assert (0 <= j / (9 * Cin d) < M) by (split; [apply Z.div_pos; lia|apply Z.div_lt_upper_bound; lia]).
    destruct (Cell (j / (9 * Cin d)) (j mod (9 * Cin d))) as (X1 & X2); auto.
    replace (j / (9 * Cin d) * (9 * Cin d) + j mod (9 * Cin d)) with j in * by lia. split; [auto|eauto]. }
  eapply (pok_seq (fun b x => b = srcA) (fun b _ => b = varF) _ m (fun m' => forall j, 0 <= j < M * Cin d * 3 * 3 -> dat m' srcA j = dat m varF j)).
  - unfold tfor_. eapply (twp_tfor1 _ _ (fun i _ m' => forall j, 0 <= j < i -> dat m' srcA j = dat m varF j)).
    + lia.
    + intros; lia.
    + intros i _ m' Hi Hm HLv HD. destruct (Cell' i Hi) as (X1 & v & X2). apply twp_bind.
      eapply twp_load; [left; reflexivity|rewrite HLv; exact L1|lia|rewrite HD by discriminate; exact X2|].
      eapply twp_store; [reflexivity|rewrite HLv; exact L2|nia|]. intros j Hj. cbn [upd dat].
      destruct (buf_eqb_spec srcA srcA); [|congruence]. cbn [andb]. destruct (Z.eqb_spec i j) as [<-|]; [auto|]. apply Hm. lia.
    + cbv beta. intros _ m' H _ _. exact H.
  - cbv beta. intros ms m' H1 _ HLv HE HD. split; [auto|]. split; [intros b x Hb; apply HD; exact Hb|].
    intros i k Hi Hk. rewrite HE. replace (3 * 3 * Cin d) with (9 * Cin d) in * by lia. rewrite H1 by nia. apply Cell; auto.
  - intros b x. destruct (buf_eqb_spec b srcA); [left|right]; auto.
Qed.

Lemma main_ok : exists ts1 ts2, Permutation ts1 (all_terms (Cin d)) /\ (forall o y x, Permutation (ts2 o y x) (all_terms (Cin d))) /\
  always (conv_main S far all_correct some_wrong rawH rawK F ar nz alpha beta d st p cx mcu kcu ncu) m0 (fun _ m' =>
    (forall o y x, 0 <= o < M -> 0 <= y < Hout d -> 0 <= x < Wout d ->
       dat m' varOut ((o * Hout d + y) * Wout d + x) = Some (if covered d x then conv_sum S Fl In ts1 o y x (zero S) else zero S) /\
       dat m' BufC ((o * Hout d + y) * Wout d + x) = Some (conv_sum S Fl In (ts2 o y x) o y x (zero S))) /\
    (forall b i, b = varF \/ b = varIn -> live m' b = live m0 b /\ dat m' b i = dat m0 b i) /\
    dat m' said 0 = Some (if far_cells far m' (M * N) =? 0 then all_correct
                          else some_wrong (far_cells far m' (M * N)) (M * N - far_cells far m' (M * N)))).
Proof.
  destruct HA as (E3 & E3' & HCi & HCo & HWo & HHo & Hp & R1 & R2). destruct HF as (Fh & Fw & D6).
  destruct HS as (SF & SI & (bs & Ls & Bs) & SN).
  pose proof HL as (_ & _ & HM & HN & HK & _).
  destruct (conv_ok_order S rawH rawK d p HA D6) as (ts1 & P1 & HC).
  destruct (prepacked_ok S F ar cx nz M N K p cx alpha beta KMN mcu kcu ncu 0 HL ltac:(congruence) ltac:(left; reflexivity))
    as (ord & c' & HO & _ & _ & HP).
  assert (EK : K = 9 * Cin d) by (rewrite E3, E3'; ring).
  exists ts1, (fun o y x => map term_of (ord o (y * Wout d + x))). split; [exact P1|]. split.
  { intros o y x. rewrite <- terms_all by lia. apply Permutation_map. rewrite <- EK. apply HO. }
  apply pok_always. unfold conv_main. cbv zeta.
  destruct (SF 0 0 0 0 ltac:(lia) ltac:(lia) ltac:(lia) ltac:(lia)) as (bf & LF & _).
  (* F1 *)
  apply pok_bind. apply pok_alloc; [rewrite E3, E3'; nia|apply SN; discriminate|].
  set (m1 := do_alloc m0 srcA (Wf d * Hf d * Cin d * M) false None).
  assert (L1 : forall b, b <> srcA -> live m1 b = live m0 b).
  { intros b Hb. unfold m1, do_alloc. cbn [live]. destruct (buf_eqb_spec srcA b); congruence. }
  assert (D1 : forall b i, b <> srcA -> dat m1 b i = dat m0 b i).
  { intros b i Hb. unfold m1, do_alloc. cbn [dat]. destruct (buf_eqb_spec srcA b); congruence. }
  assert (L1' : live m1 srcA = Some (BInfo (Wf d * Hf d * Cin d * M) false)) by reflexivity.
  apply pok_bind. eapply pok_mono.
  { apply (fill m1 bf (BInfo (Wf d * Hf d * Cin d * M) false)); [rewrite L1 by discriminate; exact LF|exact L1'|cbn [blen]; lia|].
    intros o c h w O1 O2 O3 O4. destruct (SF o c h w O1 O2 O3 O4) as (bi & X1 & X2 & X3). exists bi. rewrite L1, D1 by discriminate. auto. }
  cbv beta. intros _ m2 (L2 & D2 & HA2).
  (* Out *)
  apply pok_bind. apply pok_alloc; [nia|rewrite L2, L1 by discriminate; apply SN; discriminate|].
  set (m3 := do_alloc m2 varOut (N * M) false (Some (zero S))).
  assert (L3 : forall b, b <> varOut -> live m3 b = live m2 b).
  { intros b Hb. unfold m3, do_alloc. cbn [live]. destruct (buf_eqb_spec varOut b); congruence. }
  assert (D3 : forall b i, b <> varOut -> dat m3 b i = dat m2 b i).
  { intros b i Hb. unfold m3, do_alloc. cbn [dat]. destruct (buf_eqb_spec varOut b); congruence. }
  assert (L3' : live m3 varOut = Some (BInfo (N * M) false)) by reflexivity.
  assert (D3' : forall i, dat m3 varOut i = Some (zero S)) by reflexivity.
  (* the convolution *)
  assert (Cin' : forall o y x, 0 <= o < M -> 0 <= y < Hout d -> 0 <= x < Wout d ->
    (o * Hout d + y) * Wout d + x = o * N + (y * Wout d + x) /\ 0 <= y * Wout d + x < N /\ 0 <= o * N + (y * Wout d + x) < M * N).
  { intros o y x O1 O2 O3. assert (0 <= y * Wout d + x < N) by nia. split; [ring|]. split; [lia|nia]. }
  apply pok_bind. eapply pok_mono.
  { rewrite Hmr, Hnr. eapply pok_view; [exact conv_vars_inv|]. apply always_pok.
    apply HC with (F := Fl) (In := In) (Out := fun _ _ _ => zero S); auto.
    - intros o c h w O1 O2 O3 O4. destruct (SF o c h w O1 O2 O3 O4) as (bi & X1 & X2 & X3). exists bi. unfold view. cbn [live dat].
      change (conv_vars BufA) with varF. rewrite L3, L2, L1, D3, D2, D1 by discriminate. auto.
    - intros c y x O1 O2 O3. destruct (SI c y x O1 O2 O3) as (bi & X1 & X2 & X3). exists bi. unfold view. cbn [live dat].
      change (conv_vars BufB) with varIn. rewrite L3, L2, L1, D3, D2, D1 by discriminate. auto.
    - intros o y x O1 O2 O3. exists (BInfo (N * M) false). unfold view. cbn [live dat]. change (conv_vars BufC) with varOut.
      split; [exact L3'|]. split; [|apply D3']. cbn [blen]. destruct (Cin' o y x O1 O2 O3) as (-> & _ & B). lia.
    - unfold view. cbn [live]. change (conv_vars (BufAp 0)) with (BufAp 0). rewrite L3, L2, L1 by discriminate. apply SN; discriminate. }
  cbv beta. intros _ m4 (v4 & (V1 & V2 & V3) & VE).
  assert (L4 : forall b, live m4 b = live m3 b).
  { intros b. rewrite (proj1 (VE b)), V1. unfold view. cbn [live]. now rewrite conv_vars_inv. }
  assert (D4 : forall b i, b <> BufAp 0 -> b <> varOut -> dat m4 b i = dat m3 b i).
  { intros b i N1 N2. rewrite (proj2 (VE b) i), V3.
    - unfold view. cbn [dat]. now rewrite conv_vars_inv.
    - intros X. apply N1. rewrite <- (conv_vars_inv b), X. reflexivity.
    - intros (X & _). apply N2. rewrite <- (conv_vars_inv b), X. reflexivity. }
  assert (O4 : forall o y x, 0 <= o < M -> 0 <= y < Hout d -> 0 <= x < Wout d ->
    dat m4 varOut ((o * Hout d + y) * Wout d + x) = Some (if covered d x then conv_sum S Fl In ts1 o y x (zero S) else zero S)).
  { intros o y x O1 O2 O3. rewrite (proj2 (VE varOut) _). change (conv_vars varOut) with BufC. unfold covered.
    destruct (Z.ltb_spec x (Wout d / 16 * 16)) as [Hx|Hx]; [apply V2; auto; lia|].
    rewrite V3; [apply D3'|discriminate|]. intros (_ & o' & y' & x' & _ & _ & G3 & G).
    assert (Wout d / 16 * 16 <= Wout d) by (rewrite Z.mul_comm; apply Z.mul_div_le; lia).
    destruct (Z.div_mod_unique (Wout d) (o * Hout d + y) (o' * Hout d + y') x x') as (_ & Ex); lia. }
  clear V1 V2 V3 VE v4.
  (* im_2_col *)
  apply pok_bind. eapply pok_mono.
  { eapply pok_view; [exact col_vars_inv|]. apply always_pok. apply (im_2_col_ok S d In); try lia.
    - intros c y x O1 O2 O3. destruct (SI c y x O1 O2 O3) as (bi & X1 & X2 & X3). exists bi. unfold view. cbn [live dat].
      change (col_vars BufB) with varIn. rewrite L4, D4, L3, L2, L1, D3, D2, D1 by discriminate. auto.
    - unfold view. cbn [live]. change (col_vars (BufX 0)) with srcB. rewrite L4, L3, L2, L1 by discriminate. apply SN; discriminate.
    - unfold view. cbn [live]. change (col_vars (BufX 1)) with (BufX 1). rewrite L4, L3, L2, L1 by discriminate. apply SN; discriminate. }
  cbv beta. intros _ m5 (v5 & (V1 & (b5 & V2 & V2') & V3 & V4) & VE).
  assert (L5 : forall b, b <> srcB -> live m5 b = live m4 b).
  { intros b Hb. rewrite (proj1 (VE b)), V1; [unfold view; cbn [live]; now rewrite col_vars_inv|].
    intros X. apply Hb. rewrite <- (col_vars_inv b), X. reflexivity. }
  assert (D5 : forall b i, b <> srcB -> b <> BufX 1 -> dat m5 b i = dat m4 b i).
  { intros b i N1 N2. rewrite (proj2 (VE b) i), V4; [unfold view; cbn [dat]; now rewrite col_vars_inv| |].
    - intros X. apply N1. rewrite <- (col_vars_inv b), X. reflexivity.
    - intros X. apply N2. rewrite <- (col_vars_inv b), X. reflexivity. }
  assert (L5' : live m5 srcB = Some b5) by (rewrite (proj1 (VE srcB)); exact V2).
  assert (O5 : holds m5 srcB K N (colI In (Wout d))).
  { intros k j Hk Hj. rewrite (proj2 (VE srcB) _). change (col_vars srcB) with (BufX 0).
    rewrite EK in Hk. pose proof (Z.div_mod k 9 ltac:(lia)) as Q1. pose proof (Z.mod_pos_bound k 9 ltac:(lia)) as B1.
    pose proof (Z.div_mod (k mod 9) 3 ltac:(lia)) as Q2. pose proof (Z.mod_pos_bound (k mod 9) 3 ltac:(lia)) as B2.
    assert (Q3 : k mod 9 mod 3 = k mod 3) by (symmetry; apply Znumtheory.Zmod_div_mod; [lia|lia|exists 3; lia]). rewrite Q3 in *.
    assert (0 <= k / 9 < Cin d) by (split; [apply Z.div_pos; lia|apply Z.div_lt_upper_bound; lia]).
    assert (0 <= k mod 9 / 3 < 3) by (split; [apply Z.div_pos; lia|apply Z.div_lt_upper_bound; lia]).
    pose proof (Z.div_mod j (Wout d) ltac:(lia)) as Q4. pose proof (Z.mod_pos_bound j (Wout d) ltac:(lia)) as B4.
    assert (0 <= j / Wout d < Hout d) by (split; [apply Z.div_pos; lia|apply Z.div_lt_upper_bound; lia]).
    unfold colI. rewrite <- V3; try lia. f_equal. rewrite E3, E3'. f_equal; [f_equal|]; lia. }
  clear V1 V2 V3 V4 VE v5.
  (* C *)
  apply pok_bind. apply pok_alloc; [nia|rewrite L5, L4, L3, L2, L1 by discriminate; apply SN; discriminate|].
  set (m6 := do_alloc m5 BufC (M * N) false (Some (zero S))).
  assert (L6 : forall b, b <> BufC -> live m6 b = live m5 b).
  { intros b Hb. unfold m6, do_alloc. cbn [live]. destruct (buf_eqb_spec BufC b); congruence. }
  assert (D6' : forall b i, b <> BufC -> dat m6 b i = dat m5 b i).
  { intros b i Hb. unfold m6, do_alloc. cbn [dat]. destruct (buf_eqb_spec BufC b); congruence. }
  assert (L6' : live m6 BufC = Some (BInfo (M * N) false)) by reflexivity.
  (* the multiplication *)
  apply pok_bind. eapply pok_mono.
  { apply always_pok. apply HP with (A := rowF Fl) (B := colI In (Wout d)); [|congruence].
    unfold prepacking_caller. cbv zeta. split; [|split; [split|split; [|split; [split|split]]]].
    - rewrite L6, L5, L4, L3, L2, L1 by discriminate. apply SN; discriminate.
    - exists (BInfo (Wf d * Hf d * Cin d * M) false). rewrite L6, L5, L4, L3, L2 by discriminate. split; [exact L1'|cbn [blen]; lia].
    - intros i j Hi Hj. rewrite D6', D5, D4, D3 by discriminate. now apply HA2.
    - rewrite L6, L5, L4, L3, L2, L1 by discriminate. apply SN; discriminate.
    - exists b5. rewrite L6 by discriminate. split; [exact L5'|]. rewrite V2', E3, E3'.
      assert (N <= Win d * Hin d) by nia. nia.
    - intros i j Hi Hj. rewrite D6' by discriminate. now apply O5.
    - eexists; split; [exact L6'|cbn [blen]; lia].
    - intros b Hb N1 N2. destruct (buf_eqb_spec b BufC) as [->|Nc]; [destruct Hb|].
      assert (b <> varOut) by (intros ->; cbn in Hb; lia).
      rewrite L6, L5, L4, L3, L2, L1 by auto. apply SN; intros ->; cbn in Hb; lia. }
  cbv beta. intros _ m7 (_ & O7 & K7).
  assert (L7 : forall b, live m6 b <> None -> live m7 b = live m6 b) by (intros b Hb; apply K7; exact Hb).
  assert (Lo : live m6 varOut = Some (BInfo (N * M) false)) by (rewrite L6, L5, L4 by discriminate; exact L3').
  assert (Lsd : live m6 said = Some bs) by (rewrite L6, L5, L4, L3, L2, L1 by discriminate; exact Ls).
  assert (Do : forall i, dat m7 varOut i = dat m4 varOut i).
  { intros i. rewrite (proj2 (K7 varOut ltac:(rewrite Lo; discriminate))) by (intros (X & _); discriminate X).
    now rewrite D6', D5 by discriminate. }
  assert (Fo : forall o y x, 0 <= o < M -> 0 <= y < Hout d -> 0 <= x < Wout d ->
    dat m7 varOut ((o * Hout d + y) * Wout d + x) = Some (if covered d x then conv_sum S Fl In ts1 o y x (zero S) else zero S) /\
    dat m7 BufC ((o * Hout d + y) * Wout d + x) = Some (conv_sum S Fl In (map term_of (ord o (y * Wout d + x))) o y x (zero S))).
  { intros o y x O1 O2 O3. split; [rewrite Do; now apply O4|]. destruct (Cin' o y x O1 O2 O3) as (-> & B & _).
    rewrite O7 by auto. unfold product. rewrite dot_conv. do 2 f_equal.
    - now rewrite Z.div_add_l, Z.div_small, Z.add_0_r by lia.
    - rewrite Z.add_comm, Z.mod_add, Z.mod_small by lia. reflexivity. }
  set (f := fun i => match dat m7 varOut i with Some v => v | None => zero S end).
  set (g := fun i => match dat m7 BufC i with Some v => v | None => zero S end).
  assert (Full : forall i, 0 <= i < M * N -> dat m7 varOut i = Some (f i) /\ dat m7 BufC i = Some (g i)).
  { intros i Hi. pose proof (Z.div_mod i N ltac:(lia)) as Q1. pose proof (Z.mod_pos_bound i N ltac:(lia)) as B1.
    pose proof (Z.div_mod (i mod N) (Wout d) ltac:(lia)) as Q2. pose proof (Z.mod_pos_bound (i mod N) (Wout d) ltac:(lia)) as B2.
    assert (X1 : 0 <= i / N < M) by (split; [apply Z.div_pos; lia|apply Z.div_lt_upper_bound; lia]).
    assert (X2 : 0 <= i mod N / Wout d < Hout d) by (split; [apply Z.div_pos; lia|apply Z.div_lt_upper_bound; lia]).
    destruct (Fo (i / N) (i mod N / Wout d) (i mod N mod Wout d) X1 X2 B2) as (Y1 & Y2).
    destruct (Cin' _ _ _ X1 X2 B2) as (EQ & _). rewrite EQ in Y1, Y2.
    replace (i / N * N + (i mod N / Wout d * Wout d + i mod N mod Wout d)) with i in * by lia.
    unfold f, g. rewrite Y1, Y2. auto. }
  eapply pok_mono.
  { eapply (compare_spec f g M N m7 _ _ bs).
    - nia.
    - rewrite L7; [exact Lo|rewrite Lo; discriminate].
    - rewrite L7; [exact L6'|rewrite L6'; discriminate].
    - rewrite L7; [exact Lsd|rewrite Lsd; discriminate].
    - cbn [blen]. lia.
    - cbn [blen]. lia.
    - lia.
    - intros i Hi. apply Full, Hi.
    - intros i Hi. apply Full, Hi. }
  cbv beta. intros _ m8 (L8 & D8 & S8).
  assert (EC : forall b i, b <> said -> dat m8 b i = dat m7 b i) by (intros b i Hb; apply D8; tauto).
  split; [intros o y x O1 O2 O3; rewrite !EC by discriminate; now apply Fo|]. split.
  - intros b i Hb. assert (NN : b <> said /\ b <> BufC /\ b <> srcB /\ b <> BufX 1 /\ b <> BufAp 0 /\ b <> varOut /\ b <> srcA)
      by (destruct Hb as [-> | ->]; repeat split; discriminate). destruct NN as (N1 & N2 & N3 & N4 & N5 & N6 & N7).
    assert (LL : live m6 b = live m0 b) by (rewrite L6, L5, L4, L3, L2, L1 by auto; reflexivity).
    assert (LN : live m6 b <> None).
    { rewrite LL. destruct Hb as [-> | ->]; [rewrite LF; discriminate|].
      destruct (SI 0 0 0 ltac:(lia) ltac:(nia) ltac:(lia)) as (bi & X & _). rewrite X; discriminate. }
    split; [rewrite L8, (L7 b LN); exact LL|]. rewrite EC by auto. rewrite (proj2 (K7 b LN)) by tauto.
    now rewrite D6', D5, D4, D3, D2, D1 by auto.
  - rewrite S8. replace (far_cells far m8 (M * N)) with (nfar f g (M * N)); [reflexivity|].
    unfold nfar, far_cells. do 2 f_equal. apply filter_ext_in. intros i Hi. apply in_zrange in Hi.
    destruct (Full i ltac:(lia)) as (Y1 & Y2). rewrite !EC by discriminate. now rewrite Y1, Y2.
Qed.

Lemma filter_none {A} (f : A -> bool) l : (forall a, List.In a l -> f a = false) -> filter f l = [].
Proof. induction l as [|a l IH]; intros H; [reflexivity|]. cbn [filter]. rewrite H by now left. apply IH. intros b Hb. apply H. now right. Qed.

Lemma main_exact : (16 | Wout d) -> forall add mul, sums S add mul -> (forall a, far a a = false) ->
  always (conv_main S far all_correct some_wrong rawH rawK F ar nz alpha beta d st p cx mcu kcu ncu) m0 (fun _ m' =>
    (forall o y x, 0 <= o < M -> 0 <= y < Hout d -> 0 <= x < Wout d ->
       dat m' varOut ((o * Hout d + y) * Wout d + x) = Some (conv_sum S Fl In (all_terms (Cin d)) o y x (zero S)) /\
       dat m' BufC ((o * Hout d + y) * Wout d + x) = Some (conv_sum S Fl In (all_terms (Cin d)) o y x (zero S))) /\
    dat m' said 0 = Some all_correct).
Proof.
  intros (q16 & D16) add mul HX Hfar. destruct main_ok as (ts1 & ts2 & P1 & P2 & H). eapply always_mono; [exact H|]. cbv beta.
  intros _ m' (HV & _ & HB).
  assert (HV' : forall o y x, 0 <= o < M -> 0 <= y < Hout d -> 0 <= x < Wout d ->
       dat m' varOut ((o * Hout d + y) * Wout d + x) = Some (conv_sum S Fl In (all_terms (Cin d)) o y x (zero S)) /\
       dat m' BufC ((o * Hout d + y) * Wout d + x) = Some (conv_sum S Fl In (all_terms (Cin d)) o y x (zero S))).
  { intros o y x O1 O2 O3. destruct (HV o y x O1 O2 O3) as (-> & ->).
    replace (covered d x) with true by (symmetry; unfold covered; rewrite D16, Z.div_mul, <- D16 by lia; apply Z.ltb_lt; lia).
    rewrite (conv_sum_perm Fl In add mul ts1 _ o y x HX P1), (conv_sum_perm Fl In add mul (ts2 o y x) _ o y x HX (P2 o y x)). auto. }
  split; [exact HV'|]. rewrite HB. replace (far_cells far m' (M * N)) with 0; [reflexivity|].
  unfold far_cells. rewrite (filter_none _ (zrange 0 (M * N))); [reflexivity|].
  intros i Hi. apply in_zrange in Hi. destruct HA as (_ & _ & HCi & HCo & HWo & HHo & _).
  pose proof (Z.div_mod i N ltac:(nia)) as Q1. pose proof (Z.mod_pos_bound i N ltac:(nia)) as B1.
  pose proof (Z.div_mod (i mod N) (Wout d) ltac:(lia)) as Q2. pose proof (Z.mod_pos_bound (i mod N) (Wout d) ltac:(lia)) as B2.
  assert (X1 : 0 <= i / N < M) by (split; [apply Z.div_pos; nia|apply Z.div_lt_upper_bound; nia]).
  assert (X2 : 0 <= i mod N / Wout d < Hout d) by (split; [apply Z.div_pos; nia|apply Z.div_lt_upper_bound; nia]).
  destruct (HV' _ _ _ X1 X2 B2) as (Y1 & Y2).
  replace ((i / N * Hout d + i mod N / Wout d) * Wout d + i mod N mod Wout d) with i in * by lia.
  now rewrite Y1, Y2.
Qed.
End Main.

(** ** Too few rows of input *)

Lemma au_after {R R'} (P : prog T R) (f : R -> prog T R') m : pok P m (fun r m' => always_undefined (f r) m') -> always_undefined (pbind P f) m.
Proof.
  Transparent pok. intros ((o & Ho) & H). Opaque pok. split.
  - destruct (H o Ho) as (r & m' & -> & (U & _)). apply pexec_bind. left; eauto.
  - intros o' Ho'. apply pexec_bind in Ho' as [(r & m' & H1 & H2)|[(-> & H1)|(-> & H1)]]; [|reflexivity|].
    + destruct (H _ H1) as (r1 & m1 & E & (_ & U)). injection E as -> ->. now apply U.
    + destruct (H _ H1) as (? & ? & E & _). discriminate E.
Qed.

Lemma au_first {R R'} (P : prog T R) (f : R -> prog T R') m : always_undefined P m -> always_undefined (pbind P f) m.
Proof.
  intros (U & H). split; [apply pexec_bind; auto|].
  intros o Ho. apply pexec_bind in Ho as [(r & m' & H1 & _)|[(-> & _)|(-> & H1)]]; [|reflexivity|]; apply H in H1; discriminate H1.
Qed.

Lemma au_view {R} s (P : prog T R) m : (forall b, s (s b) = b) -> always_undefined P (view s m) -> always_undefined (ren_prog s P) m.
Proof.
  intros Hs (_ & U).
  assert (A : forall o, pexec (ren_prog s P) m o -> o = Undef).
  { intros o Ho. destruct (ren_exec T s) with (P := P) (m1 := view s m) (m := m) (o := o) as (o1 & H1 & H2); auto.
    - intros a b E. rewrite <- (Hs a), <- (Hs b). now rewrite E.
    - split; reflexivity.
    - apply U in H1. subst o1. exact H2. }
  split; [|exact A]. destruct (some_exec (ren_prog s P) m) as (o & Ho). now rewrite <- (A o Ho).
Qed.

Lemma main_rows rawH rawK F ar nz alpha beta d st p cx mcu kcu ncu Fl In m0 bi :
  conv_args rawH rawK d p -> 16 <= Wout d -> 0 < Hout d -> 0 <= Hin d < Hout d + 2 -> 0 <= Win d ->
  mr cx = 6 -> nr cx = 16 -> conv_start m0 d Fl In -> live m0 varIn = Some bi -> blen bi = Cin d * Hin d * Win d ->
  always_undefined (conv_main S far all_correct some_wrong rawH rawK F ar nz alpha beta d st p cx mcu kcu ncu) m0.
Proof.
  intros HA HW HH HR HWi Hmr Hnr (SF & SI & _ & SN) LI BI. unfold conv_main. cbv zeta.
  pose proof HA as (E3 & E3' & HCi & HCo & HWo & HHo & Hp & R1 & R2).
  destruct (SF 0 0 0 0 ltac:(lia) ltac:(lia) ltac:(lia) ltac:(lia)) as (bf & LF & _).
  apply au_after. apply pok_alloc; [rewrite E3, E3'; nia|apply SN; discriminate|].
  set (m1 := do_alloc m0 srcA (Wf d * Hf d * Cin d * Cout d) false None).
  assert (L1 : forall b, b <> srcA -> live m1 b = live m0 b).
  { intros b Hb. unfold m1, do_alloc. cbn [live]. destruct (buf_eqb_spec srcA b); congruence. }
  assert (D1 : forall b i, b <> srcA -> dat m1 b i = dat m0 b i).
  { intros b i Hb. unfold m1, do_alloc. cbn [dat]. destruct (buf_eqb_spec srcA b); congruence. }
  apply au_after. eapply pok_mono.
  { eapply (fill rawH rawK d p Fl HA m1 bf (BInfo (Wf d * Hf d * Cin d * Cout d) false)); [rewrite L1 by discriminate; exact LF|reflexivity|cbn [blen]; lia|].
    intros o c h w O1 O2 O3 O4. destruct (SF o c h w O1 O2 O3 O4) as (bj & X1 & X2 & X3). exists bj. rewrite L1, D1 by discriminate. auto. }
  cbv beta. intros _ m2 (L2 & _).
  apply au_after. apply pok_alloc; [nia|rewrite L2, L1 by discriminate; apply SN; discriminate|].
  apply au_first. apply au_view; [exact conv_vars_inv|]. rewrite Hmr, Hnr.
  apply (rows_out S) with (bi := bi); try lia.
  - repeat split; auto; lia.
  - unfold view, do_alloc. cbn [live]. change (conv_vars BufB) with varIn. cbn [buf_eqb varOut varIn]. rewrite L2, L1 by discriminate. exact LI.
Qed.
Lemma main_channels rawH rawK F ar nz alpha beta d st p cx mcu kcu ncu Fl In m0 :
  conv_args rawH rawK d p -> 16 <= Wout d -> 0 < Hout d -> ~ (6 | Cout d) ->
  mr cx = 6 -> nr cx = 16 -> conv_start m0 d Fl In ->
  always_undefined (conv_main S far all_correct some_wrong rawH rawK F ar nz alpha beta d st p cx mcu kcu ncu) m0.
Proof.
  intros HA HW HH H6 Hmr Hnr (SF & SI & _ & SN). unfold conv_main. cbv zeta.
  pose proof HA as (E3 & E3' & HCi & HCo & HWo & HHo & Hp & R1 & R2).
  destruct (SF 0 0 0 0 ltac:(lia) ltac:(lia) ltac:(lia) ltac:(lia)) as (bf & LF & _).
  apply au_after. apply pok_alloc; [rewrite E3, E3'; nia|apply SN; discriminate|].
  set (m1 := do_alloc m0 srcA (Wf d * Hf d * Cin d * Cout d) false None).
  assert (L1 : forall b, b <> srcA -> live m1 b = live m0 b).
  { intros b Hb. unfold m1, do_alloc. cbn [live]. destruct (buf_eqb_spec srcA b); congruence. }
  assert (D1 : forall b i, b <> srcA -> dat m1 b i = dat m0 b i).
  { intros b i Hb. unfold m1, do_alloc. cbn [dat]. destruct (buf_eqb_spec srcA b); congruence. }
  apply au_after. eapply pok_mono.
  { eapply (fill rawH rawK d p Fl HA m1 bf (BInfo (Wf d * Hf d * Cin d * Cout d) false)); [rewrite L1 by discriminate; exact LF|reflexivity|cbn [blen]; lia|].
    intros o c h w O1 O2 O3 O4. destruct (SF o c h w O1 O2 O3 O4) as (bj & X1 & X2 & X3). exists bj. rewrite L1, D1 by discriminate. auto. }
  cbv beta. intros _ m2 (L2 & _).
  apply au_after. apply pok_alloc; [nia|rewrite L2, L1 by discriminate; apply SN; discriminate|].
  apply au_first. apply au_view; [exact conv_vars_inv|]. rewrite Hmr, Hnr.
  apply (channels_out S) with (bi := BInfo (Hout d * Wout d * Cout d) false); auto.
  - repeat split; auto; lia.
  - cbn [blen]. ring.
Qed.
End CM.
