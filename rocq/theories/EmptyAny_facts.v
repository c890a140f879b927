(** * Calls of the multiplication functions with an empty dimension; tests of any of them. *)

From Coq Require Import ZArith Reals List Bool Lia Lra Permutation.
From Flocq Require Import Core BinarySingleNaN.
From Verif Require Import Lang Lang_facts Spec SpecTop SpecOnline SpecSingle SpecTouch SpecAny SpecTests ModelSizing ModelIEEE ModelSingle ModelSched ModelTop ModelUtil
     ModelTests Exec_facts Misc_facts Mult_facts Loop_facts Sizing_facts Online_facts Grid_call_facts Grid2_facts Top2d_facts Small2d_facts Util_facts Single_facts SingleTop_facts
     AnyCall_facts Tests_facts Alloc_facts CallAll_facts.
Import ListNotations.
Open Scope Z_scope.

Section Empty.
Variables (S : scalar) (F : fpenv) (ar : arch) (q : cntx) (nz : elt S -> bool) (M N K : Z).

Lemma any_empty_MN c x A B m0 : allowed S F ar nz M N K c x -> caller m0 M N K A B -> room S M N K m0 c x -> M = 0 \/ N = 0 ->
  always (run S F ar q nz M N K c x) m0
    (fun _ m' => (forall b, live m' b = live m0 b) /\ forall b i, live m0 b <> None -> dat m' b i = dat m0 b i).
Proof.
  intros Hx Hc Hr Hz. destruct (product_of S F ar q nz M N K c x Hx) as (ord & _ & G).
  eapply always_mono; [apply (G c A B m0); auto; repeat split|]. cbv beta. intros r m' (_ & _ & (L1 & D)). split; [auto|].
  intros b i Hb. apply D; auto. intros (_ & Hi). destruct Hz; subst; lia.
Qed.

Lemma any_empty_K c x A B m0 : allowed S F ar nz M N K c x -> caller m0 M N K A B -> room S M N K m0 c x -> K = 0 ->
  always (run S F ar q nz M N K c x) m0 (fun _ m' => holds m' BufC M N (fun _ _ => zero S) /\ only_C_changed m0 m' M N).
Proof.
  intros Hx Hc Hr Hz. destruct (product_of S F ar q nz M N K c x Hx) as (ord & Ho & G).
  eapply always_mono; [apply (G c A B m0); auto; repeat split|]. cbv beta. intros r m' (_ & E & D). split; [|auto].
  intros i j Hi Hj. rewrite (E i j Hi Hj). unfold product. specialize (Ho i j). rewrite Hz in Ho. cbn in Ho.
  apply Permutation_sym, Permutation_nil in Ho. rewrite Ho. reflexivity.
Qed.

Lemma au_alloc {R} b n al init (k : prog (elt S) R) m0 : (forall m, always_undefined k m) -> always_undefined (PAlloc b n al init k) m0.
Proof.
  intros H. split.
  - destruct (live m0 b) eqn:E; [apply PE_alloc_ub; right; congruence|].
    destruct (Z.lt_decidable n 0); [apply PE_alloc_ub; lia|]. apply PE_alloc; [lia|auto|apply H].
  - intros o Ho. inversion Ho; subst; auto. eapply H; eauto.
Qed.

Lemma au_init {X R} (f : cntx -> comp X) (k : cntx -> X -> prog (elt S) R) oc m0 : (forall c, c = match oc with Some c => c | None => q end -> f c = CUB) ->
  always_undefined (pbind (get_ctx S q oc) (fun c0 => pbind (palloc xbuf 1 false None) (fun _ => pbind (lift S (f c0)) (k c0)))) m0.
Proof.
  Local Transparent pbind. intros H. assert (U : forall m, always_undefined (V := elt S) (R := R) PUB m) by (intros m; split; [constructor|intros o Ho; now inversion Ho]).
  destruct oc as [c|]; cbn; rewrite H by reflexivity; cbn; repeat (apply au_alloc; intros); apply U. Local Opaque pbind.
Qed.

Lemma init_no_rows rows c p mcu kcu ncu : M = 0 -> init_block_dims_2d F M N K p rows c KMN mcu kcu ncu = CUB.
Proof. intros ->. reflexivity. Qed.

Lemma small_no_rows rows c p : M = 0 -> init_block_dims_2d_small F M N K p rows c KMN = CUB.
Proof. intros ->. reflexivity. Qed.

Lemma tiles_mk2d c mcu kcu ncu : 0 < mr c -> tiles_2d F c mcu kcu ncu ->
  0 < fst (mk2d F c mcu kcu ncu) /\ (mr c | fst (mk2d F c mcu kcu ncu)) /\ 0 < snd (mk2d F c mcu kcu ncu).
Proof.
  intros Hmr Ht. unfold mk2d, truthy. destruct Ht as [(T1 & T2 & T3 & T4)|(T0 & T1 & T2)].
  - rewrite (proj2 (Z.eqb_neq mcu 0)), (proj2 (Z.eqb_neq ncu 0)), (proj2 (Z.eqb_neq kcu 0)) by lia. cbn. auto.
  - replace (negb (mcu =? 0) && negb (ncu =? 0) && negb (kcu =? 0)) with false.
    2:{ destruct T0 as [-> | [-> | ->]]; cbn; now rewrite ?andb_false_r. }
    cbn [fst snd]. set (a := fp_mc2d F (nr c) (L2 c)) in *.
    pose proof (Z.quot_rem a (mr c) ltac:(lia)) as Q. pose proof (Z.rem_bound_pos a (mr c) ltac:(lia) Hmr) as B.
    assert (1 <= Z.quot a (mr c)) by (apply Z.quot_le_lower_bound; lia).
    split; [nia|split; [|auto]]. exists (Z.quot a (mr c)). lia.
Qed.

Lemma init_no_columns rows c p mcu kcu ncu : 0 < M -> N = 0 -> 0 < p -> 0 < mr c -> 0 < nr c -> 0 <= fp_pn F p N M -> tiles_2d F c mcu kcu ncu ->
  init_block_dims_2d F M N K p rows c KMN mcu kcu ncu = CUB.
Proof.
  intros HM HN Hp Hmr Hnr Hf Ht. unfold init_block_dims_2d. cbv zeta.
  destruct (grid_dims_2d F M N p (ncores c) rows) as [g| |] eqn:Eg; [|reflexivity|now apply grid_no_exit in Eg].
  destruct (grid_found F M N p (ncores c) rows HM Hp Hf g Eg) as (Hg & _). cbn [cbind]. rewrite idiv_pos by lia. cbn [cbind].
  pose proof (Z.quot_rem p g ltac:(lia)) as Qp. pose proof (Z.rem_bound_pos p g ltac:(lia) ltac:(lia)) as Bp.
  set (pm0 := Z.quot p g) in *. assert (Hpm : 1 <= pm0) by nia.
  destruct (roundup_ok M (mr c) ltac:(lia) Hmr) as (Mp & -> & DMp & BMp). cbn [cbind].
  assert (ER : roundup N (nr c) = CRet 0).
  { unfold roundup. rewrite imod_pos by lia. cbn [cbind]. rewrite HN, Z.rem_0_l by lia. reflexivity. }
  rewrite ER. cbn [cbind].
  replace (if truthy mcu && truthy ncu && truthy kcu then CRet (mcu, kcu)
           else do r <- imod (fp_mc2d F (nr c) (L2 c)) (mr c); CRet (fp_mc2d F (nr c) (L2 c) - r, fp_kcmax F (L1 c) (mr c) (nr c)))
    with (CRet (mk2d F c mcu kcu ncu)).
  2:{ unfold mk2d. destruct (truthy mcu && truthy ncu && truthy kcu); [auto|]. now rewrite imod_pos by lia. }
  destruct (tiles_mk2d c mcu kcu ncu Hmr Ht) as (T1 & T2 & T3).
  cbn [cbind]. set (mk := mk2d F c mcu kcu ncu) in *. clearbody mk. destruct mk as (mc0 & kc). cbn [fst snd] in *.
  unfold imod at 1. replace (kc =? 0) with false by (symmetry; apply Z.eqb_neq; lia). cbn [cbind].
  destruct (fit2d_ok Mp pm0 mc0 (mr c)) as (mc & pm' & -> & Hmc & Dmc & Hpm'); auto; try lia. cbn [cbind fst snd].
  destruct (roundup_ok mc (nr c) ltac:(lia) Hnr) as (nc0 & -> & Dnc0 & Bnc0). cbn [cbind].
  assert (EF : fit2d 0 g nc0 (nr c) = CRet (nr c, 0)).
  { unfold fit2d. destruct (Z.eqb_spec 0 (g * nr c)); [nia|]. destruct (Z.ltb_spec 0 (g * nc0)); [|nia].
    rewrite idiv_pos by lia. cbn [cbind]. rewrite Z.quot_0_l by lia. destruct (Z.ltb_spec 0 (nr c)); [|lia].
    rewrite idiv_pos by lia. cbn [cbind]. now rewrite Z.quot_0_l by lia. }
  rewrite EF. reflexivity.
Qed.

Lemma no_rows_2d ar' rows p oc mcu kcu ncu m0 : M = 0 -> always_undefined (cake_sgemm_2d S F ar' q rows M N K p oc mcu kcu ncu) m0.
Proof.
  intros HM. rewrite unfold_2d. apply (au_init (fun c0 => init_block_dims_2d F M N K p rows c0 KMN mcu kcu ncu)).
  intros c _. now apply init_no_rows.
Qed.

Lemma no_rows_small ar' rows p oc m0 : M = 0 -> always_undefined (cake_sgemm_2d_small S F ar' q rows M N K p oc) m0.
Proof.
  intros HM. rewrite unfold_small. apply (au_init (fun c0 => init_block_dims_2d_small F M N K p rows c0 KMN)).
  intros c _. now apply small_no_rows.
Qed.

Lemma no_columns_2d ar' rows p c mcu kcu ncu m0 : 0 < M -> N = 0 -> 0 < p -> arch_ok ar' -> ctx_min ar' c -> 0 <= fp_pn F p N M ->
  tiles_2d F c mcu kcu ncu -> always_undefined (cake_sgemm_2d S F ar' q rows M N K p (Some c) mcu kcu ncu) m0.
Proof.
  intros HM HN Hp Ha (E1 & E2) Hf Ht. rewrite unfold_2d. apply (au_init (fun c0 => init_block_dims_2d F M N K p rows c0 KMN mcu kcu ncu)).
  intros c' ->. unfold arch_ok in Ha. apply init_no_columns; auto; lia.
Qed.
End Empty.

(** ** A test of any of the functions *)
Lemma pok_bind_inv {V R R'} (P : prog V R) (f : R -> prog V R') m Q :
  pok (pbind P f) m Q -> pok P m (fun r m' => pok (f r) m' Q).
Proof.
  intros ((o & _) & H). split; [apply some_exec|]. intros o1 Ho1. destruct o1 as [r m1| |].
  - exists r, m1. split; [reflexivity|]. split; [apply some_exec|]. intros o2 Ho2. apply H, pexec_bind. left; eauto.
  - destruct (H Undef) as (r & m' & E & _); [apply pexec_bind; auto|discriminate E].
  - destruct (H Exited) as (r & m' & E & _); [apply pexec_bind; auto|discriminate E].
Qed.

Section Reports.
Variables (F : fpenv) (ar : arch) (q : cntx) (nz : single -> bool) (M N K : Z) (c : cntx) (l : list (call Single))
  (ok bad : single) (rA rB : Z -> Z) (m0 : mem single).
Hypothesis Hl : l <> [].
Hypothesis L : Forall (allowed Single F ar nz M N K c) l.
Hypothesis HI : Forall (fun x => forall m : mem single, room Single M N K m c x) l.
Hypothesis H0 : nothing_yet m0.
Hypothesis Hret : at_least m0 retb 1.

Notation A := (fun i k => rand_elem (rA (i * K + k))).
Notation B := (fun k j => rand_elem (rB (k * N + j))).

Notation the_test := (one_test Single rand_elem (runs Single F ar q nz M N K c l)
  (cake_sgemm_checker Single_mul_add far_single ok bad (BufA, 0) (BufB, 0) (BufC, 0)) rA rB M N K).

Lemma allowed_sizes : 0 <= M /\ 0 <= N /\ 0 <= K.
Proof.
  destruct l as [|x l']; [contradiction|]. inversion_clear L as [|? ? Hx _].
  destruct x; cbn in Hx; [destruct Hx as (Hx & _)|destruct Hx as (Hx & _)| |destruct Hx as (? & Hx)];
    destruct Hx as (_ & _ & ? & ? & ? & _); lia.
Qed.

Lemma any_test_accepts : (forall x, 0 <= rA x <= RAND_MAX) -> (forall x, 0 <= rB x <= RAND_MAX) -> K <= 91 ->
  always the_test m0 (fun _ m' => (forall b, live m' b = live m0 b) /\ dat m' retb 0 = Some ok).
Proof.
  intros HA HB HK91. destruct allowed_sizes as (HM & HN & HK).
  apply pok_always. rewrite one_test_split.
  apply pok_bind. eapply pok_mono; [apply prepare_ok; auto|]. cbv beta. intros [] m1 (Hca & LA & LB & LC & LO).
  assert (HR1 : at_least m1 retb 1).
  { destruct Hret as (bi & E1 & E2). exists bi. rewrite LO; [auto|discriminate..]. }
  assert (FA : all_finite M K A) by (intros a b _ _; apply rand_elem_range, HA).
  assert (FB : all_finite K N B) by (intros a b _ _; apply rand_elem_range, HB).
  assert (G : always (pbind (runs Single F ar q nz M N K c l)
                (fun _ => cake_sgemm_checker Single_mul_add far_single ok bad (BufA, 0) (BufB, 0) (BufC, 0) N M K)) m1
    (fun _ m' => (forall b, live m' b = live m1 b) /\ dat m' retb 0 = Some ok)).
  { apply (runs_then_check F ar q nz M N K c l ok bad A B m1); auto.
    - eapply Forall_impl; [|exact HI]. cbv beta. auto.
    - intros i j Hi Hj. apply small_enough; [lia|]. apply mass_le; [lia|]. intros k Hk.
      destruct (rand_elem_range _ (HA (i * K + k))) as (_ & ?).
      destruct (rand_elem_range _ (HB (k * N + j))) as (_ & ?). split; apply Rabs_le; lra. }
  apply always_pok, pok_bind_inv in G. apply pok_bind. eapply pok_mono; [exact G|]. cbv beta. intros r m2 G2.
  apply pok_bind. eapply pok_mono; [exact G2|]. cbv beta. intros [] m3 (L3 & R3).
  apply finish_ok; [rewrite L3, LA; discriminate|rewrite L3, LB; discriminate|rewrite L3, LC; discriminate|].
  intros m4 Ho EA EB EC. split.
  - intros b. destruct H0 as (ZA & ZB & ZC & _).
    destruct (buf_eqb_spec b BufA) as [->|NA]; [etransitivity; [exact EA|symmetry; exact ZA]|].
    destruct (buf_eqb_spec b BufB) as [->|NB]; [etransitivity; [exact EB|symmetry; exact ZB]|].
    destruct (buf_eqb_spec b BufC) as [->|NC]; [etransitivity; [exact EC|symmetry; exact ZC]|].
    destruct (Ho b NA NB NC) as (-> & _). rewrite L3. auto.
  - destruct (Ho retb ltac:(discriminate) ltac:(discriminate) ltac:(discriminate)) as (_ & ->). exact R3.
Qed.
End Reports.

Lemma inside_room F ar (nz : single -> bool) M N K c l : Forall (allowed Single F ar nz M N K c) l ->
  Forall (fun x => match x with By_sgemm _ _ _ s _ _ _ => s = KMN \/ (nr c | N) | _ => (mr c | M) /\ (nr c | N) end) l ->
  Forall (fun x => forall m : mem single, room Single M N K m c x) l.
Proof.
  rewrite !Forall_forall. intros HA HI x Hx m. specialize (HA x Hx). specialize (HI x Hx).
  assert (P : 0 < mr c /\ 0 < nr c).
  { destruct x; cbn in HA; [destruct HA as (HA & _)|destruct HA as (HA & _)| |destruct HA as (? & HA)]; destruct HA as (Ha & Hc & _);
      [now apply (ctx_for_pos ar s)|now apply (ctx_for_pos ar KMN)| | ]; destruct Hc; unfold arch_ok in Ha; lia. }
  destruct P as (P1 & P2). destruct x; cbn in *.
  - intros Hs. destruct HI as [|D]; [contradiction|]. now apply divides_no_rim.
  - destruct HI. split; [now apply A_rim_vacuous|now apply divides_no_rim].
  - destruct HI. split; [now apply A_rim_vacuous|now apply divides_no_rim].
  - destruct HI. split; [now apply A_rim_vacuous|now apply divides_no_rim].
Qed.
