(** * The example program. *)

From Coq Require Import ZArith Reals List Bool Permutation Lia Lra.
From Verif Require Import Lang Lang_facts Spec SpecTop SpecSmall SpecTouch SpecSingle SpecTests SpecQuery ModelSizing ModelKernel ModelPack
     ModelTop ModelUtil ModelSingle ModelTests ModelIEEE ModelQuery ModelExample
     Kernel_facts Mult_facts Trans_facts LinearUndef_facts Util_facts SpecTile CallAll_facts
     Single_facts SingleTop_facts BadMap_facts TorchExact_facts QueryCall_facts Tests_facts Misc_facts Linear_facts Sizing_facts.
Import ListNotations.
Open Scope Z_scope.

Local Transparent tbind tload tstore pbind.

(** ** The flush loop *)

Lemma all_faulty_undefined (S : scalar) {R} (ts : list (thr (elt S) unit)) (k : prog (elt S) R) m :
  ts <> [] -> (forall t, In t ts -> tfaulty t m) -> always_undefined (PPar ts k) m.
Proof.
  intros Hne Hf. split.
  - eapply PE_par_ub; [apply psteps_refl|]. left. destruct ts as [|t ts]; [congruence|]. exists t. cbn. split; [auto|]. apply Hf. now left.
  - intros o Ho. inversion Ho as [|ts0 k0 m1 ts' m' o' Hs Hd Hk| | | | | | | ]; subst; [|reflexivity].
    exfalso. inversion Hs as [|s1 s2 s3 H1 H2]; subst.
    + destruct ts' as [|t ts]; [congruence|]. specialize (Hf t (or_introl eq_refl)). rewrite (Hd t (or_introl eq_refl)) in Hf. exact Hf.
    + inversion H1 as [ts1 t ts2 ma t' mb Ht]; subst.
      assert (G : tfaulty t m) by (apply Hf, in_or_app; right; left; reflexivity).
      inversion Ht as [al b i k1 v m2 L|b i v k1 m2 L]; subst; cbn in G; congruence.
Qed.

Section Flush.

Variable S : scalar.
Notation T := (elt S).
Variables (add : T -> T -> T) (num : Z -> T).

Lemma flush_body_eq d : flush_body S add num d =
  TLoad 1 dirty d (fun v => TStore dirty d (add v (num (Z.rem d 100)))
    (TLoad 1 tttmp (Z.rem d 18) (fun t => TLoad 1 dirty d (fun w => TStore tttmp (Z.rem d 18) (add t w) (TRet tt))))).
Proof.
  unfold flush_body, pload, pstore, tload, tstore. cbn [fst snd tbind].
  change (0 + d) with d. change (0 + Z.rem d 18) with (Z.rem d 18). reflexivity.
Qed.

Lemma flush_undefined n m : 0 < n -> live m dirty = None -> always_undefined (flush S add num n) m.
Proof.
  intros Hn HL. unfold flush. apply pu_alloc; [lia|exact HL|]. apply pu_bind_l.
  unfold flush_loop, ppar_for. change (0 <? 1) with true. cbn iota.
  apply all_faulty_undefined.
  - unfold loop_count. rewrite Z.div_1_r. replace (Z.to_nat (n - 0 + 1 - 1)) with (Datatypes.S (Z.to_nat (n - 1))) by lia. discriminate.
  - intros t Ht. apply in_map_iff in Ht. destruct Ht as (d & <- & _). rewrite flush_body_eq.
    cbn [tfaulty]. unfold load. cbn [do_alloc live dat]. rewrite buf_eqb_refl. now destruct (_ && _).
Qed.

Lemma cell_load (m : mem T) b i v : cell m b i v -> load m 1 b i = Some v /\ can_store m b i = true.
Proof.
  intros (bi & L & Hi & E). unfold load, can_store. rewrite L. cbn [aligned Z.eqb orb]. 
  replace (0 <=? i) with true by (symmetry; apply Z.leb_le; lia). replace (i <? blen bi) with true by (symmetry; apply Z.ltb_lt; lia). auto.
Qed.

(** The iterations 0 and 18 both add to tttmp[0]. *)
Lemma flush_sum_ok m (t : Z -> T) r : (forall i, 0 <= i < 18 -> cell m tttmp i (t i)) -> cell m ressss 0 r ->
  pok (pseq (flush_sum S add)) m (fun _ m' =>
    (forall b, live m' b = live m b) /\ dat m' ressss 0 = Some (fold_left (fun s i => add s (t i)) (zrange 0 18) r) /\
    (forall b i, ~ (b = ressss /\ i = 0) -> dat m' b i = dat m b i)).
Proof.
  intros HT (br & Lr & Br & Dr).
  apply (Trans_facts.pok_seq (fun b i => b = ressss /\ i = 0) (fun b i => b = tttmp) _ m
           (fun m' => dat m' ressss 0 = Some (fold_left (fun s i => add s (t i)) (zrange 0 18) r))).
  - unfold flush_sum, tfor_.
    eapply (twp_tfor1 _ _ (fun i _ m' => dat m' ressss 0 = Some (fold_left (fun s i => add s (t i)) (zrange 0 i) r))); [lia|exact Dr| |].
    + intros i [] m' Hi HI HL HF. destruct (HT i Hi) as (bt & Lt & Bt & Dt). unfold pload, pstore. cbn [fst snd]. rewrite !Z.add_0_l.
      apply twp_bind. eapply twp_load; [right; auto|rewrite HL; exact Lr|exact Br|exact HI|].
      apply twp_bind. eapply twp_load; [left; reflexivity|rewrite HL; exact Lt|exact Bt| |].
      { rewrite HF; [exact Dt|]. intros (E & _). discriminate E. }
      eapply twp_store; [auto|rewrite HL; exact Lr|exact Br|].
      cbn [upd dat]. rewrite buf_eqb_refl. cbn [Z.eqb andb]. rewrite zrange_snoc by lia. now rewrite fold_left_app.
    + intros [] m' HI _ _. exact HI.
  - intros ms m' HQ _ HL HD HF. split; [intros; now rewrite HL|]. split; [rewrite HD; exact HQ|exact HF].
  - intros b i. destruct (buf_eqb_spec b ressss) as [->|E]; [destruct (Z.eq_dec i 0)|]; [left|right|right]; intuition.
Qed.

Lemma flush_loop_ok n m (d t : Z -> T) : 0 <= n <= 18 -> (forall i, 0 <= i < n -> cell m dirty i (d i)) -> (forall i, 0 <= i < n -> cell m tttmp i (t i)) ->
  pok (flush_loop S add num n) m (fun _ m' =>
    (forall b, live m' b = live m b) /\
    (forall i, 0 <= i < n -> dat m' dirty i = Some (add (d i) (num i)) /\ dat m' tttmp i = Some (add (t i) (add (d i) (num i)))) /\
    (forall b i, ~ ((b = dirty \/ b = tttmp) /\ 0 <= i < n) -> dat m' b i = dat m b i)).
Proof.
  intros Hn HD HT. unfold flush_loop.
  apply (pok_par_for 0 n 1 n _ m (fun c b i => (b = dirty \/ b = tttmp) /\ i = c) (fun _ _ _ => False)
    (fun c m' => dat m' dirty c = Some (add (d c) (num c)) /\ dat m' tttmp c = Some (add (t c) (add (d c) (num c))))); try lia.
  - intros c Hc. replace (0 + c * 1) with c by lia. unfold flush_body.
    rewrite !Z.rem_small by lia. destruct (HD c Hc) as (bd & Ld & Bd & Dd). destruct (HT c Hc) as (bt & Lt & Bt & Dt).
    unfold pload, pstore. cbn [fst snd]. rewrite !Z.add_0_l.
    apply twp_bind. eapply twp_load; [right; auto|exact Ld|exact Bd|exact Dd|].
    apply twp_bind. eapply twp_store; [auto|exact Ld|exact Bd|].
    apply twp_bind. eapply twp_load; [right; auto|exact Lt|exact Bt|exact Dt|].
    apply twp_bind. eapply twp_load; [right; auto|exact Ld|exact Bd|cbn [upd dat]; now rewrite buf_eqb_refl, Z.eqb_refl|].
    eapply twp_store; [auto|exact Lt|exact Bt|]. cbn [upd dat]. rewrite !buf_eqb_refl, !Z.eqb_refl. cbn. auto.
  - intros m' HL HV HF. split; [intros; now rewrite HL|]. split.
    + intros i Hi. destruct (HV i Hi) as (ms & (Q1 & Q2) & _ & _ & E). rewrite !E by auto. auto.
    + intros b i Hb. apply HF. intros c Hc (Hb' & ->). apply Hb. auto.
Qed.

Lemma flush_race n m : 19 <= n -> (forall i, 0 <= i < n -> exists v, cell m dirty i v) -> (forall i, 0 <= i < 18 -> exists v, cell m tttmp i v) ->
  pexec (flush_loop S add num n) m Undef.
Proof.
  intros Hn HD HT. unfold flush_loop, ppar_for. change (0 <? 1) with true. cbn iota.
  set (body := flush_body S add num).
  assert (E : exists mid rest, map body (zseq (loop_count 0 n 1) 0 1) = body 0 :: mid ++ body 18 :: rest).
  { unfold loop_count. rewrite Z.div_1_r. replace (Z.to_nat (n - 0 + 1 - 1)) with (19 + Z.to_nat (n - 19))%nat by lia.
    exists (map body (zseq 17 1 1)), (map body (zseq (Z.to_nat (n - 19)) 19 1)). reflexivity. }
  destruct E as (mid & rest & ->).
  destruct (HD 0 ltac:(lia)) as (d0 & C0). destruct (HD 18 ltac:(lia)) as (d18 & C18). destruct (HT 0 ltac:(lia)) as (t0 & CT).
  apply cell_load in C0, C18, CT. destruct C0 as (L0 & W0), C18 as (L18 & W18), CT as (LT & WT).
  set (m1 := upd m dirty 0 (add d0 (num (Z.rem 0 100)))).
  assert (LT1 : load m1 1 tttmp 0 = Some t0) by exact LT.
  assert (L1 : load m1 1 dirty 18 = Some d18) by exact L18.
  assert (L2 : load m1 1 dirty 0 = Some (add d0 (num (Z.rem 0 100)))).
  { unfold load in L0 |- *. cbn [m1 upd live dat]. destruct (live m dirty); [|discriminate]. destruct (_ && _); [|discriminate].
    rewrite buf_eqb_refl. reflexivity. }
  eapply PE_par_ub.
  - eapply psteps_cons; [apply (pstep_intro [] (body 0) (mid ++ body 18 :: rest) m); unfold body; rewrite flush_body_eq; apply tstep_load; exact L0|].
    cbn beta. cbn [app].
    eapply psteps_cons; [match goal with |- pstep (?t :: _, _) _ => apply (pstep_intro [] t (mid ++ body 18 :: rest) m) end; apply tstep_store; exact W0|].
    cbn [app]. fold m1.
    eapply psteps_cons; [match goal with |- pstep (?t :: _, _) _ => apply (pstep_intro [] t (mid ++ body 18 :: rest) m1) end; apply tstep_load; exact LT1|].
    cbn beta. cbn [app].
    eapply psteps_cons; [match goal with |- pstep (?t :: _, _) _ => apply (pstep_intro [] t (mid ++ body 18 :: rest) m1) end; apply tstep_load; exact L2|].
    cbn beta. cbn [app].
    eapply psteps_cons; [match goal with |- pstep (?t :: _, _) _ => apply (pstep_intro (t :: mid) (body 18) rest m1) end; unfold body; rewrite flush_body_eq; apply tstep_load; exact L1|].
    cbn beta.
    eapply psteps_cons; [match goal with |- pstep ((?t :: ?md) ++ ?u :: ?r, _) _ => apply (pstep_intro (t :: md) u r m1) end; apply tstep_store; exact W18|].
    apply psteps_refl.
  - right. cbn [fst]. eexists [], _, mid, _, rest. split; [reflexivity|].
    exists true, false, tttmp, 0. auto.
Qed.

End Flush.

(** ** The trials *)

Section Trials.

Variable S : scalar.
Notation T := (elt S).
Variables (F : fpenv) (ar : arch) (q : cntx) (nz : T -> bool) (M N K p : Z) (c : cntx) (al be : T).
Variables (add : T -> T -> T) (num : Z -> T).
Hypothesis L : legal F ar KMN c M N K p 0 0 0.

Notation call c := (cake_sgemm S F ar q nz M N K p (Some c) false false al be KMN 0 0 0).
Notation the_trials fl n := (trials S add num fl n (fun c => call c) c).

Lemma only_trans (m m1 m2 : mem T) : only_C_changed m m1 M N -> only_C_changed m1 m2 M N -> only_C_changed m m2 M N.
Proof.
  intros (A1 & A2) (B1 & B2). split; [intros b; now rewrite B1|]. intros b i Hb Hn. rewrite B2; auto. now rewrite A1.
Qed.

Lemma trials_ok ntr : 0 < ntr ->
  exists ord, orders K ord /\ forall A B m, caller m M N K A B -> live m tttmp = None -> live m ressss = None ->
    always (the_trials None ntr) m (fun _ m' => holds m' BufC M N (product S A B ord) /\ only_C_changed m m' M N).
Proof.
  intros Hn. destruct (K_first_ok S F ar q nz M N K p c al be KMN 0 0 0 L eq_refl) as (ord & c' & H1 & H2 & H3).
  exists ord. split; [exact H1|]. intros A B m Hc HT HR. apply pok_always. unfold trials.
  apply pok_bind, pok_alloc; [lia|exact HR|]. apply pok_bind, pok_alloc; [lia|cbn [do_alloc live]; rewrite buf_eqb_neq by discriminate; exact HT|].
  set (m1 := do_alloc _ tttmp _ _ _).
  assert (Q1 : forall b, b <> tttmp -> b <> ressss -> live m1 b = live m b /\ forall i, dat m1 b i = dat m b i).
  { intros b B1 B2. subst m1. cbn [do_alloc live dat]. rewrite !buf_eqb_neq by congruence. auto. }
  assert (Hc1 : caller m1 M N K A B).
  { destruct Hc as ((ba & A1 & A2) & HA & (bb & B1 & B2) & HB & (bc & C1 & C2) & Ho).
    split; [exists ba; auto|]. split; [exact HA|]. split; [exists bb; auto|]. split; [exact HB|]. split; [exists bc; auto|].
    intros b Hb. destruct (Q1 b) as (-> & _); [intros ->; cbn in Hb; lia..|auto]. }
  assert (LT : live m1 tttmp <> None) by (cbn; discriminate). assert (LR : live m1 ressss <> None) by (cbn; discriminate).
  apply pok_bind.
  assert (G : forall k i c1 m2, same_ctx c c1 -> only_C_changed m1 m2 M N -> (k <> O \/ holds m2 BufC M N (product S A B ord)) ->
     pok (piter k i 1 (fun _ c0 => pbind (PRet tt) (fun _ => pbind (call c0) (fun c2 => pbind (PRet tt) (fun _ => PRet c2)))) c1) m2
       (fun _ m3 => holds m3 BufC M N (product S A B ord) /\ only_C_changed m1 m3 M N)).
  { induction k as [|k IH]; intros i c1 m2 Hs Ho Hk; cbn [piter].
    - apply pok_ret. destruct Hk; [congruence|auto].
    - apply pok_bind, pok_bind, pok_ret, pok_bind. rewrite (sgemm_same_ctx S F ar q nz M N K p c c1) by exact Hs.
      eapply pok_mono; [apply always_pok, (H3 A B m2); eapply caller_after; eauto|]. cbv beta. intros r m3 (-> & E & Eo).
      apply pok_bind, pok_ret, pok_ret. apply IH; auto. eapply only_trans; eauto. }
  eapply pok_mono; [apply G; [apply same_ctx_refl|split; auto|]|].
  - left. unfold loop_count. rewrite Z.div_1_r. lia.
  - cbv beta. intros r m2 (E & (E1 & E2)). apply pok_bind, pok_free; [rewrite E1; exact LT|].
    apply pok_bind, pok_free; [cbn [do_free live]; rewrite buf_eqb_neq by discriminate; rewrite E1; exact LR|].
    apply pok_ret. split; [exact E|]. split.
    + intros b. cbn [do_free live]. destruct (buf_eqb_spec ressss b) as [<-|Nb]; [now rewrite HR|].
      destruct (buf_eqb_spec tttmp b) as [<-|Nb']; [now rewrite HT|]. rewrite E1. apply Q1; congruence.
    + intros b i Hb Hi. assert (b <> tttmp /\ b <> ressss) as (N1 & N2) by (split; intros ->; contradiction).
      transitivity (dat m2 b i); [cbn [do_free dat]; rewrite ?buf_eqb_neq by congruence; reflexivity|].
      destruct (Q1 b N1 N2) as (Q & Q'). rewrite E2; [apply Q'|rewrite Q; exact Hb|exact Hi].
Qed.

End Trials.

(** ** The program *)

Section Main.

Variables (F : fpenv) (ar : arch) (q : cntx) (nz : single -> bool) (M N K p : Z) (c : cntx)
  (one : single) (ntr argc : Z) (add : single -> single -> single) (num : Z -> single) (ok bad : single) (rA rB : Z -> Z) (m0 : mem single).
Hypothesis L : legal F ar KMN (set_tile c) M N K p 0 0 0.
Hypothesis Hargc : 6 <= argc.
Hypothesis Hntr : 0 < ntr.
Hypothesis H0 : nothing_yet m0.
Hypothesis HT : live m0 tttmp = None.
Hypothesis HR : live m0 ressss = None.
Hypothesis Hret : at_least m0 retb 1.

Notation A := (fun i k => rand_elem (rA (i * K + k))).
Notation B := (fun k j => rand_elem (rB (k * N + j))).

Notation the_main := (example_main Single rand_elem add num F ar q nz one
  (cake_sgemm_checker Single_mul_add far_single ok bad (BufA, 0) (BufB, 0) (BufC, 0)) None rA rB argc M K N p ntr c).

Lemma main_reports : exists ord, orders K ord /\ forall r : bool,
  (r = true <-> forall i j, 0 <= i < M -> 0 <= j < N ->
     far_single (product Single_mul_add A B (fun _ _ => zrange 0 K) i j) (product Single A B ord i j) = false) ->
  always the_main m0 (fun _ m' => (forall b, live m' b = live m0 b) /\ dat m' retb 0 = Some (if r then ok else bad)).
Proof.
  assert (HL := L). destruct HL as (Har & Hc & HM & HN & HK & Hp & _).
  destruct (trials_ok Single F ar q nz M N K p (set_tile c) one (zero Single) add num L ntr Hntr) as (ord & H1 & H3).
  exists ord. split; [exact H1|]. intros r Hr. unfold example_main.
  replace (argc <? 3) with false by (symmetry; apply Z.ltb_ge; lia). replace (argc <? 6) with false by (symmetry; apply Z.ltb_ge; lia).
  apply pok_always. rewrite one_test_split.
  apply pok_bind. eapply pok_mono; [apply prepare_ok; auto|]. cbv beta. intros [] m1 (Hca & LA & LB & LC & LO).
  apply pok_bind. eapply pok_mono; [apply always_pok, (H3 _ _ m1 Hca); rewrite LO by discriminate; assumption|].
  cbv beta. intros r1 m2 (E & El & Ed).
  destruct Hca as (HbA & HhA & HbB & HhB & HbC & Hown).
  assert (HL : forall b n, at_least m1 b n -> at_least m2 b n).
  { intros b n (bi & E1 & E2). exists bi. rewrite El. auto. }
  assert (HD : forall b rows cols X, b <> BufC -> at_least m1 b (rows * cols) -> holds m1 b rows cols X -> holds m2 b rows cols X).
  { intros b rows cols X Hne (bi & E1 & _) Hh i j Hi Hj. rewrite Ed; [apply Hh; auto| |].
    - intros Q. discriminate (eq_trans (eq_sym Q) E1).
    - intros (Q & _). contradiction. }
  assert (HR1 : at_least m1 retb 1).
  { destruct Hret as (bi & E1 & E2). exists bi. rewrite LO; [auto|discriminate..]. }
  apply pok_bind. eapply pok_mono.
  - apply always_pok. apply (checker_ok Single_mul_add far_single ok bad M N K A B (product Single A B ord) m2 HM HN HK); auto.
    + apply HD; auto. discriminate.
    + apply HD; auto. discriminate.
    + rewrite El. apply Hown. cbn. lia.
  - cbv beta. intros [] m3 (L3 & _ & rr & Hr1 & Hr2).
    apply finish_ok; [rewrite L3, El, LA; discriminate|rewrite L3, El, LB; discriminate|rewrite L3, El, LC; discriminate|].
    intros m4 Ho EA EB EC. split.
    + intros b. destruct H0 as (ZA & ZB & ZC & _).
      destruct (buf_eqb_spec b BufA) as [->|NA]; [etransitivity; [exact EA|symmetry; exact ZA]|].
      destruct (buf_eqb_spec b BufB) as [->|NB]; [etransitivity; [exact EB|symmetry; exact ZB]|].
      destruct (buf_eqb_spec b BufC) as [->|NC]; [etransitivity; [exact EC|symmetry; exact ZC]|].
      destruct (Ho b NA NB NC) as (-> & _). rewrite L3, El. auto.
    + destruct (Ho retb ltac:(discriminate) ltac:(discriminate) ltac:(discriminate)) as (_ & ->).
      etransitivity; [exact Hr1|]. assert (rr = r) as ->; [|reflexivity].
      apply eq_true_iff_eq. rewrite Hr2, Hr. unfold no_far, refk. reflexivity.
Qed.

Lemma main_accepts : (forall x, 0 <= rA x <= RAND_MAX) -> (forall x, 0 <= rB x <= RAND_MAX) -> K <= 91 ->
  always the_main m0 (fun _ m' => (forall b, live m' b = live m0 b) /\ dat m' retb 0 = Some ok).
Proof.
  intros HA HB HK. destruct main_reports as (ord & Ho & H). apply (H true). split; [|reflexivity]. intros _ i j Hi Hj.
  assert (0 <= K) by apply L.
  assert (FA : all_finite M K A) by (intros a b _ _; apply rand_elem_range, HA).
  assert (FB : all_finite K N B) by (intros a b _ _; apply rand_elem_range, HB).
  destruct (small_enough K (mass A B K i j)) as (E1 & E2); [lia| |].
  { apply mass_le; [lia|]. intros k Hk. destruct (rand_elem_range _ (HA (i * K + k))) as (_ & ?).
    destruct (rand_elem_range _ (HB (k * N + j))) as (_ & ?). split; apply Rabs_le; lra. }
  apply (near_checked A B M N K ord i j); auto.
Qed.

End Main.

(** ** Undefined runs *)

Section Bad.

Variable S : scalar.
Notation T := (elt S).
Variables (elem : Z -> T) (add : T -> T -> T) (num : Z -> T) (F : fpenv) (ar : arch) (q : cntx) (nz : T -> bool) (one : T)
  (check : Z -> Z -> Z -> prog T unit) (rA rB : Z -> Z) (argc M K N p ntr : Z) (c : cntx) (m0 : mem T).

Notation the_main fl := (example_main S elem add num F ar q nz one check fl rA rB argc M K N p ntr c).

Lemma main_few : 3 <= argc < 6 -> forall fl, always_undefined (the_main fl) m0.
Proof.
  intros H fl. unfold example_main.
  replace (argc <? 3) with false by (symmetry; apply Z.ltb_ge; lia). replace (argc <? 6) with true by (symmetry; apply Z.ltb_lt; lia).
  apply undef_intro. intros o Ho. now inversion Ho.
Qed.

Hypothesis Hargc : 6 <= argc.
Hypothesis Hntr : 0 < ntr.
Hypothesis H0 : nothing_yet m0.
Hypothesis HT : live m0 tttmp = None.
Hypothesis HR : live m0 ressss = None.

(** the first trial *)
Lemma first_trial fl : 0 <= M -> 0 <= N -> 0 <= K ->
  (forall m (k : cntx -> prog T cntx), (forall b, b <> BufA -> b <> BufB -> b <> BufC -> b <> tttmp -> b <> ressss -> live m b = live m0 b) ->
     always_undefined (pbind (match fl with Some n => flush S add num n | None => PRet tt end) (fun _ =>
        pbind (cake_sgemm S F ar q nz M N K p (Some (set_tile c)) false false one (zero S) KMN 0 0 0) k)) m) ->
  always_undefined (the_main fl) m0.
Proof.
  intros HM HN HK H. unfold example_main.
  replace (argc <? 3) with false by (symmetry; apply Z.ltb_ge; lia). replace (argc <? 6) with false by (symmetry; apply Z.ltb_ge; lia).
  apply one_test_undefined; auto. intros m (_ & _ & _ & _ & LO). unfold trials.
  apply pu_alloc; [lia|rewrite LO by discriminate; exact HR|].
  apply pu_alloc; [lia|cbn [do_alloc live]; rewrite buf_eqb_neq by discriminate; rewrite LO by discriminate; exact HT|].
  apply pu_bind_l. unfold pfor. change (0 <? 1) with true. cbn iota.
  unfold loop_count. rewrite Z.div_1_r. replace (Z.to_nat (ntr - 0 + 1 - 1)) with (Datatypes.S (Z.to_nat (ntr - 1))) by lia.
  cbn [piter]. apply pu_bind_l. apply H. intros b B1 B2 B3 B4 B5. cbn [do_alloc live]. rewrite !buf_eqb_neq by congruence. auto.
Qed.

Lemma main_flush n : 0 <= M -> 0 <= N -> 0 <= K -> 0 < n -> live m0 dirty = None -> always_undefined (the_main (Some n)) m0.
Proof.
  intros HM HN HK Hn HD. apply first_trial; auto. intros m k Hm. apply pu_bind_l, flush_undefined; [exact Hn|].
  rewrite Hm by discriminate. exact HD.
Qed.

Lemma main_haswell : ar = haswell -> 0 < M -> 0 < N -> 0 < K -> 0 < p -> tiles_ok F M p (set_tile c) 0 0 0 ->
  always_undefined (the_main None) m0.
Proof.
  intros Ear HM HN HK Hp Ht. apply first_trial; [lia..|]. intros m k Hm. cbn [pbind]. apply pu_bind_l.
  destruct (init_total F M N K p (set_tile c) KMN 0 0 0) as (x & c' & E); auto; try lia; try reflexivity.
  apply (bad_kernel S F ar q nz M N K p (set_tile c) one (zero S) KMN 0 0 0 x c'); auto; try reflexivity.
  - apply (init_sch _ _ _ _ _ _ _ _ _ _ _ _ E). discriminate.
  - rewrite Hm by discriminate. apply H0. exact I.
  - rewrite Hm by discriminate. apply H0. exact I.
  - right. rewrite Ear. vm_compute. auto.
Qed.

End Bad.

(** ** What the query gives *)

Lemma set_tile_query ar h c : query_cntx ar h = CRet c -> query_cntx armv8 h = CRet (set_tile c).
Proof.
  intros E. destruct (query_shape ar h c E) as (l1 & l2 & l3 & n & -> & E1 & E2 & E3 & E4).
  unfold query_cntx. rewrite E1, E2, E3, E4. reflexivity.
Qed.

Lemma tile_legal ar h c M N K p : query_cntx ar h = CRet c -> usual c -> 0 <= M -> 0 <= N -> 0 <= K -> 0 < p -> M + 8 * p < 2 ^ 24 ->
  legal ieee armv8 KMN (set_tile c) M N K p 0 0 0.
Proof.
  intros E U HM HN HK Hp Hb. apply (usual_legal armv8 h); auto. now apply (set_tile_query ar).
Qed.
