(** * Programs that leave the memory alone. *)

From Coq Require Import ZArith List Bool Lia.
From Verif Require Import Lang Spec SpecTop SpecAlloc SpecTouch ModelSizing ModelKernel ModelPack ModelSched ModelNoop
     Lang_facts Mult_facts Touch_facts TouchOut_facts.
Import ListNotations.
Open Scope Z_scope.

Local Transparent tfor pfor.

Section Facts.

Variable S : scalar.
Notation T := (elt S).

Definition still (t : thr T unit) : Prop := forall m, twp (fun _ _ => False) (fun _ _ => False) t (fun _ _ => True) m.
Definition quiet {R} (P : prog T R) : Prop :=
  forall m, pok P m (fun _ m' => live m' = live m /\ forall b i, dat m' b i = dat m b i).

Lemma still_tfor n f : (forall i, still (f i)) -> still (tfor_ 0 n 1 f).
Proof.
  intros H m. unfold tfor_. destruct (Z.le_gt_cases 0 n).
  - apply (twp_tfor1 _ _ (fun _ _ _ => True)); auto. intros. apply H.
  - assert (E : tfor 0 n 1 tt (fun i _ => f i) = @TRet T unit tt).
    { unfold tfor. cbn [Z.ltb Z.compare]. unfold loop_count. replace (Z.to_nat _) with 0%nat; [reflexivity|].
      rewrite Z.div_1_r. lia. }
    rewrite E. exact I.
Qed.

Lemma quiet_pfor n f : (forall i, quiet (f i)) -> quiet (@pfor_ T 0 n 1 f).
Proof.
  intros H m. unfold pfor_. destruct (Z.le_gt_cases 0 n).
  - apply (pok_pfor1 (fun _ (_ : unit) m' => live m' = live m /\ forall b i, dat m' b i = dat m b i)); auto.
    intros i s' m' _ (HL & HD). eapply pok_mono; [apply H|]. cbn. intros _ m'' (HL' & HD'). split; [congruence|].
    intros b j. now rewrite HD'.
  - assert (E : pfor 0 n 1 tt (fun i _ => f i) = @PRet T unit tt).
    { unfold pfor. cbn [Z.ltb Z.compare]. unfold loop_count. replace (Z.to_nat _) with 0%nat; [reflexivity|].
      rewrite Z.div_1_r. lia. }
    rewrite E. apply pok_ret. auto.
Qed.

Lemma quiet_par_for n body : (forall i, still (body i)) -> quiet (ppar_for 0 n 1 body).
Proof.
  intros H m.
  assert (E : ppar_for 0 n 1 body = ppar_for 0 (0 + Z.max 0 n * 1) 1 body).
  { unfold ppar_for. cbn [Z.ltb Z.compare]. do 3 f_equal. unfold loop_count. rewrite !Z.div_1_r. lia. }
  rewrite E.
  eapply (pok_par_for 0 _ 1 (Z.max 0 n) _ m (fun _ _ _ => False) (fun _ _ _ => False) (fun _ _ => True)); [lia|lia|lia| | |].
  - intros c Hc. apply H.
  - intros c d b x _ _ _ [].
  - intros m' HL _ HF. split; [exact HL|]. intros b x. apply HF. intros c Hc [].
Qed.

Lemma reg_still mt nt c : mr c <> 0 -> nr c <> 0 -> still (reg_loops S mt nt c).
Proof.
  intros Hm Hn. unfold reg_loops. destruct (Z.eqb_spec (nr c) 0); [contradiction|].
  apply still_tfor. intros _. destruct (Z.eqb_spec (mr c) 0); [contradiction|].
  apply still_tfor. intros _ m. exact I.
Qed.

Lemma quiet_always {R} (P : prog T R) m : quiet P -> always P m (fun _ m' => same_mem m m').
Proof.
  intros H. apply pok_always. eapply pok_mono; [apply H|]. cbn. intros _ m' (HL & HD). split; intros; [now rewrite HL|now rewrite HD].
Qed.

Lemma KMN_small_quiet p c x m : mr c <> 0 -> nr c <> 0 -> always (schedule_KMN_small S p c x) m (fun _ m' => same_mem m m').
Proof.
  intros Hm Hn. apply quiet_always. apply quiet_pfor. intros n. apply quiet_pfor. intros i. apply quiet_par_for. intros core.
  apply still_tfor. intros _. now apply reg_still.
Qed.

Lemma MKN_small_quiet p c x m : mr c <> 0 -> nr c <> 0 -> always (schedule_MKN_small S p c x) m (fun _ m' => same_mem m m').
Proof.
  intros Hm Hn. apply quiet_always. apply quiet_pfor. intros n. apply quiet_pfor. intros i. apply quiet_par_for. intros core.
  apply still_tfor. intros _. now apply reg_still.
Qed.

Lemma NKM_small_quiet p c x m : mr c <> 0 -> nr c <> 0 -> always (schedule_NKM_small S p c x) m (fun _ m' => same_mem m m').
Proof.
  intros Hm Hn. apply quiet_always. apply quiet_pfor. intros n. apply quiet_pfor. intros i. apply quiet_par_for. intros core.
  apply still_tfor. intros _. now apply reg_still.
Qed.

Lemma ret_same {R} (r : R) (Q : R -> Prop) (m : mem T) : Q r -> always (PRet r) m (fun r' m' => Q r' /\ same_mem m m').
Proof. intros H. apply pok_always, pok_ret. split; [exact H|]. split; reflexivity. Qed.

Lemma flags_quiet ar A_p B_p C_p M N K p c x s sparse small m :
  s <> NA -> s = KMN \/ sparse = true \/ small = true ->
  always (schedule_flags S ar A_p B_p C_p M N K p c x s sparse small) m (fun _ m' => same_mem m m').
Proof.
  intros Hs H.
  assert (E : schedule_flags S ar A_p B_p C_p M N K p c x s sparse small = PRet tt).
  { destruct s; [reflexivity| | |contradiction]; destruct sparse, small; try reflexivity; intuition discriminate. }
  rewrite E. apply quiet_always. intros m0. apply pok_ret. auto.
Qed.

Lemma flags_exit ar A_p B_p C_p M N K p c x sparse small (m : mem T) :
  always_exits (schedule_flags S ar A_p B_p C_p M N K p c x NA sparse small) m.
Proof. split; [eexists; constructor|]. intros o Ho. inversion Ho. reflexivity. Qed.

(** ** a register tile of no columns *)

Lemma reg_fails mt nt c : nr c = 0 -> touches BufA (-1) (reg_loops S mt nt c).
Proof. intros E. unfold reg_loops. rewrite E. exact I. Qed.

Lemma outside_neg (m : mem T) : outside BufA (-1) m.
Proof. unfold outside. destruct (live m BufA); auto. lia. Qed.

Lemma three_loops n1 n2 (n3 n4 : Z -> Z) (f : Z -> Z -> Z -> Z -> thr T unit) (m : mem T) :
  0 < n1 -> 0 < n2 -> 0 < n3 0 -> 0 < n4 0 -> (forall a b c d, touches BufA (-1) (f a b c d)) ->
  always_undefined (pfor_ 0 n1 1 (fun a => pfor_ 0 n2 1 (fun b => ppar_for 0 (n3 b) 1 (fun c => tfor_ 0 (n4 b) 1 (f a b c))))) m.
Proof.
  intros H1 H2 H3 H4 H. apply (pout_exec BufA (-1)); [|apply outside_neg].
  assert (S1 : forall a b, small BufA (-1) (ppar_for 0 (n3 b) 1 (fun c => tfor_ 0 (n4 b) 1 (f a b c)))) by (intros; apply small_ppar).
  unfold pfor_. apply (pout_pfor1 _ _ 0 n1 tt _ 0); [lia|intros; apply small_pfor; auto|]. intros _.
  apply (pout_pfor1 _ _ 0 n2 tt _ 0); [lia|auto|]. intros _.
  apply (pout_ppar1 _ _ 0 (n3 0) _ 0); [lia|]. apply (touches_tfor1 _ _ 0 (n4 0) tt _ 0); [lia|]. auto.
Qed.

Lemma small_zero p c x (m : mem T) : nr c = 0 -> 0 < Nb x -> 0 < Mb x -> 0 < Kb x -> 0 < p_l x -> 0 < p ->
  always_undefined (schedule_KMN_small S p c x) m /\
  always_undefined (schedule_MKN_small S p c x) m /\
  always_undefined (schedule_NKM_small S p c x) m.
Proof.
  intros E HN HM HK Hl Hp.
  assert (Hu : 0 < blk_pu x p 0) by (unfold blk_pu; destruct (is_last _ _ _); lia).
  assert (Hk : 0 < blk_pk x p 0) by (unfold blk_pk; destruct (is_last _ _ _); lia).
  split; [|split].
  - apply (three_loops (Nb x) (Mb x) (blk_pu x p) (fun _ => Kb x)
             (fun n m core _ => reg_loops S (core_mt x m core) (blk_nt x n) c)); auto. intros. now apply reg_fails.
  - apply (three_loops (Nb x) (Kb x) (fun _ => Mb x) (blk_pk x p)
             (fun n k m _ => reg_loops S (mf_mt x m) (blk_nt x n) c)); auto. intros. now apply reg_fails.
  - apply (three_loops (Mb x) (Kb x) (fun _ => Nb x) (blk_pk x p)
             (fun m k n _ => reg_loops S (nf_mt x p m) (blk_nt x n) c)); auto. intros. now apply reg_fails.
Qed.

End Facts.
