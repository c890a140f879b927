(** * Matrices anywhere in the caller's memory: C disjoint from A and B. *)

From Coq Require Import ZArith List Bool Lia.
From Verif Require Import Lang Lang_facts Exec Exec_facts Spec SpecTop SpecOnline ModelSizing ModelKernel ModelPack ModelSched ModelTop ModelPlace SpecPlace
     Mult_facts Online_facts Grid_call_facts Refute_facts Witness Witness_facts Place_facts PlaceCut_facts PlaceCall_facts.
Open Scope Z_scope.

Definition extent (M N K m_r n_r : Z) (b : buf) : Z :=
  match b with BufA => reach_A M K m_r | BufB => reach_B N K n_r | _ => M * N end.

Section Dis.

Variable S : scalar.
Notation T := (elt S).
Variables (M N K m_r n_r : Z) (pA pB pC : ptr) (A B : Z -> Z -> T) (m0 : mem T).
Hypothesis HM : 0 <= M.
Hypothesis HN : 0 <= N.
Hypothesis HK : 0 <= K.
Hypothesis Hm : 0 < m_r.
Hypothesis Hn : 0 < n_r.
Hypothesis HC : caller_at m0 pA pB pC M N K A B.
Hypothesis HRA : A_rim_at m0 pA M K m_r.
Hypothesis HRB : B_rim_at m0 pB N K n_r 0.
Hypothesis HD : C_clear pA pB pC M N K m_r n_r.

Notation len := (extent M N K m_r n_r).
Notation pl := (arg pA pB pC).
Notation m1 := (cut len pA pB pC m0).

Lemma ru D r : 0 <= D -> 0 < r -> D <= round_up D r.
Proof.
  intros H1 H2. unfold round_up, ceil_div. pose proof (Z.div_mod (D + r - 1) r ltac:(lia)). pose proof (Z.mod_pos_bound (D + r - 1) r H2). lia.
Qed.

Lemma lenA : M * K <= len BufA /\ exists bi, live m0 (fst pA) = Some bi /\ snd pA + len BufA <= blen bi.
Proof.
  cbn [extent]. unfold reach_A. pose proof (ru M m_r HM Hm) as H. split; [nia|].
  destruct HC as (_ & _ & _ & (bi & L & E & _) & _). exists bi. split; [exact L|].
  destruct (Z.eq_dec (round_up M m_r) M) as [->|Ne]; [exact E|]. destruct (Z.eq_dec K 0) as [->|Nk]; [lia|].
  destruct (HRA (round_up M m_r - 1) (K - 1)) as (b2 & v & L2 & E2 & _); [lia|lia|]. rewrite L in L2. injection L2 as <-. lia.
Qed.

Lemma lenB : K * N <= len BufB /\ exists bi, live m0 (fst pB) = Some bi /\ snd pB + len BufB <= blen bi.
Proof.
  cbn [extent]. unfold reach_B. pose proof (ru N n_r HN Hn) as H.
  destruct HC as (_ & _ & _ & _ & (bi & L & E & _) & _). destruct (Z.eqb_spec K 0) as [->|Nk].
  - split; [lia|]. exists bi. split; [exact L|]. lia.
  - split; [nia|]. exists bi. split; [exact L|].
    destruct (Z.eq_dec (round_up N n_r) N) as [->|Ne]; [lia|].
    destruct (HRB (K - 1) (round_up N n_r - 1)) as (b2 & v & L2 & E2 & _); [lia|lia|]. rewrite L in L2. injection L2 as <-. lia.
Qed.

Lemma cut_rel : crel all len pA pB pC m1 m0.
Proof.
  split.
  - intros b Cb. cbn [cut live dat]. rewrite Cb. split; [reflexivity|]. intros i. destruct b; try discriminate Cb; reflexivity.
  - intros b Cb _. cbn [cut live dat]. rewrite Cb. split; [|reflexivity].
    assert (G : exists bi, live m0 (fst (pl b)) = Some bi /\ snd (pl b) + len b <= blen bi).
    { destruct b; try discriminate Cb; cbn [arg]; [apply lenA|apply lenB|]. destruct HC as (_ & _ & _ & _ & _ & H & _). exact H. }
    destruct G as (bi & G1 & G2). eexists _, bi. split; [reflexivity|]. auto.
Qed.

Lemma cut_caller : caller m1 M N K A B.
Proof.
  destruct HC as (_ & _ & _ & (ba & LA & BA & DA) & (bb & LB & BB & DB) & (bc & LC & BC) & HO).
  unfold caller, at_least. cbn [cut live dat callers]. repeat split.
  - eexists. split; [reflexivity|]. cbn [blen]. apply lenA.
  - intros i j Hi Hj. cbn [cut dat arg]. now apply DA.
  - eexists. split; [reflexivity|]. cbn [blen]. apply lenB.
  - intros i j Hi Hj. cbn [cut dat arg]. now apply DB.
  - eexists. split; [reflexivity|]. cbn [blen extent]. lia.
  - intros b Hb. pose proof (HO b Hb) as E. destruct b; cbn [callers]; try exact E; destruct Hb.
Qed.

Lemma cut_A_rim : A_rim m1 M K m_r.
Proof.
  intros i k Hi Hk. destruct (HRA i k Hi Hk) as (bi & v & L & E & D). exists (BInfo (len BufA) false), v. cbn [cut live dat callers arg blen].
  split; [reflexivity|]. split; [cbn [extent]; unfold reach_A; nia|exact D].
Qed.
Lemma cut_B_rim : B_rim m1 N K n_r 0.
Proof.
  intros k j Hk Hj. destruct (HRB k j Hk Hj) as (bi & v & L & E & D). exists (BInfo (len BufB) false), v. cbn [cut live dat callers arg blen].
  split; [reflexivity|]. split; [cbn [extent]; unfold reach_B; destruct (Z.eqb_spec K 0); nia|exact D].
Qed.

Lemma dis_call {R} (P : prog T R) (Q : R -> Prop) f : puses all isC P ->
  always P m1 (fun r m' => Q r /\ holds m' BufC M N f /\ only_C_changed m1 m' M N) ->
  always (call_at pl P) m0 (fun r m' => Q r /\ matrix_at m' pC M N f /\ only_changed_at pC m0 m' M N).
Proof.
  intros Hu H. pose proof HC as (aA & aB & aC & _ & _ & (bc & LC & BC) & HO). apply pok_always.
  eapply pok_mono; [apply (cut_sim all isC len pA pB pC aA aB aC); [| |apply cut_rel|exact Hu|exact H]|].
  - intros b _ _. reflexivity.
  - intros b b' C1 W C2 _ E. destruct b; cbn in W; try discriminate. destruct HD as (D1 & D2). unfold disjoint in D1, D2.
    destruct b'; cbn in *; try discriminate; try (left; reflexivity); right; tauto.
  - cbv beta. intros r m' (m2 & (Hq & Hh & (HL & Hd)) & _ & (R1 & R2) & HF). split; [exact Hq|].
    destruct aC as (CC & OC). destruct (HF (fst pC) CC) as (F1 & F2).
    destruct (R2 BufC eq_refl eq_refl) as (_ & DC). cbn [arg extent] in DC.
    split.
    + exists bc. rewrite F1. split; [exact LC|split; [exact BC|]]. intros i j Hi Hj. rewrite <- DC by nia. now apply Hh.
    + assert (Own : forall b, callers b = false -> live m' b = live m0 b /\ forall i, live m0 b <> None -> dat m' b i = dat m0 b i).
      { intros b Cb. destruct (R1 b Cb) as (L1 & D1). pose proof (HL b) as L2. cbn [cut live] in L2. rewrite Cb in L2. split; [congruence|].
        intros i Hl. rewrite <- D1. rewrite Hd.
        - cbn [cut dat]. destruct b; try discriminate Cb; reflexivity.
        - cbn [cut live]. now rewrite Cb.
        - intros (-> & _). discriminate Cb. }
      split.
      * intros b. destruct (callers b) eqn:Cb; [now apply HF|now apply Own].
      * intros b i Hl Hnb. destruct (callers b) eqn:Cb; [|now apply Own]. destruct (HF b Cb) as (_ & G). apply G.
        intros b' Cb' Hw. destruct b'; cbn in Hw; try discriminate. cbn [arg extent]. intros (E1 & E2). apply Hnb. split; [congruence|lia].
Qed.

End Dis.

Lemma online_at S so F ar q M N K p c mcu kcu ncu :
  legal F ar KMN c M N K p mcu kcu ncu -> (so = true -> one_thread M N K p (mr c)) ->
  exists ord c', orders K ord /\ same_ctx c c' /\
    forall (A B : Z -> Z -> elt S) pA pB pC m0, caller_at m0 pA pB pC M N K A B ->
      A_rim_at m0 pA M K (mr c) -> B_rim_at m0 pB N K (nr c) 0 -> C_clear pA pB pC M N K (mr c) (nr c) ->
      always (call_at (arg pA pB pC) (cake_sgemm_online S so F ar q M N K p (Some c) mcu kcu ncu)) m0
        (fun r m' => r = c' /\ matrix_at m' pC M N (product S A B ord) /\ only_changed_at pC m0 m' M N).
Proof.
  intros L Hso. destruct (online_product S so F ar q M N K p c mcu kcu ncu L Hso) as (ord & c' & H1 & H2 & H3).
  exists ord, c'. split; [exact H1|split; [exact H2|]]. intros A B pA pB pC m0 HC R1 R2 HD.
  destruct L as (La & Lc & HM & HN & HK & Hp & Lt).
  assert (Hmn : 0 < mr c /\ 0 < nr c).
  { destruct La as (a1 & a2 & a3 & a4 & _), Lc as (c1 & c2 & -> & ->). nia. }
  destruct Hmn as (Hm & Hn).
  apply (dis_call S M N K (mr c) (nr c) pA pB pC A B m0 HM HN HK Hm Hn HC R1 R2 HD _ (fun r => r = c')).
  - apply (call_online_uses S all isC so F ar q M N K p (Some c) mcu kcu ncu rdA rdB wrC).
  - apply (H3 A B); [apply cut_caller; auto|apply cut_A_rim; auto|apply cut_B_rim; auto].
Qed.

Lemma grid_at S F ar q rows M N K p c mcu kcu ncu : legal_2d F ar rows c M N K p mcu kcu ncu ->
  exists ord, orders K ord /\
    forall (A B : Z -> Z -> elt S) pA pB pC m0, caller_at m0 pA pB pC M N K A B ->
      A_rim_at m0 pA M K (mr c) -> B_rim_at m0 pB N K (nr c) 0 -> C_clear pA pB pC M N K (mr c) (nr c) ->
      always (call_at (arg pA pB pC) (cake_sgemm_2d S F ar q rows M N K p (Some c) mcu kcu ncu)) m0
        (fun _ m' => matrix_at m' pC M N (product S A B ord) /\ only_changed_at pC m0 m' M N).
Proof.
  intros L. destruct (g2d_product S F ar q rows M N K p c mcu kcu ncu L) as (ord & H1 & H3).
  exists ord. split; [exact H1|]. intros A B pA pB pC m0 HC R1 R2 HD.
  destruct L as (La & (Lc1 & Lc2) & HM & HN & HK & Hp & Lt).
  assert (Hmn : 0 < mr c /\ 0 < nr c).
  { destruct La as (a1 & a2 & _). lia. }
  destruct Hmn as (Hm & Hn). assert (HM' : 0 <= M) by lia. assert (HN' : 0 <= N) by lia.
  apply pok_always. eapply pok_mono.
  - apply (dis_call S M N K (mr c) (nr c) pA pB pC A B m0 HM' HN' HK Hm Hn HC R1 R2 HD _ (fun _ => True) (product S A B ord)).
    + apply (call_2d_uses S all isC F ar q rows M N K p (Some c) mcu kcu ncu rdA rdB wrC).
    + eapply pok_mono; [apply (H3 A B); [apply cut_caller; auto|apply cut_A_rim; auto|apply cut_B_rim; auto]|].
      intros r m' X. exact (conj I X).
  - cbv beta. intros r m' (_ & X). exact X.
Qed.

(** A, B and C side by side in one object of 2000 elements; B begins inside A *)
Definition wsep : mem Z := mem3 2000 0 0 (fun i => Some (wA i)) (fun i => Some (wB i)) (fun _ => None).
Lemma wsep_caller : caller_at wsep (BufA, 0) (BufA, 3) (BufA, 515) 12 32 16 (fun i k => wA (i * 16 + k)) (fun k j => wA (3 + (k * 32 + j))).
Proof.
  unfold caller_at, argument, matrix_at. cbn. repeat split; try lia.
  1,2: eexists; (split; [reflexivity|]); cbn; (split; [lia|]); intros; reflexivity.
  - eexists. split; [reflexivity|]. cbn. lia.
  - intros b Hb. destruct b; try destruct Hb; reflexivity.
Qed.
Lemma wsep_A : A_rim_at wsep (BufA, 0) 12 16 6.
Proof. intros i k Hi. change (round_up 12 6) with 12 in Hi. lia. Qed.
Lemma wsep_B : B_rim_at wsep (BufA, 3) 32 16 16 0.
Proof. intros i k _ Hi. change (round_up 32 16) with 32 in Hi. lia. Qed.
Lemma wsep_clear : C_clear (BufA, 0) (BufA, 3) (BufA, 515) 12 32 16 6 16.
Proof. split; right; right; vm_compute; discriminate. Qed.
