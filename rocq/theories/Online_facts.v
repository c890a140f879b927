(** * Consequences for cake_sgemm_online. *)

From Coq Require Import ZArith List Bool Lia Permutation.
From Verif Require Import Lang Lang_facts Spec SpecTop SpecOnline ModelSizing ModelKernel ModelPack ModelSched ModelTop
     Kernel_facts Sizing_facts Init_facts SchedK_facts CallAll_facts Det_facts Exec Exec_facts Misc_facts Mult_facts TopOnline_facts
     Witness Witness_facts Refute_facts Race_facts.
Import ListNotations.
Open Scope Z_scope.

Lemma A_rim_vacuous {V} (m : mem V) M K mr : 0 < mr -> (mr | M) -> A_rim m M K mr.
Proof.
  intros Hn [q ->] i k Hi _. exfalso. unfold round_up, ceil_div in Hi.
  replace (q * mr + mr - 1) with (mr - 1 + q * mr) in Hi by ring.
  rewrite Z.div_add, (Z.div_small (mr - 1) mr) in Hi by lia. lia.
Qed.

Section Online.

Variable S : scalar.
Notation T := (elt S).
Variables (so : bool) (F : fpenv) (ar : arch) (q : cntx) (M N K p : Z) (c : cntx) (mcu kcu ncu : Z).
Hypothesis L : legal F ar KMN c M N K p mcu kcu ncu.
Hypothesis Hso : so = true -> one_thread M N K p (mr c).

Lemma online_product :
  exists ord c', orders K ord /\ same_ctx c c' /\
    forall A B m0, caller m0 M N K A B -> A_rim m0 M K (mr c) -> B_rim m0 N K (nr c) 0 ->
      always (cake_sgemm_online S so F ar q M N K p (Some c) mcu kcu ncu) m0
        (fun r m' => r = c' /\ holds m' BufC M N (product S A B ord) /\ only_C_changed m0 m' M N).
Proof.
  destruct (online_ok S so F ar q M N K p (Some c) c mcu kcu ncu eq_refl L Hso) as (ord & c' & H1 & H2 & _ & H3).
  exists ord, c'. auto.
Qed.

Lemma online_product_null : c = q ->
  exists ord, orders K ord /\
    forall A B m0, caller m0 M N K A B -> A_rim m0 M K (mr c) -> B_rim m0 N K (nr c) 0 ->
      always (cake_sgemm_online S so F ar q M N K p None mcu kcu ncu) m0
        (fun r m' => holds m' BufC M N (product S A B ord) /\
           (forall i, dat m' BufA i = dat m0 BufA i) /\ (forall i, dat m' BufB i = dat m0 BufB i)).
Proof.
  intros Eq. destruct (online_ok S so F ar q M N K p None c mcu kcu ncu Eq L Hso) as (ord & c' & H1 & H2 & _ & H3).
  exists ord. split; [auto|]. intros A B m0 Hc RA RB.
  eapply always_mono; [exact (H3 A B m0 Hc RA RB)|]. cbv beta. intros r m' (_ & E & (G & D)).
  destruct Hc as ((ba & A1 & _) & _ & (bb & B1 & _) & _).
  split; [exact E|split].
  - intros i. rewrite D; [reflexivity| |intros (? & _); discriminate]. cbn [start]. rewrite Frame_facts.live_alloc. cbn. congruence.
  - intros i. rewrite D; [reflexivity| |intros (? & _); discriminate]. cbn [start]. rewrite Frame_facts.live_alloc. cbn. congruence.
Qed.

Lemma online_same_as_K_first (nz : T -> bool) al be A B m0 :
  caller m0 M N K A B -> A_rim m0 M K (mr c) -> B_rim m0 N K (nr c) 0 ->
  forall r1 m1 r2 m2,
    pexec (cake_sgemm_online S so F ar q M N K p (Some c) mcu kcu ncu) m0 (Done r1 m1) ->
    pexec (cake_sgemm S F ar q nz M N K p (Some c) false false al be KMN mcu kcu ncu) m0 (Done r2 m2) ->
    r1 = r2 /\ (forall b, live m1 b = live m2 b) /\
    (forall b i, live m0 b <> None -> dat m1 b i = dat m2 b i).
Proof.
  intros Hc RA RB r1 m1 r2 m2 H1 H2.
  destruct (online_ok S so F ar q M N K p (Some c) c mcu kcu ncu eq_refl L Hso) as (ord & c' & _ & _ & (x & I1 & ->) & G).
  destruct (G A B m0 Hc RA RB) as (_ & G1). destruct (G1 _ H1) as (? & ? & E & -> & V1 & O1). injection E as <- <-.
  destruct L as (L1 & L2 & L3 & L4 & L5 & L6 & L7).
  destruct (cake_sgemm_ok_at S F ar q nz M N K p (Some c) al be KMN mcu kcu ncu 0) as (ord2 & c2 & _ & _ & X & H3); auto; try discriminate.
  destruct (X eq_refl) as (x2 & I2 & ->). rewrite I1 in I2. injection I2 as <- <-.
  assert (G2 := pok_always _ _ _ (H3 A B (fun _ _ => zero S) m0 Hc ltac:(congruence) ltac:(congruence))).
  destruct G2 as (_ & G2). destruct (G2 _ H2) as (? & ? & E & -> & V2 & O2). injection E as <- <-.
  destruct O1 as (O1 & P1). destruct O2 as (O2 & P2).
  split; [auto|split; [intros b; now rewrite O1, O2|]].
  intros b i Hb.
  destruct (buf_eqb_spec b BufC) as [->|Hn].
  2:{ rewrite P1, P2; auto; intros (? & _); congruence. }
  destruct (Z_le_gt_dec 0 i) as [Hi0|Hi0]; [destruct (Z_lt_ge_dec i (M * N)) as [Hi|Hi]|].
  2,3: rewrite P1, P2; auto; intros (_ & ?); lia.
  assert (0 < N) by (destruct (Z.eq_dec N 0); nia).
  assert (Hj := Z.mod_pos_bound i N ltac:(lia)). assert (Hq : 0 <= i / N < M).
  { split; [apply Z.div_pos; lia|apply Z.div_lt_upper_bound; lia]. }
  rewrite (Z.div_mod i N) by lia. rewrite (Z.mul_comm N).
  rewrite (V1 (i / N) (i mod N) Hq Hj), (V2 (i / N) (i mod N) Hq Hj). reflexivity.
Qed.

Lemma online_det A B m0 : caller m0 M N K A B -> A_rim m0 M K (mr c) -> B_rim m0 N K (nr c) 0 ->
  forall o1 o2, pexec (cake_sgemm_online S so F ar q M N K p (Some c) mcu kcu ncu) m0 o1 ->
    pexec (cake_sgemm_online S so F ar q M N K p (Some c) mcu kcu ncu) m0 o2 ->
  exists r m1 m2, o1 = Done r m1 /\ o2 = Done r m2 /\ same_mem m1 m2.
Proof.
  intros Hc RA RB. destruct online_product as (ord & c' & _ & _ & G). exact (always_det _ _ _ (G A B m0 Hc RA RB)).
Qed.

Lemma online_safe A B m0 : caller m0 M N K A B ->
  (mr c | M) \/ A_rim m0 M K (mr c) -> (nr c | N) \/ B_rim m0 N K (nr c) 0 ->
  (exists o, pexec (cake_sgemm_online S so F ar q M N K p (Some c) mcu kcu ncu) m0 o) /\
  forall o, pexec (cake_sgemm_online S so F ar q M N K p (Some c) mcu kcu ncu) m0 o -> exists r m', o = Done r m'.
Proof.
  intros Hc RA RB. destruct L as (L1 & L2 & _).
  pose proof (ctx_for_pos ar KMN c L1 L2) as (Hm & Hn).
  assert (RA' : A_rim m0 M K (mr c)) by (destruct RA; auto using A_rim_vacuous).
  assert (RB' : B_rim m0 N K (nr c) 0) by (destruct RB; auto using w_rim).
  destruct online_product as (ord & c' & _ & _ & G). destruct (G A B m0 Hc RA' RB') as (G1 & G2). split; [exact G1|].
  intros o Ho. destruct (G2 o Ho) as (r & m' & E & _). eauto.
Qed.

End Online.

(** ** Refutations *)

Definition wonl (so : bool) (M N K p : Z) : prog Z cntx :=
  cake_sgemm_online Zs so wF haswell wctx M N K p (Some wctx) 6 1 16.

Lemma online_race :
  exists M N K A B m0, legal wF haswell KMN wctx M N K 2 6 1 16 /\ caller m0 M N K A B /\
    (mr wctx | M) /\ (nr wctx | N) /\ pexec (wonl true M N K 2) m0 Undef.
Proof.
  exists 12, 16, 1. do 2 eexists. exists (wmem 12 16 1).
  split; [apply w_legal; lia|split; [apply w_caller|split; [exists 2; reflexivity|split; [exists 1; reflexivity|]]]].
  apply prace_sound. vm_compute. reflexivity.
Qed.

Lemma online_unsafe :
  (exists M N K A B m0, legal wF haswell KMN wctx M N K 1 6 1 16 /\ caller m0 M N K A B /\ (nr wctx | N) /\
     pexec (wonl false M N K 1) m0 Undef) /\
  (exists M N K A B m0, legal wF haswell KMN wctx M N K 1 6 1 16 /\ caller m0 M N K A B /\ (mr wctx | M) /\
     pexec (wonl false M N K 1) m0 Undef).
Proof.
  split.
  - exists 1, 16, 1. do 2 eexists. exists (wmem 1 16 1).
    split; [apply w_legal; lia|split; [apply w_caller|split; [exists 1; reflexivity|]]].
    apply (refute_by_undef _ (wmem 1 16 1) (fun _ _ => True)). vm_compute; reflexivity.
  - exists 6, 17, 1. do 2 eexists. exists (wmem 6 17 1).
    split; [apply w_legal; lia|split; [apply w_caller|split; [exists 1; reflexivity|]]].
    apply (refute_by_undef _ (wmem 6 17 1) (fun _ _ => True)). vm_compute; reflexivity.
Qed.
