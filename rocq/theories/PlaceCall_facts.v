(** * Matrices anywhere in the caller's memory: cake_sgemm. *)

From Coq Require Import ZArith List Bool Lia.
From Verif Require Import Lang Lang_facts Exec Exec_facts Spec SpecTop SpecOnline ModelSizing ModelKernel ModelPack ModelSched ModelTop ModelPlace SpecPlace
     Frame_facts TopK_facts Alloc_facts Mult_facts Online_facts Grid_call_facts Small2d_facts Refute_facts Witness Witness_facts Place_facts.
Import ListNotations.
Open Scope Z_scope.

Local Transparent tfor tfor_ne tbind pbind tload tload_al tstore.

Section Post.

Context {V : Type}.
Variables (rd wr : buf -> bool).

(** as tuses, and what is returned satisfies Q *)
Fixpoint tpost {R} (Q : R -> Prop) (t : thr V R) : Prop :=
  match t with
  | TRet r => Q r
  | TLoad al b i k => (callers b = true -> rd b = true /\ al = 1) /\ forall v, tpost Q (k v)
  | TStore b i v k => (callers b = true -> wr b = true) /\ tpost Q k
  | TFail => True
  end.

Lemma tpost_bind {R R'} (Q : R -> Prop) (Q' : R' -> Prop) (t : thr V R) (f : R -> thr V R') :
  tpost Q t -> (forall r, Q r -> tpost Q' (f r)) -> tpost Q' (tbind t f).
Proof. intros Ht Hf. induction t; cbn in *; intuition auto. Qed.

Lemma tpost_titer {S} (Q : S -> Prop) n : forall z step (f : Z -> S -> thr V S) s, Q s ->
  (forall z s, Q s -> tpost Q (f z s)) -> tpost Q (titer n z step f s).
Proof. induction n; cbn; intros; auto. apply (tpost_bind Q); auto. Qed.

Lemma tpost_tfor {S} (Q : S -> Prop) lo hi step (s : S) (f : Z -> S -> thr V S) : Q s ->
  (forall z s, Q s -> tpost Q (f z s)) -> tpost Q (tfor lo hi step s f).
Proof. intros H0 H. unfold tfor. destruct (0 <? step); [now apply tpost_titer|]. destruct (lo <? hi); cbn; auto. Qed.

Lemma tpost_uses {R} (Q : R -> Prop) (t : thr V R) : tpost Q t -> tuses rd wr t.
Proof. induction t; cbn; intuition auto. Qed.

End Post.

Section Kernel.

Variable S : scalar.
Notation T := (elt S).
Variables (rd wr : buf -> bool).
Notation own p := (callers (fst p) = false).

Lemma vec_post al p n : own p -> tpost rd wr (fun _ => True) (load_vec S al p n).
Proof.
  intros H. unfold load_vec. apply tpost_tfor; [exact I|]. intros z s _. unfold tload_al. cbn [tbind tpost]. split; [|auto].
  intros C. congruence.
Qed.

Lemma inner_post ar kmr knr n st : own (fst (fst st)) -> own (snd (fst st)) ->
  tpost rd wr (fun st' => own (fst (fst st')) /\ own (snd (fst st'))) (inner S ar kmr knr n st).
Proof.
  destruct st as [[A B] c]. cbn [fst snd]. intros HA HB. unfold inner.
  apply (tpost_bind rd wr (fun _ => True)); [now apply vec_post|]. intros b _.
  apply (tpost_bind rd wr (fun ac : ptr * (Z -> T) => own (fst ac))).
  - apply tpost_tfor; [exact HA|]. intros z [P g] HP. cbn [fst snd] in *. unfold tload. cbn [tbind tpost].
    split; [intros C; congruence|]. intros v. exact HP.
  - intros [P g] HP. cbn [tpost fst snd]. auto.
Qed.

Lemma ukernel_uses ar kmr knr A B C m n k : own A -> own B -> own C -> tuses rd wr (ukernel S ar kmr knr A B C m n k).
Proof.
  intros HA HB HC. apply (tpost_uses rd wr (fun _ => True)). unfold ukernel.
  apply (tpost_bind rd wr (fun _ => True)); [now apply vec_post|]. intros c _. cbv zeta.
  set (Q := fun st : ptr * ptr * (Z -> T) => own (fst (fst st)) /\ own (snd (fst st))).
  apply (tpost_bind rd wr Q).
  - apply tpost_tfor; [now split|]. intros z st (H1 & H2).
    apply (tpost_bind rd wr Q); [now apply inner_post|]. intros st1 (H3 & H4).
    apply (tpost_bind rd wr Q); [now apply inner_post|]. intros st2 (H5 & H6).
    apply (tpost_bind rd wr Q); [now apply inner_post|]. intros st3 (H7 & H8). now apply inner_post.
  - intros st Hst. apply (tpost_bind rd wr Q).
    + apply tpost_tfor; [exact Hst|]. intros z st1 (H3 & H4). now apply inner_post.
    + intros st1 _. unfold store_vec, tfor_. apply tpost_tfor; [exact I|]. intros z s _. cbn. split; [intros C'; congruence|exact I].
Qed.

End Kernel.

Section Pieces.

Variable S : scalar.
Notation T := (elt S).
Variables (rd wr : buf -> bool).
Definition rdp (p : ptr) : Prop := callers (fst p) = true -> rd (fst p) = true.
Definition wrp (p : ptr) : Prop := callers (fst p) = true -> wr (fst p) = true.

Lemma pload_uses p i : rdp p -> tuses rd wr (pload S p i).
Proof. intros H. cbn. auto. Qed.
Lemma pstore_uses p i v : wrp p -> tuses rd wr (pstore S p i v).
Proof. intros H. cbn. auto. Qed.
Lemma copy0_uses pad p i q j : rdp q -> wrp p -> tuses rd wr (copy0 S pad p i q j).
Proof. intros H1 H2. unfold copy0. destruct pad; [now apply pstore_uses|]. apply tuses_bind; [now apply pload_uses|]. intros. now apply pstore_uses. Qed.

Lemma rdp_padd p i : rdp p -> rdp (padd p i).
Proof. auto. Qed.
Lemma wrp_padd p i : wrp p -> wrp (padd p i).
Proof. auto. Qed.

Local Opaque tfor tfor_ne tbind pbind pfor pfor_ne ppar_for pload pstore copy0.

Ltac us := repeat (cbv zeta; match goal with
  | |- tuses _ _ (TRet _) => exact I
  | |- tuses _ _ TFail => exact I
  | |- puses _ _ (PRet _) => exact I
  | |- puses _ _ PUB => exact I
  | |- puses _ _ PExit => exact I
  | |- tuses _ _ (copy0 _ _ _ _ _ _) => apply copy0_uses
  | |- tuses _ _ (pload _ _ _) => apply pload_uses
  | |- tuses _ _ (pstore _ _ _ _) => apply pstore_uses
  | |- tuses _ _ (tfor _ _ _ _ _) => apply tuses_tfor; intros
  | |- tuses _ _ (tfor_ne _ _ _ _ _) => apply tuses_tfor_ne; intros
  | |- tuses _ _ (tbind _ _) => apply tuses_bind; intros
  | |- puses _ _ (pbind _ _) => apply puses_bind; intros
  | |- puses _ _ (pfor _ _ _ _ _) => apply puses_pfor; intros
  | |- puses _ _ (pfor_ne _ _ _ _ _) => apply puses_pfor_ne; intros
  | |- puses _ _ (ppar_for _ _ _ _) => apply puses_ppar; intros
  | |- rdp (padd _ _) => apply rdp_padd
  | |- wrp (padd _ _) => apply wrp_padd
  | |- rdp _ => first [assumption | let Hc := fresh in intros Hc; discriminate Hc]
  | |- wrp _ => first [assumption | let Hc := fresh in intros Hc; discriminate Hc]
  | |- tuses _ _ (match ?x with _ => _ end) => destruct x
  | |- puses _ _ (match ?x with _ => _ end) => destruct x
  end).

Lemma ob_A_uses A A_p M K m1 m2 m_c k_c m_r : rdp A -> wrp A_p -> tuses rd wr (pack_ob_A_single_buf S A A_p M K m1 m2 m_c k_c m_r).
Proof. intros. unfold pack_ob_A_single_buf. us. Qed.
Lemma ob_B_uses B B_p K N n1 k_c n_c n_r pad : rdp B -> wrp B_p -> tuses rd wr (pack_ob_B_single_buf S B B_p K N n1 k_c n_c n_r pad).
Proof. intros. unfold pack_ob_B_single_buf. us. Qed.
Lemma ob_C_uses C C_p M N m1 n1 m2 m_c n_c m_r n_r pm pn : rdp C -> wrp C_p ->
  tuses rd wr (pack_ob_C_single_buf S C C_p M N m1 n1 m2 m_c n_c m_r n_r pm pn).
Proof. intros. unfold pack_ob_C_single_buf. us. Qed.
Lemma unob_C_uses C C_p M N m1 n1 m2 m_c n_c m_r n_r : wrp C -> rdp C_p ->
  tuses rd wr (unpack_ob_C_single_buf S C C_p M N m1 n1 m2 m_c n_c m_r n_r).
Proof. intros. unfold unpack_ob_C_single_buf. us. Qed.
Lemma memset_uses p n : wrp p -> tuses rd wr (memset0 S p n).
Proof. intros. unfold memset0, tfor_. us. Qed.

Lemma pack_A_uses A A_p M K p x c s : rdp A -> wrp A_p -> puses rd wr (pack_A S A A_p M K p x c s).
Proof.
  intros. destruct s; unfold pack_A, pack_A_single_buf_k_first, pack_A_single_buf_m_first, pack_A_single_buf_n_first, pfor_; us; apply ob_A_uses; us.
Qed.

Lemma pack_B_uses B B_p K N p x c s : rdp B -> wrp B_p -> puses rd wr (pack_B S B B_p K N p x c s).
Proof.
  intros. destruct s; unfold pack_B; [|unfold pack_B_m_first, pfor_; us; apply ob_B_uses; us|unfold pack_B_n_first, pfor_; us; apply ob_B_uses; us|us].
  unfold pack_B_k_first, packB_main, packB_tail, packB_elt, pfor_, tfor_. us.
Qed.

Lemma pack_C_uses C C_p M N p x c s : rdp C -> wrp C_p -> puses rd wr (pack_C S C C_p M N p x c s).
Proof.
  intros. destruct s; unfold pack_C, pack_C_single_buf_k_first, pack_C_single_buf_m_first, pack_C_single_buf_n_first, pfor_; us; apply ob_C_uses; us.
Qed.

Lemma unpack_C_uses C C_p M N p x c s : wrp C -> rdp C_p -> puses rd wr (unpack_C S C C_p M N p x c s).
Proof.
  intros. destruct s; unfold unpack_C, unpack_C_single_buf_k_first, unpack_C_single_buf_m_first, unpack_C_single_buf_n_first, pfor_; us; apply unob_C_uses; us.
Qed.

Notation own p := (callers (fst p) = false).

Lemma tiles_uses kern A B C mt nt kt m_r n_r : own A -> own B -> own C ->
  (forall A B C m n k, own A -> own B -> own C -> tuses rd wr (kern A B C m n k)) ->
  tuses rd wr (tile_loops S kern A B C mt nt kt m_r n_r).
Proof. intros HA HB HC Hk. unfold tile_loops, tfor_. us. now apply Hk. Qed.

Lemma kernel_map_uses ar i j A B C m n k : own A -> own B -> own C -> tuses rd wr (kernel_map S ar i j A B C m n k).
Proof. intros. unfold kernel_map. destruct (_ && _); [|exact I]. now apply ukernel_uses. Qed.

Lemma KMN_uses ar A_p B_p C M N K p c x : own A_p -> own B_p -> wrp C ->
  puses rd wr (schedule_KMN S ar A_p B_p C M N K p c x).
Proof.
  intros HA HB HC. unfold schedule_KMN, pfor_, pfor_ne_. us.
  - unfold kmn_core, tfor_ne_. us. apply tiles_uses; auto. intros. now apply kernel_map_uses.
  - unfold kmn_unpack. us; [apply unob_C_uses; us|apply memset_uses; us].
Qed.

Lemma schedule_uses ar A_p B_p C_p M N K p c x s : own A_p -> own B_p -> own C_p ->
  puses rd wr (schedule S ar A_p B_p C_p M N K p c x s).
Proof.
  intros HA HB HC. destruct s; unfold schedule, schedule_MKN, schedule_NKM, pfor_, pfor_ne_; us.
  - unfold mkn_row, tfor_. us. apply tiles_uses; auto. intros. now apply ukernel_uses.
  - unfold nkm_col, tfor_. us. apply tiles_uses; auto. intros. now apply ukernel_uses.
Qed.

Lemma alloc_uses b n al (init : option T) : callers b = false -> puses rd wr (palloc b n al init).
Proof. intros H. cbn. auto. Qed.
Lemma free_uses b : callers b = false -> puses rd wr (pfree b : prog T unit).
Proof. intros H. cbn. auto. Qed.
Lemma lift_uses {A} (c : comp A) : puses rd wr (lift S c).
Proof. destruct c; exact I. Qed.

Lemma mid_uses ar nz M N K p be x c A_p B_p : own A_p -> own B_p -> rdp (BufC, 0) -> wrp (BufC, 0) ->
  puses rd wr (sgemm_mid S ar nz M N K p be x c A_p B_p).
Proof.
  intros HA HB HR HW. unfold sgemm_mid.
  assert (G : forall s, puses rd wr (pbind (lift S (packed_C_size M N p x (mr c) (nr c) s)) (fun sz =>
     pbind (if nz be then pbind (palloc (BufCp 0) sz true None) (fun _ => pack_C S (BufC, 0) (BufCp 0, 0) M N p x c s)
            else palloc (BufCp 0) sz false (Some (zero S))) (fun _ =>
     pbind (schedule S ar A_p B_p (BufCp 0, 0) M N K p c x s) (fun _ =>
     pbind (unpack_C S (BufC, 0) (BufCp 0, 0) M N p x c s) (fun _ => pfree (BufCp 0))))))).
  { intros s. us; first [apply lift_uses|apply alloc_uses; reflexivity|apply free_uses; reflexivity
      |apply pack_C_uses; us|apply unpack_C_uses; us|apply schedule_uses; auto]. }
  destruct (sch x) eqn:Es; try apply G.
  unfold alloc_Cp, free_Cp, pfor_. us; first [apply alloc_uses; reflexivity|apply free_uses; reflexivity|apply KMN_uses; auto].
Qed.

Lemma pack_A_mr_uses A A_p K kc m_r : rdp A -> wrp A_p -> tuses rd wr (pack_A_mr_x_kc S A A_p K kc m_r).
Proof. intros. unfold pack_A_mr_x_kc. us. Qed.
Lemma pack_B_nr_uses B B_p N kc n_r : rdp B -> wrp B_p -> tuses rd wr (pack_B_nr_x_kc S B B_p N kc n_r).
Proof. intros. unfold pack_B_nr_x_kc. us. Qed.

Lemma online_uses so ar A B C M N K p c x : rdp A -> rdp B -> wrp C ->
  puses rd wr (schedule_KMN_online S so ar A B C M N K p c x).
Proof.
  intros HA HB HC. unfold schedule_KMN_online, pfor_, pfor_ne_. us.
  - unfold online_packB. us. apply pack_B_nr_uses; us.
  - unfold online_core, tfor_. us; try (cbn; split; [intros; discriminate|exact I]).
    all: first [apply pack_A_mr_uses; us|apply tiles_uses; auto; intros; now apply kernel_map_uses].
  - unfold kmn_unpack. us; [apply unob_C_uses; us|apply memset_uses; us].
Qed.

Lemma g2_uses ar A B C M N K c x : rdp A -> rdp B -> wrp C -> puses rd wr (schedule_KMN_2d S ar A B C M N K c x).
Proof.
  intros HA HB HC. unfold schedule_KMN_2d, pfor_, pfor_ne_. us.
  all: try (unfold g2_packB; us; apply pack_B_nr_uses; us).
  all: try (unfold g2_packA; us; apply pack_A_mr_uses; us).
  all: try (unfold g2_core; us; apply tiles_uses; auto; intros; now apply ukernel_uses).
  all: unfold g2_unpack; us; [apply unob_C_uses; us|apply memset_uses; us].
Qed.

Definition small_loop ar (A B : ptr) N K p c x : prog T unit :=
  pfor_ 0 (Kb x) 1 (fun k =>
     let kt := blk_kt x k in
     pbind (ppar_for 0 (N_padded x) (nr c) (fun n2 =>
       pack_B_nr_x_kc S (padd B (k * k_c x * N + n2)) (BufBp, n2 * kt) N kt (nr c))) (fun _ =>
     pbind (ppar_for 0 (M_padded x) (mr c) (fun m3 =>
       pack_A_mr_x_kc S (padd A (k * k_c x + m3 * K)) (BufAp 0, m3 * kt) K kt (mr c))) (fun _ =>
     ppar_for 0 p 1 (sm_core S ar c x k)))).

Lemma small_split ar A B C M N K p c x : schedule_KMN_2d_small S ar A B C M N K p c x =
  pbind (small_loop ar A B N K p c x) (fun _ => ppar_for 0 p 1 (sm_unpack S C M N c x)).
Proof. reflexivity. Qed.

Lemma small_loop_uses ar A B N K p c x : rdp A -> rdp B -> puses rd wr (small_loop ar A B N K p c x).
Proof.
  intros HA HB. unfold small_loop, pfor_. us.
  - apply pack_B_nr_uses; us.
  - apply pack_A_mr_uses; us.
  - unfold sm_core; us; apply tiles_uses; auto; intros; now apply ukernel_uses.
Qed.
Lemma small_unpack_uses C M N p c x : wrp C -> puses rd wr (ppar_for 0 p 1 (sm_unpack S C M N c x)).
Proof. intros HC. us. unfold sm_unpack; us; [apply unob_C_uses; us|apply memset_uses; us]. Qed.

Lemma ctx_uses q oc : puses rd wr (get_ctx S q oc).
Proof. destruct oc; unfold get_ctx; us; try (apply alloc_uses; reflexivity). Qed.

Ltac us' := repeat (us; match goal with
  | |- puses _ _ (lift _ _) => apply lift_uses
  | |- puses _ _ (palloc _ _ _ _) => apply alloc_uses; reflexivity
  | |- puses _ _ (pfree _) => apply free_uses; reflexivity
  | |- puses _ _ (get_ctx _ _ _) => apply ctx_uses
  | |- puses _ _ (schedule_KMN_online _ _ _ _ _ _ _ _ _ _ _ _) => apply online_uses; us
  | |- puses _ _ (schedule_KMN_2d _ _ _ _ _ _ _ _ _ _) => apply g2_uses; us
  end).

Lemma call_online_uses so F ar q M N K p oc mcu kcu ncu : rdp (BufA, 0) -> rdp (BufB, 0) -> wrp (BufC, 0) ->
  puses rd wr (cake_sgemm_online S so F ar q M N K p oc mcu kcu ncu).
Proof. intros. unfold cake_sgemm_online, alloc_Cp, pfor_. us'. Qed.
Lemma call_2d_uses F ar q rows M N K p oc mcu kcu ncu : rdp (BufA, 0) -> rdp (BufB, 0) -> wrp (BufC, 0) ->
  puses rd wr (cake_sgemm_2d S F ar q rows M N K p oc mcu kcu ncu).
Proof. intros. unfold cake_sgemm_2d, alloc_Cp, free_Cp, pfor_. us'. Qed.
End Pieces.

(** ** The calls *)

Section Call.

Context {V : Type}.
Variables (pA pB pC : ptr).
Hypothesis HA : argument pA.
Hypothesis HB : argument pB.
Hypothesis HC : argument pC.
Notation pl := (arg pA pB pC).
Notation see := (seen pA pB pC).

(** the program can only return r0 *)
Fixpoint only_ret {R} (r0 : R) (P : prog V R) : Prop :=
  match P with
  | PRet r => r = r0
  | PPar _ k => only_ret r0 k
  | PAlloc _ _ _ _ k => only_ret r0 k
  | PFree _ k => only_ret r0 k
  | PUB => True
  | PExit => True
  end.

Lemma only_ret_exec {R} (r0 : R) (P : prog V R) : only_ret r0 P -> forall m o, pexec P m o ->
  match o with Done r _ => r = r0 | _ => True end.
Proof. intros H m o X. induction X; cbn in *; auto; exact (IHX H). Qed.

Lemma only_ret_bind {R R'} (r0 : R') (P : prog V R) (f : R -> prog V R') :
  (forall r, only_ret r0 (f r)) -> only_ret r0 (pbind P f).
Proof. intros H. induction P; cbn; auto. Qed.

Definition all (b : buf) : bool := true.
Definition none (b : buf) : bool := false.
Definition isC (b : buf) : bool := match b with BufC => true | _ => false end.

Notation Rel1 := (@Rel V all pA pB pC).
Notation Rel2 := (@Rel V isC pA pB pC).

(** A final state m' of the displaced call, against a final state m1 of the plain one *)
Definition placed (m0 m1 m' : mem V) : Prop :=
  (forall b, b = BufC \/ callers b = false -> live m1 b = live (see m') b /\ forall i, dat m1 b i = dat (see m') b i) /\
  (forall b, callers b = true -> live m' b = live m0 b /\ (b <> fst pC -> forall i, dat m' b i = dat m0 b i)).

Lemma see_self m : Rel1 (see m) m.
Proof. intros b _. split; auto. Qed.
Lemma Rel12 m1 m : Rel1 m1 m -> Rel2 m1 m.
Proof. intros H b _. apply H. intros _. reflexivity. Qed.

Lemma frame_none m m' : frame none pA pB pC m m' -> forall b, callers b = true -> live m' b = live m b /\ forall i, dat m' b i = (dat m b i : option V).
Proof. intros H b Hb. destruct (H b Hb) as (H1 & H2). split; [exact H1|]. intros i. apply H2. intros b' _ E. discriminate E. Qed.

Lemma Rel2_placed m0 m m1 m' : (forall b, callers b = true -> live m b = live m0 b /\ forall i, dat m b i = dat m0 b i) ->
  Rel2 m1 m' -> frame isC pA pB pC m m' -> placed m0 m1 m'.
Proof.
  intros H0 HR HF. split.
  - intros b Hb. apply HR. destruct Hb as [->|Hb]; intros C; [reflexivity|congruence].
  - intros b Hb. destruct (HF b Hb) as (F1 & F2), (H0 b Hb) as (G1 & G2). split; [congruence|]. intros Hn i.
    rewrite F2, G2; auto. intros b' Hb' Hw. destruct b'; cbn in Hw; try discriminate. cbn. congruence.
Qed.

(** first a part that writes to none of the three, then one that touches C alone *)
Lemma two_phases {R R'} (P : prog V R) (f : R -> prog V R') (Q : R' -> mem V -> Prop) m0 m m1 :
  Rel1 m1 m -> (forall b, callers b = true -> live m b = live m0 b /\ forall i, dat m b i = dat m0 b i) ->
  puses all none P -> pok (pbind P f) m1 Q ->
  (forall r m1' m', pexec P m1 (Done r m1') -> Rel1 m1' m' -> (forall b, callers b = true -> live m' b = live m0 b /\ forall i, dat m' b i = dat m0 b i) ->
     pok (f r) m1' Q -> pok (call_at pl (f r)) m' (fun r m' => exists m1, Q r m1 /\ placed m0 m1 m')) ->
  pok (call_at pl (pbind P f)) m (fun r m' => exists m1, Q r m1 /\ placed m0 m1 m').
Proof.
  intros HR H0 Hu H Hf. rewrite call_at_bind. apply pok_bind. destruct (pok_bind_inv P f m1 Q H) as (K1 & K2).
  eapply pok_mono; [apply (pok_sim all none pA pB pC HA HB HC); [| |exact HR|exact Hu|exact K1]|].
  - intros b _ _. reflexivity.
  - intros b b' _ W. discriminate W.
  - cbv beta. intros r m' (m1' & _ & X & HR' & HF). apply (Hf r m1' m' X HR'); [|now apply K2].
    intros b Hb. destruct (frame_none m m' HF b Hb) as (F1 & F2), (H0 b Hb) as (G1 & G2). split; [congruence|].
    intros i. rewrite F2. apply G2.
Qed.

Lemma second_phase {R} (P : prog V R) (Q : R -> mem V -> Prop) m0 m m1 :
  Rel1 m1 m -> (forall b, callers b = true -> live m b = live m0 b /\ forall i, dat m b i = dat m0 b i) ->
  puses isC isC P -> pok P m1 Q -> pok (call_at pl P) m (fun r m' => exists m1, Q r m1 /\ placed m0 m1 m').
Proof.
  intros HR H0 Hu H.
  eapply pok_mono; [apply (pok_sim isC isC pA pB pC HA HB HC); [| |apply (Rel12 _ _ HR)|exact Hu|exact H]|].
  - intros b Hb. exact Hb.
  - intros b b' C1 W C2 W2 _. destruct b, b'; cbn in W, W2; congruence.
  - cbv beta. intros r m' (m1' & HQ & _ & HR' & HF). exists m1'. split; [exact HQ|]. now apply (Rel2_placed m0 m).
Qed.

End Call.

Section Sgemm.

Variable S : scalar.
Notation T := (elt S).
Variables (pA pB pC : ptr).
Hypothesis HA : argument pA.
Hypothesis HB : argument pB.
Hypothesis HC : argument pC.
Notation pl := (arg pA pB pC).
Notation see := (seen pA pB pC).

Local Transparent pbind.
Lemma bind_assoc {R R' R''} (P : prog T R) (f : R -> prog T R') (g : R' -> prog T R'') :
  pbind (pbind P f) g = pbind P (fun r => pbind (f r) g).
Proof. induction P; cbn; auto; now rewrite IHP. Qed.
Local Opaque pbind.

Lemma sgemm_at F ar q nz M N K p oc al be s mcu kcu ncu m0 (Q : cntx -> mem T -> Prop) :
  pok (cake_sgemm S F ar q nz M N K p oc false false al be s mcu kcu ncu) (see m0) Q ->
  pok (call_at pl (cake_sgemm S F ar q nz M N K p oc false false al be s mcu kcu ncu)) m0
    (fun r m' => exists m1, Q r m1 /\ placed pA pB pC m0 m1 m').
Proof.
  rewrite cake_sgemm_unfold. intros H.
  pose proof (see_self pA pB pC m0) as HR.
  assert (H0 : forall b, callers b = true -> live m0 b = live m0 b /\ forall i, dat m0 b i = dat m0 b i) by auto.
  apply (two_phases pA pB pC HA HB HC _ _ Q m0 m0 _ HR H0); [apply ctx_uses|exact H|]. clear HR H0 H. intros c0 m1 m _ HR H0 H.
  apply (two_phases pA pB pC HA HB HC _ _ Q m0 m m1 HR H0); [apply alloc_uses; reflexivity|exact H|]. clear HR H0 H. intros u n1 n _ HR H0 H. clear m m1. rename n1 into m1, n into m.
  apply (two_phases pA pB pC HA HB HC _ _ Q m0 m m1 HR H0); [apply lift_uses|exact H|]. clear HR H0 H. intros xc n1 n _ HR H0 H. clear m m1. rename n1 into m1, n into m.
  unfold sgemm_after, sgemm_rest in *. cbv zeta in *.
  apply (two_phases pA pB pC HA HB HC _ _ Q m0 m m1 HR H0); [|exact H|].
  { apply puses_bind; intros; [apply lift_uses|]. apply puses_bind; intros; [apply alloc_uses; reflexivity|].
    apply puses_bind; intros; [apply pack_A_uses; intros E; [reflexivity|discriminate E]|exact I]. }
  clear HR H0 H. intros A_p m1a ma X HR H0 H.
  assert (EA : A_p = (BufAp 0, 0)).
  { refine (only_ret_exec (BufAp 0, 0) _ _ _ _ X). apply only_ret_bind; intros. apply only_ret_bind; intros. apply only_ret_bind; intros. reflexivity. }
  subst A_p. clear X m m1.
  apply (two_phases pA pB pC HA HB HC _ _ Q m0 ma m1a HR H0); [|exact H|].
  { apply puses_bind; intros; [apply lift_uses|]. apply puses_bind; intros; [apply alloc_uses; reflexivity|].
    apply puses_bind; intros; [apply pack_B_uses; intros E; [reflexivity|discriminate E]|exact I]. }
  clear HR H0 H. intros B_p m1 m X HR H0 H.
  assert (EB : B_p = (BufBp, 0)).
  { refine (only_ret_exec (BufBp, 0) _ _ _ _ X). apply only_ret_bind; intros. apply only_ret_bind; intros. apply only_ret_bind; intros. reflexivity. }
  subst B_p. clear X ma m1a.
  apply (second_phase pA pB pC HA HB HC _ Q m0 m m1 HR H0); [|exact H].
  apply puses_bind; intros; [apply mid_uses; try reflexivity; intros E; reflexivity|].
  apply puses_bind; intros; [apply free_uses; reflexivity|].
  apply puses_bind; intros; [apply free_uses; reflexivity|].
  apply puses_bind; intros; [apply free_uses; reflexivity|exact I].
Qed.

(** cake_sgemm_2d_small writes C when A and B have been read for the last time *)
Lemma small_call_at F ar q rows M N K p oc m0 (Q : unit -> mem T -> Prop) :
  pok (cake_sgemm_2d_small S F ar q rows M N K p oc) (see m0) Q ->
  pok (call_at pl (cake_sgemm_2d_small S F ar q rows M N K p oc)) m0
    (fun r m' => exists m1, Q r m1 /\ placed pA pB pC m0 m1 m').
Proof.
  unfold cake_sgemm_2d_small. intros H.
  pose proof (see_self pA pB pC m0) as HR.
  assert (H0 : forall b, callers b = true -> live m0 b = live m0 b /\ forall i, dat m0 b i = dat m0 b i) by auto.
  apply (two_phases pA pB pC HA HB HC _ _ Q m0 m0 _ HR H0); [apply ctx_uses|exact H|]. clear HR H0 H. intros c m1 m _ HR H0 H.
  apply (two_phases pA pB pC HA HB HC _ _ Q m0 m m1 HR H0); [apply alloc_uses; reflexivity|exact H|]. clear HR H0 H. intros u n1 n _ HR H0 H. clear m m1. rename n1 into m1, n into m.
  apply (two_phases pA pB pC HA HB HC _ _ Q m0 m m1 HR H0); [apply lift_uses|exact H|]. clear HR H0 H. intros x n1 n _ HR H0 H. clear m m1. rename n1 into m1, n into m.
  apply (two_phases pA pB pC HA HB HC _ _ Q m0 m m1 HR H0); [apply alloc_uses; reflexivity|exact H|]. clear HR H0 H. intros u1 n1 n _ HR H0 H. clear m m1. rename n1 into m1, n into m.
  apply (two_phases pA pB pC HA HB HC _ _ Q m0 m m1 HR H0); [apply alloc_uses; reflexivity|exact H|]. clear HR H0 H. intros u2 n1 n _ HR H0 H. clear m m1. rename n1 into m1, n into m.
  apply (two_phases pA pB pC HA HB HC _ _ Q m0 m m1 HR H0); [unfold alloc_Cp, pfor_; apply puses_pfor; intros; apply alloc_uses; reflexivity|exact H|].
  clear HR H0 H. intros u3 n1 n _ HR H0 H. clear m m1. rename n1 into m1, n into m.
  rewrite small_split, bind_assoc in *.
  apply (two_phases pA pB pC HA HB HC _ _ Q m0 m m1 HR H0); [apply small_loop_uses; intros _; reflexivity|exact H|]. clear HR H0 H. intros u4 n1 n _ HR H0 H. clear m m1. rename n1 into m1, n into m.
  apply (second_phase pA pB pC HA HB HC _ Q m0 m m1 HR H0); [|exact H].
  apply puses_bind; intros; [apply small_unpack_uses; intros _; reflexivity|].
  apply puses_bind; intros; [apply free_uses; reflexivity|].
  apply puses_bind; intros; [unfold free_Cp, pfor_; apply puses_pfor; intros; apply free_uses; reflexivity|].
  apply puses_bind; intros; [apply free_uses; reflexivity|apply free_uses; reflexivity].
Qed.

(** ** What the caller sees *)

Lemma caller_see m0 M N K (A B : Z -> Z -> T) : caller_at m0 pA pB pC M N K A B -> caller (see m0) M N K A B.
Proof.
  intros (_ & _ & _ & (ba & LA & BA & DA) & (bb & LB & BB & DB) & (bc & LC & BC) & HO).
  unfold caller, at_least. cbn [seen live dat arg]. rewrite LA, LB, LC. repeat split.
  - eexists. split; [reflexivity|]. cbn. lia.
  - intros i j Hi Hj. cbn [seen dat arg]. now apply DA.
  - eexists. split; [reflexivity|]. cbn. lia.
  - intros i j Hi Hj. cbn [seen dat arg]. now apply DB.
  - eexists. split; [reflexivity|]. cbn. lia.
  - intros b Hb. pose proof (HO b Hb) as E. destruct b; cbn [arg fst snd]; try (now rewrite E); destruct Hb.
Qed.

Lemma B_rim_see (m0 : mem T) N K n_r t : B_rim_at m0 pB N K n_r t -> B_rim (see m0) N K n_r t.
Proof.
  intros H k j Hk Hj. destruct (H k j Hk Hj) as (bi & v & L & Hl & D). cbn [seen live dat arg]. rewrite L. eexists _, v.
  split; [reflexivity|]. cbn [blen]. split; [lia|exact D].
Qed.
Lemma A_rim_see (m0 : mem T) M K m_r : A_rim_at m0 pA M K m_r -> A_rim (see m0) M K m_r.
Proof.
  intros H k j Hk Hj. destruct (H k j Hk Hj) as (bi & v & L & Hl & D). cbn [seen live dat arg]. rewrite L. eexists _, v.
  split; [reflexivity|]. cbn [blen]. split; [lia|exact D].
Qed.

Lemma placed_result m0 m1 m' M N (A B f : Z -> Z -> T) K : caller_at m0 pA pB pC M N K A B ->
  placed pA pB pC m0 m1 m' -> holds m1 BufC M N f -> only_C_changed (see m0) m1 M N ->
  matrix_at m' pC M N f /\ only_changed_at pC m0 m' M N.
Proof.
  intros (_ & _ & _ & _ & _ & (bc & LC & BC) & HO) (P1 & P2) Hh (HL & HD). destruct HC as (CC & OC).
  destruct (P1 BufC (or_introl eq_refl)) as (L1 & D1). cbn [seen live dat arg] in L1, D1. split.
  - exists bc. destruct (P2 (fst pC) CC) as (E & _). rewrite E. split; [exact LC|split; [exact BC|]].
    intros i j Hi Hj. rewrite <- D1. now apply Hh.
  - assert (Own : forall b, callers b = false -> live m' b = live m0 b /\ forall i, live m0 b <> None -> dat m' b i = dat m0 b i).
    { intros b Hb. destruct (P1 b (or_intror Hb)) as (L2 & D2). pose proof (HL b) as L3.
      assert (Ea : arg pA pB pC b = (b, 0)) by (destruct b; try discriminate Hb; reflexivity).
      cbn [seen live dat] in L2, D2, L3. rewrite Ea in *. cbn [fst snd] in *. split.
      - rewrite L3 in L2. destruct (live m' b) as [[n a]|], (live m0 b) as [[n' a']|]; cbn [blen b64] in L2; try discriminate L2; auto.
        change (0 mod 16 =? 0) with true in L2. rewrite !andb_true_r, !Z.sub_0_r in L2. injection L2 as -> ->. reflexivity.
      - intros i Hl. assert (E : dat m1 b i = dat (see m0) b i).
        { apply HD; [|intros (-> & _); discriminate Hb]. cbn [seen live]. rewrite Ea. cbn [fst snd]. destruct (live m0 b); [discriminate|congruence]. }
        rewrite D2 in E. cbn [seen dat] in E. rewrite Ea in E. exact E. }
    split.
    + intros b. destruct (callers b) eqn:Cb; [now apply P2|now apply Own].
    + intros b i Hl Hn. destruct (callers b) eqn:Cb; [|now apply Own].
      destruct (buf_eqb_spec b (fst pC)) as [->|Nb]; [|now apply P2].
      assert (E : dat m1 BufC (i - snd pC) = dat (see m0) BufC (i - snd pC)).
      { apply HD; [cbn [seen live arg]; rewrite LC; discriminate|]. intros (_ & Hi). apply Hn. split; [reflexivity|lia]. }
      rewrite D1 in E. cbn [seen dat arg] in E. replace (snd pC + (i - snd pC)) with i in E by lia. exact E.
Qed.

End Sgemm.

(** ** The products *)

Lemma sgemm_at_product S F ar q nz M N K p c al be s mcu kcu ncu t :
  legal F ar s c M N K p mcu kcu ncu -> (s <> KMN -> nz be = false /\ tail_ok c K p mcu kcu ncu t) ->
  exists ord c', orders K ord /\ same_ctx c c' /\
    forall (A B : Z -> Z -> elt S) pA pB pC m0, caller_at m0 pA pB pC M N K A B -> (s <> KMN -> B_rim_at m0 pB N K (nr c) t) ->
      always (call_at (arg pA pB pC) (cake_sgemm S F ar q nz M N K p (Some c) false false al be s mcu kcu ncu)) m0
        (fun r m' => r = c' /\ matrix_at m' pC M N (product S A B ord) /\ only_changed_at pC m0 m' M N).
Proof.
  intros L Hs.
  assert (G : exists ord c', orders K ord /\ same_ctx c c' /\
    forall A B m0, caller m0 M N K A B -> (s <> KMN -> B_rim m0 N K (nr c) t) ->
      always (cake_sgemm S F ar q nz M N K p (Some c) false false al be s mcu kcu ncu) m0
        (fun r m' => r = c' /\ holds m' BufC M N (product S A B ord) /\ only_C_changed m0 m' M N)).
  { assert (D : s = KMN \/ s <> KMN) by (destruct s; auto; right; discriminate). destruct D as [->|Hk].
    - destruct (K_first_ok S F ar q nz M N K p c al be KMN mcu kcu ncu L eq_refl) as (ord & c' & H1 & H2 & H3).
      exists ord, c'. auto.
    - destruct (Hs Hk) as (Hb & Ht).
      destruct (plain_ok S F ar q nz M N K p c al be s mcu kcu ncu L (Some c) t eq_refl (or_intror Hb) Ht) as (ord & c' & H1 & H2 & H3).
      exists ord, c'. auto. }
  destruct G as (ord & c' & H1 & H2 & H3). exists ord, c'. split; [exact H1|split; [exact H2|]].
  intros A B pA pB pC m0 HC HR. pose proof HC as (aA & aB & aC & _).
  apply pok_always. eapply pok_mono.
  - apply (sgemm_at S pA pB pC aA aB aC). apply (H3 A B).
    + exact (caller_see S pA pB pC m0 M N K A B HC).
    + intros Hk. apply B_rim_see. now apply HR.
  - cbv beta. intros r m' (m1 & (-> & Hh & Ho) & Hp). split; [reflexivity|].
    exact (placed_result S pA pB pC aC m0 m1 m' M N A B _ K HC Hp Hh Ho).
Qed.

Lemma rdA : rdp all (BufA, 0). Proof. intros _. reflexivity. Qed.
Lemma rdB : rdp all (BufB, 0). Proof. intros _. reflexivity. Qed.
Lemma wrC : wrp isC (BufC, 0). Proof. intros _. reflexivity. Qed.

Lemma small_at S F ar q rows M N K p pn c : legal_small F ar rows c M N K p pn ->
  forall (A B : Z -> Z -> elt S) pA pB pC m0, caller_at m0 pA pB pC M N K A B ->
  A_rim_at m0 pA M K (mr c) -> B_rim_at m0 pB N K (nr c) 0 ->
  always (call_at (arg pA pB pC) (cake_sgemm_2d_small S F ar q rows M N K p (Some c))) m0
    (fun _ m' => matrix_at m' pC M N (product S A B (fun _ _ => zrange 0 K)) /\ only_changed_at pC m0 m' M N).
Proof.
  intros L A B pA pB pC m0 HC R1 R2. pose proof HC as (aA & aB & aC & _).
  pose proof (small_product S F ar q rows M N K p pn c L A B _ (caller_see S pA pB pC m0 M N K A B HC) (A_rim_see S pA pB pC m0 M K _ R1) (B_rim_see S pA pB pC m0 N K _ 0 R2)) as H.
  apply pok_always. eapply pok_mono.
  - exact (small_call_at S pA pB pC aA aB aC F ar q rows M N K p (Some c) m0 _ H).
  - cbv beta. intros r m' (m1 & (Hh & Ho) & Hp). exact (placed_result S pA pB pC aC m0 m1 m' M N A B _ K HC Hp Hh Ho).
Qed.

(** the general form, spelt out *)
Lemma sgemm_anywhere S F ar q nz M N K p oc al be s mcu kcu ncu pA pB pC m0 (Q : cntx -> mem (elt S) -> Prop) :
  argument pA -> argument pB -> argument pC ->
  always (cake_sgemm S F ar q nz M N K p oc false false al be s mcu kcu ncu) (seen pA pB pC m0) Q ->
  always (call_at (arg pA pB pC) (cake_sgemm S F ar q nz M N K p oc false false al be s mcu kcu ncu)) m0
    (fun r m' => exists m1, Q r m1 /\
       (forall i, dat m' (fst pC) (snd pC + i) = dat m1 BufC i) /\
       (forall b, callers b = true -> live m' b = live m0 b) /\
       (forall b i, callers b = true -> b <> fst pC -> dat m' b i = dat m0 b i)).
Proof.
  intros aA aB aC H. apply pok_always. eapply pok_mono; [exact (sgemm_at S pA pB pC aA aB aC F ar q nz M N K p oc al be s mcu kcu ncu m0 Q H)|].
  cbv beta. intros r m' (m1 & Hq & P1 & P2). exists m1. split; [exact Hq|]. destruct (P1 BufC (or_introl eq_refl)) as (_ & D).
  split; [intros i; symmetry; apply D|]. split; [intros b Hb; now apply P2|]. intros b i Hb Hn. destruct (P2 b Hb) as (_ & E). now apply E.
Qed.

(** ** Witnesses *)

(** one object of 600 elements, the other two empty *)
Definition wone : mem Z := mem3 600 0 0 (fun i => Some (wA i)) (fun i => Some (wB i)) (fun _ => None).
(** A and C in one object *)
Definition wtwo : mem Z := mem3 600 600 0 (fun i => Some (wA i)) (fun i => Some (wB i)) (fun _ => None).
Definition out_at {R} (b : buf) (o : outcome Z R) (i : Z) : option Z := match o with Done _ m => dat m b i | _ => None end.

Lemma wone_caller : caller_at wone (BufA, 0) (BufA, 20) (BufA, 7) 13 33 5 (fun i k => wA (i * 5 + k)) (fun k j => wA (20 + (k * 33 + j))).
Proof.
  unfold caller_at, argument, matrix_at. cbn. repeat split; try lia.
  1,2: eexists; (split; [reflexivity|]); cbn; (split; [lia|]); intros; reflexivity.
  - eexists. split; [reflexivity|]. cbn. lia.
  - intros b Hb. destruct b; try destruct Hb; reflexivity.
Qed.

Lemma wtwo_caller p : p = (BufA, 0) -> caller_at wtwo p (BufB, 0) p 12 32 16 (fun i k => wA (i * 16 + k)) (fun k j => wB (k * 32 + j)).
Proof.
  intros ->. unfold caller_at, argument, matrix_at. cbn. repeat split; try lia.
  1,2: eexists; (split; [reflexivity|]); cbn; (split; [lia|]); intros; reflexivity.
  - eexists. split; [reflexivity|]. cbn. lia.
  - intros b Hb. destruct b; try destruct Hb; reflexivity.
Qed.

Lemma wtwo_A_rim : A_rim_at wtwo (BufA, 0) 12 16 6.
Proof. intros i k Hi. change (round_up 12 6) with 12 in Hi. lia. Qed.
Lemma wtwo_B_rim : B_rim_at wtwo (BufB, 0) 32 16 16 0.
Proof. intros i k _ Hi. change (round_up 32 16) with 32 in Hi. lia. Qed.

(** a run that leaves another value *)
Lemma wrong_at {R} (P : prog Z R) m b o M N f i j v :
  0 <= i < M -> 0 <= j < N -> out_at b (pseqexec P m) (o + (i * N + j)) = Some v -> v <> f i j ->
  ~ always P m (fun _ m' => matrix_at m' (b, o) M N f).
Proof.
  intros Hi Hj E Nv (_ & H). destruct (H _ (pseqexec_sound P m)) as (r & m' & E1 & (bi & _ & _ & D)).
  rewrite E1 in E. cbn [out_at] in E. specialize (D i j Hi Hj). cbn [fst snd] in D. rewrite E in D. congruence.
Qed.

Lemma overlap_wrong :
  exists A B pA pB pC m0, caller_at m0 pA pB pC 12 32 16 A B /\ A_rim_at m0 pA 12 16 6 /\ B_rim_at m0 pB 32 16 16 0 /\
    pC = pA /\
    legal wF haswell KMN wctx 12 32 16 1 6 16 16 /\
    ~ always (call_at (arg pA pB pC) (cake_sgemm_online Zs false wF haswell wctx 12 32 16 1 (Some wctx) 6 16 16)) m0
        (fun _ m' => matrix_at m' pC 12 32 (matmul Zs Z.add Z.mul A B 16)) /\
    legal_2d wFr haswell 4 wctx 12 32 16 1 6 16 16 /\
    ~ always (call_at (arg pA pB pC) (cake_sgemm_2d Zs wFr haswell wctx 4 12 32 16 1 (Some wctx) 6 16 16)) m0
        (fun _ m' => matrix_at m' pC 12 32 (matmul Zs Z.add Z.mul A B 16)).
Proof.
  do 2 eexists. exists (BufA, 0), (BufB, 0), (BufA, 0), wtwo.
  split; [apply wtwo_caller; reflexivity|split; [apply wtwo_A_rim|split; [apply wtwo_B_rim|split; [reflexivity|]]]].
  split; [apply w_legal; lia|split; [|split]].
  - apply (wrong_at _ wtwo BufA 0 12 32 _ 0 16 728063488); try lia; vm_compute; reflexivity || discriminate.
  - apply w_legal_2d; try lia. split; [cbn; lia|split; [vm_compute; discriminate|]]. left. exists 1. reflexivity.
  - apply (wrong_at _ wtwo BufA 0 12 32 _ 0 16 728063488); try lia; vm_compute; reflexivity || discriminate.
Qed.

Definition wbig : mem Z := mem3 900 240 0 (fun i => Some (wA i)) (fun i => Some (wB i)) (fun _ => None).
Lemma wbig_caller : caller_at wbig (BufA, 0) (BufB, 0) (BufA, 0) 18 48 5 (fun i k => wA (i * 5 + k)) (fun k j => wB (k * 48 + j)).
Proof.
  unfold caller_at, argument, matrix_at. cbn. repeat split; try lia.
  1,2: eexists; (split; [reflexivity|]); cbn; (split; [lia|]); intros; reflexivity.
  - eexists. split; [reflexivity|]. cbn. lia.
  - intros b Hb. destruct b; try destruct Hb; reflexivity.
Qed.
Lemma wbig_A : A_rim_at wbig (BufA, 0) 18 5 6.
Proof. intros i k Hi. change (round_up 18 6) with 18 in Hi. lia. Qed.
Lemma wbig_B : B_rim_at wbig (BufB, 0) 48 5 16 0.
Proof. intros i k _ Hi. change (round_up 48 16) with 48 in Hi. lia. Qed.
Lemma wbig_legal : legal_small wFr haswell 4 wctx 18 48 5 4 2.
Proof.
  assert (F1 : small_fits 18 2 6)
    by (split; [intros [z Hz]; change (18 = z * 12) in Hz; lia|vm_compute; discriminate]).
  assert (F2 : small_fits 48 2 16)
    by (split; [intros [z Hz]; change (48 = z * 32) in Hz; lia|vm_compute; discriminate]).
  split; [exact w_arch|split; [split; reflexivity|]].
  do 6 (split; [vm_compute; congruence|]). split; [exact F1|split; [exact F2|reflexivity]].
Qed.

Lemma wsep_legal : legal_2d wFr haswell 4 wctx 12 32 16 1 6 16 16.
Proof. apply w_legal_2d; try lia. split; [cbn; lia|split; [vm_compute; discriminate|]]. left. exists 1. reflexivity. Qed.
