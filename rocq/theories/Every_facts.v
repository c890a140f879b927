(** * What the multiplication functions may write, allocate and free, whatever their arguments. *)

From Coq Require Import ZArith List Bool Lia.
From Verif Require Import Lang Lang_facts SpecTop ModelSizing ModelKernel ModelPack ModelSched ModelTop Footprint_facts.
Import ListNotations.
Open Scope Z_scope.

Definition Wlib (b : buf) : Prop := own b \/ b = BufC.

Ltac inW := first [assumption | left; cbn; solve [auto | lia] | right; reflexivity].

(** Walk through a thread. *)
Ltac tw := repeat first
  [ exact I
  | match goal with |- twr _ (let '(_, _) := ?q in _) => destruct q end
  | match goal with |- twr _ (if ?c then _ else _) => destruct c end
  | apply twr_bind; [|intros ?]
  | apply twr_load | apply twr_load_al | apply twr_store; inW
  | apply twr_for_; intros ? | apply twr_for; intros ? ?
  | apply twr_for_ne_; intros ? | apply twr_for_ne; intros ? ? ].

Section Every.

Variable S : scalar.
Notation T := (elt S).
Notation twr := (@twr T Wlib _).
Notation still := (@still T Wlib _).

Lemma load_vec_wr al p n : twr (load_vec S al p n).
Proof. unfold load_vec. tw. Qed.
Lemma store_vec_wr p n c : Wlib (fst p) -> twr (store_vec S p n c).
Proof. intros. unfold store_vec. tw. Qed.
Lemma inner_wr ar a b n st : twr (inner S ar a b n st).
Proof. unfold inner. destruct st as [[? ?] ?]. apply twr_bind; [apply load_vec_wr|intros]. tw. Qed.
Lemma ukernel_wr ar a b A B C m n k : Wlib (fst C) -> twr (ukernel S ar a b A B C m n k).
Proof.
  intros HC. unfold ukernel. apply twr_bind; [apply load_vec_wr|intros].
  apply twr_bind; [apply twr_for; intros; repeat (apply twr_bind; [apply inner_wr|intros]); apply inner_wr|intros].
  apply twr_bind; [apply twr_for; intros; apply inner_wr|intros]. now apply store_vec_wr.
Qed.
Lemma kernel_map_wr ar i j A B C m n k : Wlib (fst C) -> twr (kernel_map S ar i j A B C m n k).
Proof. intros. unfold kernel_map. destruct (_ && _); [now apply ukernel_wr|exact I]. Qed.
Lemma cake_ukernel_wr ar A B C m n k : Wlib (fst C) -> twr (cake_sgemm_ukernel S ar A B C m n k).
Proof. intros. now apply ukernel_wr. Qed.
Lemma tiles_wr kern Ap Bp Cp mt nt kt m_r n_r :
  (forall A B C m n k, Wlib (fst C) -> twr (kern A B C m n k)) -> Wlib (fst Cp) -> twr (tile_loops S kern Ap Bp Cp mt nt kt m_r n_r).
Proof. intros H HC. unfold tile_loops. apply twr_for_; intros. apply twr_for_; intros. now apply H. Qed.

Lemma copy0_wr g d i s j : Wlib (fst d) -> twr (copy0 S g d i s j).
Proof. intros. unfold copy0, pstore, pload. tw. Qed.
Lemma obA_wr A P M K a b c d e : Wlib (fst P) -> twr (pack_ob_A_single_buf S A P M K a b c d e).
Proof. intros. unfold pack_ob_A_single_buf, copy0, pstore, pload. tw. Qed.
Lemma obB_wr A P M K a b c d e : Wlib (fst P) -> twr (pack_ob_B_single_buf S A P M K a b c d e).
Proof. intros. unfold pack_ob_B_single_buf, copy0, pstore, pload. tw. Qed.
Lemma nrkc_wr B P N a b : Wlib (fst P) -> twr (pack_B_nr_x_kc S B P N a b).
Proof. intros. unfold pack_B_nr_x_kc, copy0, pstore, pload. tw. Qed.
Lemma mrkc_wr A P N a b : Wlib (fst P) -> twr (pack_A_mr_x_kc S A P N a b).
Proof. intros. unfold pack_A_mr_x_kc, copy0, pstore, pload. tw. Qed.
Lemma obC_wr C P M N a b c d e f g h i : Wlib (fst P) -> twr (pack_ob_C_single_buf S C P M N a b c d e f g h i).
Proof. intros. unfold pack_ob_C_single_buf, copy0, pstore, pload. tw. Qed.
Lemma unC_wr C P M N a b c d e f g : Wlib (fst C) -> twr (unpack_ob_C_single_buf S C P M N a b c d e f g).
Proof. intros. unfold unpack_ob_C_single_buf, copy0, pstore, pload. tw. Qed.
Lemma memset0_wr p n : Wlib (fst p) -> twr (memset0 S p n).
Proof. intros. unfold memset0, pstore. tw. Qed.
Lemma packB_elt_wr g B P N a b c d e f h : Wlib (fst P) -> twr (packB_elt S g B P N a b c d e f h).
Proof. intros. unfold packB_elt, copy0, pstore, pload. tw. Qed.

Ltac tk := repeat first
  [ exact I | assumption | inW
  | match goal with |- Footprint_facts.twr _ (if ?c then _ else _) => destruct c end
  | apply obA_wr; cbn [padd fst] | apply obB_wr; cbn [padd fst] | apply nrkc_wr; cbn [padd fst]
  | apply mrkc_wr; cbn [padd fst] | apply obC_wr; cbn [padd fst] | apply unC_wr; cbn [padd fst]
  | apply memset0_wr; cbn [padd fst] | apply packB_elt_wr; cbn [padd fst] | apply copy0_wr; cbn [padd fst]
  | apply tiles_wr; [intros; first [apply kernel_map_wr | apply cake_ukernel_wr]; assumption | cbn [padd fst]]
  | apply twr_bind; [|intros ?]
  | apply twr_store
  | apply twr_for_; intros ? | apply twr_for; intros ? ?
  | apply twr_for_ne_; intros ? ].

(** Walk through a program without allocations. *)
Ltac ps := repeat first
  [ apply still_ret | apply still_ub | apply still_exit
  | match goal with |- Footprint_facts.still _ (if ?c then _ else _) => destruct c end
  | apply still_bind; [|intros ?]
  | apply still_par; intros ?; tk
  | apply still_for_; intros ? | apply still_for; intros ? ? | apply still_for_ne; intros ? ].

Lemma pack_A_still A P M K p x c s : Wlib (fst P) -> still (pack_A S A P M K p x c s).
Proof. intros. unfold pack_A. destruct s; unfold pack_A_single_buf_k_first, pack_A_single_buf_m_first, pack_A_single_buf_n_first; cbv zeta; ps. Qed.

Lemma pack_B_still B P K N p x c s : Wlib (fst P) -> still (pack_B S B P K N p x c s).
Proof.
  intros. unfold pack_B. destruct s; unfold pack_B_k_first, pack_B_m_first, pack_B_n_first, packB_main, packB_tail, pack_ob_B_parallel; cbv zeta; ps.
Qed.

Lemma pack_C_still C P M N p x c s : Wlib (fst P) -> still (pack_C S C P M N p x c s).
Proof. intros. unfold pack_C. destruct s; unfold pack_C_single_buf_k_first, pack_C_single_buf_m_first, pack_C_single_buf_n_first; cbv zeta; ps. Qed.

Lemma unpack_C_still C P M N p x c s : Wlib (fst C) -> still (unpack_C S C P M N p x c s).
Proof. intros. unfold unpack_C. destruct s; unfold unpack_C_single_buf_k_first, unpack_C_single_buf_m_first, unpack_C_single_buf_n_first; cbv zeta; ps. Qed.

Lemma packA_blis_still A P M K p x m_r : Wlib (fst P) -> still (pack_A_single_buf_k_first_blis S A P M K p x m_r).
Proof. intros. unfold pack_A_single_buf_k_first_blis. cbv zeta. ps. Qed.

Lemma packB_blis_still B P K N x n_r : Wlib (fst P) -> still (pack_B_k_first_blis S B P K N x n_r).
Proof. intros. unfold pack_B_k_first_blis, packB_main_blis, packB_tail_blis, packB_main, packB_tail. cbv zeta. ps. Qed.

Lemma kmn_unpack_wr C M N p c x n m core : Wlib (fst C) -> twr (kmn_unpack S C M N p c x n m core).
Proof. intros. unfold kmn_unpack. cbv zeta. tk. Qed.

Lemma KMN_still ar A B C M N K p c x : Wlib (fst C) -> still (schedule_KMN S ar A B C M N K p c x).
Proof.
  intros. unfold schedule_KMN. cbv zeta. ps.
  all: apply still_par; intros; first [now apply kmn_unpack_wr | unfold kmn_core; cbv zeta; tk].
Qed.

Lemma online_still so ar A B C M N K p c x : Wlib (fst C) -> still (schedule_KMN_online S so ar A B C M N K p c x).
Proof.
  intros. unfold schedule_KMN_online, online_packB. cbv zeta. ps.
  all: apply still_par; intros; first [now apply kmn_unpack_wr | unfold online_core; cbv zeta; tk].
Qed.

Lemma grid_still ar A B C M N K c x : Wlib (fst C) -> still (schedule_KMN_2d S ar A B C M N K c x).
Proof.
  intros. unfold schedule_KMN_2d, g2_packA, g2_packB. cbv zeta. ps.
  all: apply still_par; intros; unfold g2_core, g2_unpack; cbv zeta; tk.
Qed.

Lemma small_still ar A B C M N K p c x : Wlib (fst C) -> still (schedule_KMN_2d_small S ar A B C M N K p c x).
Proof.
  intros. unfold schedule_KMN_2d_small. cbv zeta. ps.
  all: apply still_par; intros; unfold sm_core, sm_unpack; cbv zeta; tk.
Qed.

Lemma schedule_still ar A B C M N K p c x s : Wlib (fst C) -> still (schedule S ar A B C M N K p c x s).
Proof.
  intros. unfold schedule. destruct s; [apply still_ret| | |apply still_exit] || destruct s; try apply still_ret; try apply still_exit.
  all: unfold schedule_MKN, schedule_NKM; cbv zeta; ps; unfold mkn_row, nkm_col; cbv zeta; ps; apply still_par; intros; tk.
Qed.

(** ** The public functions *)

Notation pfr := (@pfr T Wlib _).

Lemma pfr_still {R} (p : prog T R) l (Q : R -> lives -> Prop) : still p -> (forall r, Q r l) -> pfr p l Q.
Proof. intros Hp HQ. eapply pfr_mono; [|apply Hp]. intros r l' ->. apply HQ. Qed.

Lemma pfr_lift {A} (c : comp A) l (Q : A -> lives -> Prop) : (forall a, Q a l) -> pfr (lift S c) l Q.
Proof. intros H. destruct c; cbn; auto. Qed.

Lemma pfr_alloc_Cp p n l (Q : unit -> lives -> Prop) :
  (forall l', (forall i, 0 <= i < p -> l (BufCp i) = None) ->
     (forall b, (forall i, 0 <= i < p -> b <> BufCp i) -> l' b = l b) -> Q tt l') -> pfr (alloc_Cp S p n) l Q.
Proof. intros H. apply pfr_alloc_loop; [intros; inW|congruence|exact H]. Qed.

Lemma pfr_free_Cp p l (Q : unit -> lives -> Prop) :
  (forall l', (forall i, 0 <= i < p -> l' (BufCp i) = None) ->
     (forall b, (forall i, 0 <= i < p -> b <> BufCp i) -> l' b = l b) -> Q tt l') -> pfr (free_Cp S p) l Q.
Proof.
  intros H. apply (pfr_free_loop _ _ _ [BufCp]).
  - intros i l0 Q0 HQ. apply pfr_free; [inW|]. intros _. apply HQ.
    + intros b Hb. unfold gone. destruct (buf_eqb_spec (BufCp i) b) as [E|E]; [exfalso; apply (Hb BufCp); cbn; auto|reflexivity].
    + intros f [<-|[]]. unfold gone. destruct (buf_eqb_spec (BufCp i) (BufCp i)); [reflexivity|contradiction].
  - intros f g i j [<-|[]] [<-|[]]. congruence.
  - intros l' H1 H2. apply H; [intros i Hi; apply (H1 i BufCp); cbn; auto|].
    intros b Hb. apply H2. intros i f Hi [<-|[]]. now apply Hb.
Qed.

(** The live objects are those of [l], and the context made for a NULL argument. *)
Definition kept (oc : option cntx) (l l' : lives) : Prop :=
  (oc = None -> l cbuf = None) /\
  forall b, l' b = match oc with
                   | Some _ => l b
                   | None => if buf_eqb cbuf b then Some (BInfo 1 false) else l b
                   end.

Definition start (oc : option cntx) (l : lives) : lives :=
  match oc with Some _ => l | None => born l cbuf (BInfo 1 false) end.

Lemma pfr_ctx q oc l (Q : cntx -> lives -> Prop) : (forall c, (oc = None -> l cbuf = None) -> Q c (start oc l)) -> pfr (get_ctx S q oc) l Q.
Proof. intros H. destruct oc; cbn; [apply H; discriminate|]. split; [inW|]. intros Hl. apply H. auto. Qed.

Lemma kept_start oc l l' : (oc = None -> l cbuf = None) -> (forall b, l' b = start oc l b) -> kept oc l l'.
Proof. intros Hl H. split; [exact Hl|]. intros b. rewrite H. destruct oc; reflexivity. Qed.

(** [l'] is [l] with the fresh object [b] when [new] is set, and [l] otherwise. *)
Definition plus (new : bool) (b : buf) (l l' : lives) : Prop :=
  (new = true -> l b = None) /\ forall b', new = false \/ b' <> b -> l' b' = l b'.

Lemma plus_born b l i : l b = None -> plus true b l (born l b i).
Proof.
  intros H. split; [auto|]. intros b' [E|E]; [discriminate|]. unfold born.
  destruct (buf_eqb_spec b b'); [congruence|reflexivity].
Qed.
Lemma plus_no b l : plus false b l l.
Proof. split; [discriminate|auto]. Qed.

(** [l'] is [l] without the object [b] when [old] is set. *)
Definition minus (old : bool) (b : buf) (l l' : lives) : Prop :=
  (old = true -> l' b = None) /\ forall b', old = false \/ b' <> b -> l' b' = l b'.

Lemma minus_gone b l : minus true b l (gone l b).
Proof.
  split; [intros _; unfold gone; now rewrite buf_eqb_refl|]. intros b' [E|E]; [discriminate|].
  unfold gone. destruct (buf_eqb_spec b b'); [congruence|reflexivity].
Qed.
Lemma minus_no b l : minus false b l l.
Proof. split; [discriminate|auto]. Qed.

(** Allocating [b], something that leaves the live objects as they were, freeing [b]. *)
Lemma plus_minus f b l l1 l2 l3 : plus f b l l1 -> (forall x, l2 x = l1 x) -> minus f b l2 l3 -> forall x, l3 x = l x.
Proof.
  intros (P1 & P2) E (M1 & M2) x. destruct f; [|rewrite M2, E, P2; auto].
  destruct (buf_eqb_spec b x) as [<-|Hne]; [rewrite M1, P1; auto|].
  rewrite M2, E, P2; auto.
Qed.

(** Frees in another order than the reverse of the allocations *)
Lemma minus_swap f g a b l l1 l2 : a <> b -> minus f a l l1 -> minus g b l1 l2 ->
  exists l1', minus g b l l1' /\ minus f a l1' l2.
Proof.
  intros Hab (A1 & A2) (B1 & B2).
  exists (if g then gone l b else l). split; [destruct g; [apply minus_gone|apply minus_no]|].
  split.
  - intros Hf. rewrite B2 by auto. now apply A1.
  - intros x Hx. destruct g; cbv iota.
    + unfold gone. destruct (buf_eqb_spec b x) as [<-|Hne]; [now apply B1|]. rewrite B2 by auto. apply A2, Hx.
    + rewrite B2 by auto. now apply A2.
Qed.

Lemma pfr_new b n al init l (Q : unit -> lives -> Prop) :
  Wlib b -> (forall l', plus true b l l' -> Q tt l') -> pfr (palloc b n al init) l Q.
Proof. intros HW H. apply pfr_alloc; [exact HW|]. intros Hl. now apply H, plus_born. Qed.

Lemma pfr_old b l (Q : unit -> lives -> Prop) : Wlib b -> (forall l', minus true b l l' -> Q tt l') -> pfr (pfree b) l Q.
Proof. intros HW H. apply pfr_free; [exact HW|]. intros _. apply H, minus_gone. Qed.

Lemma pfr_old_if (g : bool) b l (Q : unit -> lives -> Prop) :
  Wlib b -> (forall l', minus (negb g) b l l' -> Q tt l') -> pfr (if g then PRet tt else pfree b) l Q.
Proof. intros HW H. destruct g; [apply H, minus_no|now apply pfr_old]. Qed.

(** Packing an operand unless it is packed already *)
Lemma pfr_operand (g : bool) P P' b sz al (pk : prog T unit) l (Q : ptr -> lives -> Prop) :
  Wlib b -> still pk -> (forall r l', plus (negb g) b l l' -> Q r l') ->
  pfr (if g then PRet P else
       pbind (lift S sz) (fun n => pbind (palloc b n al None) (fun _ => pbind pk (fun _ => PRet P')))) l Q.
Proof.
  intros HW Hk H. destruct g; [apply H, plus_no|].
  apply pfr_bind, pfr_lift. intros n. apply pfr_bind, pfr_new; [exact HW|]. intros l' Hl. apply pfr_bind, pfr_still; [exact Hk|].
  intros _. now apply H.
Qed.

(** The private buffers of the cores around a piece of work *)
Lemma pfr_Cp p n (body : prog T unit) l (Q : unit -> lives -> Prop) :
  still body -> (forall l', (forall b, l' b = l b) -> Q tt l') ->
  pfr (pbind (alloc_Cp S p n) (fun _ => pbind body (fun _ => free_Cp S p))) l Q.
Proof.
  intros Hb H. apply pfr_bind, pfr_alloc_Cp. intros la Ha1 Ha2. apply pfr_bind, pfr_still; [exact Hb|]. intros _.
  apply pfr_free_Cp. intros lf Hf1 Hf2. apply H. intros b.
  destruct b as [ | | | | |i|]; try (rewrite Hf2, Ha2; [reflexivity|congruence|congruence]).
  destruct (Z_lt_dec i 0); [|destruct (Z_lt_dec i p)].
  2: rewrite Hf1, Ha1 by lia; reflexivity.
  all: rewrite Hf2, Ha2; [reflexivity|intros j Hj E; injection E; lia|intros j Hj E; injection E; lia].
Qed.

(** The packed copy of C in the M-first and N-first schedules *)
Lemma pfr_packC ar nzb A_p B_p M N K p c x s (k : prog T unit) l (Q : unit -> lives -> Prop) :
  (forall l', plus true (BufCp 0) l l' -> pfr k l' Q) ->
  pfr (pbind (lift S (packed_C_size M N p x (mr c) (nr c) s)) (fun sz =>
       pbind (if nzb : bool then pbind (palloc (BufCp 0) sz true None) (fun _ => pack_C S (BufC, 0) (BufCp 0, 0) M N p x c s)
              else palloc (BufCp 0) sz false (Some (zero S))) (fun _ =>
       pbind (schedule S ar A_p B_p (BufCp 0, 0) M N K p c x s) (fun _ =>
       pbind (unpack_C S (BufC, 0) (BufCp 0, 0) M N p x c s) (fun _ => k))))) l Q.
Proof.
  intros H. apply pfr_bind, pfr_lift. intros sz. apply pfr_bind.
  assert (G : forall l', plus true (BufCp 0) l l' ->
     pfr (pbind (schedule S ar A_p B_p (BufCp 0, 0) M N K p c x s) (fun _ =>
          pbind (unpack_C S (BufC, 0) (BufCp 0, 0) M N p x c s) (fun _ => k))) l' Q).
  { intros l' Hl. apply pfr_bind, pfr_still; [apply schedule_still; inW|]. intros _.
    apply pfr_bind, pfr_still; [apply unpack_C_still; inW|]. intros _. now apply H. }
  destruct nzb.
  - apply pfr_bind, pfr_new; [inW|]. intros l' Hl. apply pfr_still; [apply pack_C_still; inW|]. intros _. now apply G.
  - apply pfr_new; [inW|]. exact G.
Qed.

Lemma sgemm_frame F ar q nz M N K p oc packedA packedB alpha beta s mcu kcu ncu l :
  pfr (cake_sgemm S F ar q nz M N K p oc packedA packedB alpha beta s mcu kcu ncu) l (fun _ l' => kept oc l l').
Proof.
  unfold cake_sgemm. apply pfr_bind, pfr_ctx. intros c0 Hq.
  apply pfr_bind, pfr_new; [inW|]. intros l1 H1. apply pfr_bind, pfr_lift. intros xc. cbv zeta.
  apply pfr_bind, pfr_operand; [inW|apply pack_A_still; inW|]. intros A_p l2 H2.
  apply pfr_bind, pfr_operand; [inW|apply pack_B_still; inW|]. intros B_p l3 H3. apply pfr_bind.
  apply (pfr_mono _ _ (fun _ l4 => forall b, l4 b = l3 b)).
  2: { destruct (sch (fst xc)); [apply pfr_Cp; [apply KMN_still; inW|auto]|..].
       all: apply pfr_packC; intros l' Hl; apply pfr_old; [inW|]; intros l4 H4; eapply plus_minus; eauto. }
  intros _ l4 H4. apply pfr_bind, pfr_old_if; [inW|]. intros l5 H5.
  apply pfr_bind, pfr_old_if; [inW|]. intros l6 H6. apply pfr_bind, pfr_old; [inW|]. intros l7 H7. apply pfr_ret, kept_start; [exact Hq|].
  destruct (minus_swap _ _ (BufAp 0) BufBp _ _ _ ltac:(discriminate) H5 H6) as (l5' & H5' & H6').
  eapply plus_minus; [exact H1| |exact H7]. eapply plus_minus; [exact H2| |exact H6']. eapply plus_minus; eauto.
Qed.

Lemma test_frame F ar q nz M N K p oc packedA packedB alpha beta l :
  pfr (cake_sgemm_test S F ar q nz M N K p oc packedA packedB alpha beta) l (fun _ l' => kept oc l l').
Proof.
  unfold cake_sgemm_test. apply pfr_bind, pfr_ctx. intros c0 Hq.
  apply pfr_bind, pfr_new; [inW|]. intros l1 H1. apply pfr_bind, pfr_lift. intros xc. cbv zeta.
  apply pfr_bind, pfr_operand; [inW|apply packA_blis_still; inW|]. intros A_p l2 H2.
  apply pfr_bind, pfr_operand; [inW|apply packB_blis_still; inW|]. intros B_p l3 H3.
  apply pfr_bind, pfr_lift. intros sz. apply pfr_bind.
  apply (pfr_mono _ _ (fun _ l4 => plus true (BufCp 0) l3 l4)).
  2: { destruct (nz beta); [apply pfr_bind|]; apply pfr_new; try solve [inW]; intros l' Hl; [apply pfr_still; [apply pack_C_still; inW|auto]|exact Hl]. }
  intros _ l4 H4. apply pfr_bind, pfr_still; [apply schedule_still; inW|]. intros _.
  apply pfr_bind, pfr_still; [apply unpack_C_still; inW|]. intros _.
  apply pfr_bind, pfr_old_if; [inW|]. intros l5 H5. apply pfr_bind, pfr_old_if; [inW|]. intros l6 H6.
  apply pfr_bind, pfr_old; [inW|]. intros l7 H7. apply pfr_bind, pfr_old; [inW|]. intros l8 H8. apply pfr_ret, kept_start; [exact Hq|].
  destruct (minus_swap _ _ BufBp (BufCp 0) _ _ _ ltac:(discriminate) H6 H7) as (l6' & H6' & H7').
  destruct (minus_swap _ _ (BufAp 0) (BufCp 0) _ _ _ ltac:(discriminate) H5 H6') as (l5' & H5' & H6'').
  destruct (minus_swap _ _ (BufAp 0) BufBp _ _ _ ltac:(discriminate) H6'' H7') as (l7' & H7'' & H8').
  eapply plus_minus; [exact H1| |exact H8]. eapply plus_minus; [exact H2| |exact H8'].
  eapply plus_minus; [exact H3| |exact H7'']. eapply plus_minus; eauto.
Qed.

(** ** Sets of objects, for the functions with private buffers per core *)
Definition plus_set (P : buf -> bool) (l l' : lives) : Prop :=
  (forall b, P b = true -> l b = None) /\ forall b, P b = false -> l' b = l b.
Definition minus_set (P : buf -> bool) (l l' : lives) : Prop :=
  (forall b, P b = true -> l' b = None) /\ forall b, P b = false -> l' b = l b.
Definition set_or (P P' : buf -> bool) (b : buf) : bool := P b || P' b.

Lemma plus_set_or P P' l l1 l2 : plus_set P l l1 -> plus_set P' l1 l2 -> plus_set (set_or P P') l l2.
Proof.
  intros (A1 & A2) (B1 & B2). unfold set_or. split; intros b Hb.
  - destruct (P b) eqn:E; [now apply A1|]. rewrite <- A2 by exact E. now apply B1.
  - apply orb_false_iff in Hb. destruct Hb. rewrite B2, A2; auto.
Qed.
Lemma minus_set_or P P' l l1 l2 : minus_set P l l1 -> minus_set P' l1 l2 -> minus_set (set_or P P') l l2.
Proof.
  intros (A1 & A2) (B1 & B2). unfold set_or. split; intros b Hb.
  - destruct (P' b) eqn:E; [now apply B1|]. rewrite B2 by exact E. apply A1. now rewrite orb_false_r in Hb.
  - apply orb_false_iff in Hb. destruct Hb. rewrite B2, A2; auto.
Qed.
Lemma set_cancel P P' l l1 l2 : plus_set P l l1 -> minus_set P' l1 l2 -> (forall b, P b = P' b) -> forall b, l2 b = l b.
Proof.
  intros (A1 & A2) (B1 & B2) E b. destruct (P b) eqn:Eb.
  - rewrite B1, A1; auto. now rewrite <- E.
  - rewrite B2, A2; auto. now rewrite <- E.
Qed.
Lemma plus_to_set b l l' : plus true b l l' -> plus_set (buf_eqb b) l l'.
Proof. intros (A & B). split; intros x Hx; destruct (buf_eqb_spec b x); try discriminate; [subst; auto|apply B; auto]. Qed.
Lemma minus_to_set b l l' : minus true b l l' -> minus_set (buf_eqb b) l l'.
Proof. intros (A & B). split; intros x Hx; destruct (buf_eqb_spec b x); try discriminate; [subst; auto|apply B; auto]. Qed.

Definition isCp (p : Z) (b : buf) : bool := match b with BufCp i => (0 <=? i) && (i <? p) | _ => false end.
Definition isAp (p : Z) (b : buf) : bool := match b with BufAp i => (0 <=? i) && (i <? p) | _ => false end.

Lemma pfr_alloc_Cp_set p n l (Q : unit -> lives -> Prop) :
  (forall l', plus_set (isCp p) l l' -> Q tt l') -> pfr (alloc_Cp S p n) l Q.
Proof.
  intros H. apply pfr_alloc_Cp. intros l' H1 H2. apply H. split; intros b Hb.
  - destruct b; try discriminate. apply H1. cbn in Hb. lia.
  - apply H2. intros i Hi ->. cbn in Hb. lia.
Qed.
Lemma pfr_free_Cp_set p l (Q : unit -> lives -> Prop) :
  (forall l', minus_set (isCp p) l l' -> Q tt l') -> pfr (free_Cp S p) l Q.
Proof.
  intros H. apply pfr_free_Cp. intros l' H1 H2. apply H. split; intros b Hb.
  - destruct b; try discriminate. apply H1. cbn in Hb. lia.
  - apply H2. intros i Hi ->. cbn in Hb. lia.
Qed.
Lemma pfr_alloc_Ap_set p n l (Q : unit -> lives -> Prop) :
  (forall l', plus_set (isAp p) l l' -> Q tt l') -> pfr (pfor_ 0 p 1 (fun i => palloc (BufAp i) n true None)) l Q.
Proof.
  intros H. apply pfr_alloc_loop; [intros; inW|congruence|]. intros l' H1 H2. apply H. split; intros b Hb.
  - destruct b; try discriminate. apply H1. cbn in Hb. lia.
  - apply H2. intros i Hi ->. cbn in Hb. lia.
Qed.
Lemma pfr_free_ApCp_set p l (Q : unit -> lives -> Prop) :
  (forall l', minus_set (set_or (isAp p) (isCp p)) l l' -> Q tt l') ->
  pfr (pfor_ 0 p 1 (fun i => pbind (pfree (BufAp i)) (fun _ => pfree (BufCp i)))) l Q.
Proof.
  intros H. apply (pfr_free_loop _ _ _ [BufAp; BufCp]).
  - intros i l0 Q0 HQ. apply pfr_bind, pfr_old; [inW|]. intros l1 (A1 & A2). apply pfr_old; [inW|]. intros l2 (B1 & B2). apply HQ.
    + intros b Hb. rewrite B2, A2; auto; right; apply Hb; cbn; auto.
    + intros f [<-|[<-|[]]]; [rewrite B2 by (right; discriminate)|]; auto.
  - intros f g i j [<-|[<-|[]]] [<-|[<-|[]]]; congruence.
  - intros l' H1 H2. apply H. unfold set_or. split; intros b Hb.
    + destruct b; try discriminate; cbn in Hb; [apply (H1 i BufAp)|apply (H1 i BufCp)]; cbn; auto; lia.
    + apply H2. intros i f Hi [<-|[<-|[]]] ->; cbn in Hb; lia.
Qed.

Ltac same_set p := intros b; unfold set_or; generalize (isAp p b), (isCp p b), (buf_eqb xbuf b), (buf_eqb (BufAp 0) b), (buf_eqb BufBp b); intros [] [] [] [] []; reflexivity.

Lemma grid_frame F ar q rows M N K p oc mcu kcu ncu l :
  pfr (cake_sgemm_2d S F ar q rows M N K p oc mcu kcu ncu) l (fun _ l' => kept oc l l').
Proof.
  unfold cake_sgemm_2d. apply pfr_bind, pfr_ctx. intros c Hq.
  apply pfr_bind, pfr_new; [inW|]. intros l1 H1%plus_to_set. apply pfr_bind, pfr_lift. intros x.
  apply pfr_bind, pfr_new; [inW|]. intros l2 H2%plus_to_set. apply pfr_bind, pfr_new; [inW|]. intros l3 H3%plus_to_set.
  apply pfr_bind, pfr_alloc_Cp_set. intros l4 H4. apply pfr_bind, pfr_still; [apply grid_still; inW|]. intros _.
  apply pfr_bind, pfr_old; [inW|]. intros l5 H5%minus_to_set. apply pfr_bind, pfr_free_Cp_set. intros l6 H6.
  apply pfr_bind, pfr_old; [inW|]. intros l7 H7%minus_to_set. apply pfr_old; [inW|]. intros l8 H8%minus_to_set. apply kept_start; [exact Hq|].
  pose proof (plus_set_or _ _ _ _ _ (plus_set_or _ _ _ _ _ (plus_set_or _ _ _ _ _ H1 H2) H3) H4) as P.
  pose proof (minus_set_or _ _ _ _ _ (minus_set_or _ _ _ _ _ (minus_set_or _ _ _ _ _ H5 H6) H7) H8) as M'.
  apply (set_cancel _ _ _ _ _ P M'). same_set p.
Qed.

Lemma small_frame F ar q rows M N K p oc l :
  pfr (cake_sgemm_2d_small S F ar q rows M N K p oc) l (fun _ l' => kept oc l l').
Proof.
  unfold cake_sgemm_2d_small. apply pfr_bind, pfr_ctx. intros c Hq.
  apply pfr_bind, pfr_new; [inW|]. intros l1 H1%plus_to_set. apply pfr_bind, pfr_lift. intros x.
  apply pfr_bind, pfr_new; [inW|]. intros l2 H2%plus_to_set. apply pfr_bind, pfr_new; [inW|]. intros l3 H3%plus_to_set.
  apply pfr_bind, pfr_alloc_Cp_set. intros l4 H4. apply pfr_bind, pfr_still; [apply small_still; inW|]. intros _.
  apply pfr_bind, pfr_old; [inW|]. intros l5 H5%minus_to_set. apply pfr_bind, pfr_free_Cp_set. intros l6 H6.
  apply pfr_bind, pfr_old; [inW|]. intros l7 H7%minus_to_set. apply pfr_old; [inW|]. intros l8 H8%minus_to_set. apply kept_start; [exact Hq|].
  pose proof (plus_set_or _ _ _ _ _ (plus_set_or _ _ _ _ _ (plus_set_or _ _ _ _ _ H1 H2) H3) H4) as P.
  pose proof (minus_set_or _ _ _ _ _ (minus_set_or _ _ _ _ _ (minus_set_or _ _ _ _ _ H5 H6) H7) H8) as M'.
  apply (set_cancel _ _ _ _ _ P M'). same_set p.
Qed.

Lemma online_frame so F ar q M N K p oc mcu kcu ncu l :
  pfr (cake_sgemm_online S so F ar q M N K p oc mcu kcu ncu) l (fun _ l' => kept oc l l').
Proof.
  unfold cake_sgemm_online. apply pfr_bind, pfr_ctx. intros c0 Hq.
  apply pfr_bind, pfr_new; [inW|]. intros l1 H1%plus_to_set. apply pfr_bind, pfr_lift. intros xc. cbv zeta.
  apply pfr_bind, pfr_alloc_Ap_set. intros l2 H2. apply pfr_bind, pfr_new; [inW|]. intros l3 H3%plus_to_set.
  apply pfr_bind, pfr_alloc_Cp_set. intros l4 H4. apply pfr_bind.
  apply (pfr_mono _ _ (fun _ l5 => plus so (BufX 2) l4 l5)).
  2: { destruct so; [apply pfr_new; [inW|auto]|apply plus_no]. }
  intros _ l5 H5. apply pfr_bind, pfr_still; [apply online_still; inW|]. intros _. apply pfr_bind.
  apply (pfr_mono _ _ (fun _ l6 => minus so (BufX 2) l5 l6)).
  2: { destruct so; [apply pfr_old; [inW|auto]|apply minus_no]. }
  intros _ l6 H6. pose proof (plus_minus _ _ _ _ _ _ H5 (fun _ => eq_refl) H6) as E.
  apply pfr_bind, pfr_free_ApCp_set. intros l7 H7. apply pfr_bind, pfr_old; [inW|]. intros l8 H8%minus_to_set.
  apply pfr_bind, pfr_old; [inW|]. intros l9 H9%minus_to_set. apply pfr_ret, kept_start; [exact Hq|].
  pose proof (plus_set_or _ _ _ _ _ (plus_set_or _ _ _ _ _ (plus_set_or _ _ _ _ _ H1 H2) H3) H4) as P.
  assert (H7' : minus_set (set_or (isAp p) (isCp p)) l4 l7).
  { destruct H7 as (A & B). split; [exact A|]. intros b Hb. rewrite B by exact Hb. apply E. }
  pose proof (minus_set_or _ _ _ _ _ (minus_set_or _ _ _ _ _ H7' H8) H9) as M'.
  apply (set_cancel _ _ _ _ _ P M'). same_set p.
Qed.

(** What a finished call leaves, from its frame *)
Lemma frame_end {R} (pr : prog T R) oc m r m' :
  (forall l, pfr pr l (fun _ l' => kept oc l l')) -> pexec pr m (Done r m') ->
  (forall b i, ~ own b -> b <> BufC -> dat m' b i = dat m b i) /\ kept oc (live m) (live m').
Proof.
  intros H Hx. destruct (pfr_sound Wlib pr m r m' _ Hx (H (live m))) as (A & B).
  split; [|exact A]. intros b i Hb Hc. apply B. intros [Ho|Ho]; contradiction.
Qed.

End Every.
