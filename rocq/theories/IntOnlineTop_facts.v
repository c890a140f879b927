(** * cake_sgemm_online computes in 32-bit ints what it computes in unbounded integers. *)

From Coq Require Import ZArith List Bool Lia.
From Verif Require Import SpecInt Lang Lang_facts Spec SpecTop ModelSizing ModelKernel ModelPack ModelSched ModelTop ModelInt ModelIntGrid
     Sizing_facts SizingMN_facts Init_facts CallAll_facts PackCall_facts Int_facts IntPack_facts IntTile_facts IntSize_facts
     IntK_facts IntTop_facts IntOnline_facts.
Open Scope Z_scope.

Lemma sch_kept F M N K p c s mcu kcu ncu x c' :
  0 <= M -> 0 <= N -> 0 <= K -> 0 < p -> 0 < mr c -> 0 < nr c -> tiles_ok F M p c mcu kcu ncu ->
  s <> NA -> init_block_dims F M N K p c s mcu kcu ncu = CRet (x, c') -> sch x = s.
Proof.
  intros HM HN HK Hp Hmr Hnr Ht Hs E.
  destruct (init_ok F M N K p c s mcu kcu ncu HM Hp Hmr Hnr Ht) as
    (mc & kc & nc & al & s' & E' & A1 & A2 & A3 & A4 & A5 & A6 & A7 & A8).
  specialize (A7 Hs). subst s'. rewrite E' in E. unfold dims_of in E. destruct s; try congruence.
  - destruct (dims_KMN M N K p mc kc nc (mr c) (nr c)) as [y| |] eqn:Ey; try discriminate. injection E as <- _.
    destruct (dims_KMN_facts M N K p _ _ _ (mr c) (nr c) y HM HN HK Hp A1 A2 A3 Hmr Hnr A4 A5 Ey) as (P1 & P2 & P3 & P4 & P5). auto.
  - destruct (dims_MKN_facts M N K p _ _ _ (mr c) (nr c) HM HN HK Hp A1 A2 A3 Hmr Hnr A4 A5) as (y & P0 & P1 & P2 & P3 & P4 & P5 & P6).
    rewrite P0 in E. injection E as <- _. auto.
  - destruct (dims_NKM_facts M N K p _ _ _ (mr c) (nr c) HM HN HK Hp A1 A2 A3 Hmr Hnr A4 A5) as (y & P0 & P1 & P2 & P3 & P4 & P5 & P6).
    rewrite P0 in E. injection E as <- _. auto.
Qed.

Section Top.
Variables (S : scalar) (F : fpenv) (ar : arch) (q : cntx) (M N K p : Z) (c : cntx) (mcu kcu ncu : Z).
Hypotheses (HM : 0 <= M) (HN : 0 <= N) (HK : 0 <= K) (Hp : 0 < p) (Hmr : 0 < mr c) (Hnr : 0 < nr c).
Hypothesis Ht : tiles_ok F M p c mcu kcu ncu.
Hypothesis LL : sizes32 c M N K p.
Hypothesis LF : sizing32 F c p.
Hypothesis LT : forall x c', init_block_dims F M N K p c KMN mcu kcu ncu = CRet (x, c') ->
  tiles32 KMN p (m_c x) (k_c x) (n_c x) /\ m_c x * k_c x < 2 ^ 31 /\ k_c x * n_c x < 2 ^ 31.

Theorem online_32 so oc : match oc with Some c1 => c1 | None => q end = c ->
  cake_sgemm_online32 S so F ar q M N K p oc mcu kcu ncu = cake_sgemm_online S so F ar q M N K p oc mcu kcu ncu.
Proof.
  intros Hoc.
  assert (LT' : forall x c', init_block_dims F M N K p c KMN mcu kcu ncu = CRet (x, c') -> tiles32 (sch x) p (m_c x) (k_c x) (n_c x)).
  { intros x c' E. rewrite (sch_kept F M N K p c KMN mcu kcu ncu x c') by (auto; discriminate). now apply (LT x c'). }
  destruct (mr_32 F M N K p c) as (R1 & R2 & R3 & R4 & R5 & R6); auto; [apply LL|].
  destruct (sized F M N K p c KMN mcu kcu ncu) as (x & c' & E1 & E2 & Em & En & Dm & Dn & Zm & Zk & Zn & P & Hs & _); auto; [apply LL|].
  assert (Es : sch x = KMN) by (apply (sch_kept F M N K p c KMN mcu kcu ncu x c'); auto; discriminate).
  destruct (LT _ _ E1) as (T & T1 & T2). unfold tiles32 in T.
  destruct (plan_padded M N K p c (sch x) x Hmr Hnr P) as (EM & EN).
  destruct LL as ((Lm & Ln & Lk & Lp) & La & Lb & Lc). rewrite <- EM, <- EN in *.
  rewrite Es in P. cbn [plan] in P. destruct P as (P & _).
  pose proof (mul_ge0 (m_c x) (n_c x) ltac:(lia) ltac:(lia)). pose proof (mul_ge0 (m_c x) (k_c x) ltac:(lia) ltac:(lia)).
  pose proof (mul_ge0 (k_c x) (n_c x) ltac:(lia) ltac:(lia)).
  assert (Sch : schedule_KMN_online32 S so ar (BufA, 0) (BufB, 0) (BufC, 0) M N K p c' x
     = schedule_KMN_online S so ar (BufA, 0) (BufB, 0) (BufC, 0) M N K p c' x)
    by (apply (on_schedule_32 S M N K p (mr c) (nr c) x); auto; lia).
  assert (I1 : pint (V := elt S) (m_c x * k_c x)%ix = PRet (m_c x * k_c x)).
  { unfold pint. assert (isafe (m_c x * k_c x)%ix = true) as -> by (safe; lia). reflexivity. }
  assert (I2 : pint (V := elt S) (k_c x * n_c x)%ix = PRet (k_c x * n_c x)).
  { unfold pint. assert (isafe (k_c x * n_c x)%ix = true) as -> by (safe; lia). reflexivity. }
  assert (I3 : pint (V := elt S) (m_c x * n_c x)%ix = PRet (m_c x * n_c x)).
  { unfold pint. assert (isafe (m_c x * n_c x)%ix = true) as -> by (safe; lia). reflexivity. }
  assert (L1 : forall f, pfor32_ (V := elt S) 0 p 1 f = pfor_ 0 p 1 f).
  { intros f. assert (G : psame (fun _ => True) (pfor32_ (V := elt S) 0 p 1 f) (pfor_ 0 p 1 f)); [|apply G].
    apply ps_for_; try lia; [apply divide_1|]. intros; now apply ps_eq. }
  unfold cake_sgemm_online32, cake_sgemm_online.
  destruct oc; cbn [get_ctx pbind palloc]; rewrite ?Hoc; [f_equal|do 2 f_equal]; rewrite E1, E2; cbn [lift pbind fst snd];
    rewrite Sch, I1, I2, I3, !L1; reflexivity.
Qed.

End Top.
