(** * Sequences of calls of the multiplication functions. *)

From Coq Require Import ZArith Reals List Bool Lia Permutation.
From Flocq Require Import Core BinarySingleNaN.
From Verif Require Import Lang Lang_facts Spec SpecTop SpecOnline SpecSingle SpecAny ModelSizing ModelIEEE ModelSingle ModelSched ModelTop ModelUtil
     Exec_facts Misc_facts Mult_facts Online_facts Grid_call_facts Small2d_facts Util_facts Single_facts SingleTop_facts.
Open Scope Z_scope.

(** ** Only alpha_n of the context changes in a call, and no call reads it. *)
Section Ctx.
Variables (S : scalar) (F : fpenv) (ar : arch) (q : cntx) (M N K p : Z) (c c2 : cntx).
Hypothesis H : same_ctx c c2.

Lemma online_same so mcu kcu ncu :
  cake_sgemm_online S so F ar q M N K p (Some c2) mcu kcu ncu = cake_sgemm_online S so F ar q M N K p (Some c) mcu kcu ncu.
Proof.
  Local Transparent pbind. unfold cake_sgemm_online, get_ctx. cbn [pbind].
  rewrite (init_same_ctx F M N K p c c2 KMN mcu kcu ncu H). reflexivity. Local Opaque pbind.
Qed.

Lemma g2d_same rows mcu kcu ncu :
  cake_sgemm_2d S F ar q rows M N K p (Some c2) mcu kcu ncu = cake_sgemm_2d S F ar q rows M N K p (Some c) mcu kcu ncu.
Proof.
  destruct c, c2. unfold same_ctx in H. cbn in H. destruct H as (-> & -> & -> & -> & -> & -> & -> & ->).
  Local Transparent pbind. unfold cake_sgemm_2d, get_ctx. cbn [pbind]. reflexivity. Local Opaque pbind.
Qed.

Lemma small_same rows :
  cake_sgemm_2d_small S F ar q rows M N K p (Some c2) = cake_sgemm_2d_small S F ar q rows M N K p (Some c).
Proof.
  destruct c, c2. unfold same_ctx in H. cbn in H. destruct H as (-> & -> & -> & -> & -> & -> & -> & ->).
  Local Transparent pbind. unfold cake_sgemm_2d_small, get_ctx. cbn [pbind]. reflexivity. Local Opaque pbind.
Qed.
End Ctx.

Section Any.
Variables (S : scalar) (F : fpenv) (ar : arch) (q : cntx) (nz : elt S -> bool) (M N K : Z).
Notation run := (run S F ar q nz M N K).
Notation runs := (runs S F ar q nz M N K).
Notation allowed := (allowed S F ar nz M N K).
Notation room := (room S M N K).

Lemma product_of c x : allowed c x ->
  exists ord, orders K ord /\ forall c2 A B m0, same_ctx c c2 -> caller m0 M N K A B -> room m0 c x ->
    always (run c2 x) m0 (fun r m' => same_ctx c r /\ holds m' BufC M N (product S A B ord) /\ only_C_changed m0 m' M N).
Proof.
  destruct x as [p al be s mcu kcu ncu|so p mcu kcu ncu|rows p mcu kcu ncu|rows p]; cbn [SpecAny.allowed SpecAny.run SpecAny.room].
  - intros (L & Hb).
    destruct (plain_ok S F ar q nz M N K p c al be s mcu kcu ncu L (Some c) 0 eq_refl Hb (or_introl eq_refl)) as (ord & c' & H1 & H2 & H3).
    exists ord. split; [auto|]. intros c2 A B m0 Hs Hc Hr. rewrite (sgemm_same_ctx S F ar q nz M N K p c c2) by exact Hs.
    eapply always_mono; [apply (H3 A B m0 Hc Hr)|]. cbv beta.
    intros r m' (-> & E1 & E2). auto.
  - intros (L & Hs). destruct (online_product S so F ar q M N K p c mcu kcu ncu L Hs) as (ord & c' & H1 & H2 & H3).
    exists ord. split; [auto|]. intros c2 A B m0 Hx Hc (HA & HB). rewrite (online_same S F ar q M N K p c c2 Hx).
    eapply always_mono; [apply (H3 A B m0 Hc HA HB)|]. cbv beta.
    intros r m' (-> & E1 & E2). auto.
  - intros L. destruct (g2d_product S F ar q rows M N K p c mcu kcu ncu L) as (ord & H1 & H3).
    exists ord. split; [auto|]. intros c2 A B m0 Hx Hc (HA & HB). rewrite (g2d_same S F ar q M N K p c c2 Hx).
    apply pok_always, pok_bind.
    eapply pok_mono; [apply always_pok, (H3 A B m0 Hc HA HB)|]. cbv beta. intros r m' (E1 & E2). apply pok_ret. auto.
  - intros (pn & L). exists (fun _ _ => zrange 0 K). split; [intros i j; apply Permutation_refl|].
    intros c2 A B m0 Hx Hc (HA & HB). rewrite (small_same S F ar q M N K p c c2 Hx). apply pok_always, pok_bind.
    eapply pok_mono; [apply always_pok, (small_product S F ar q rows M N K p pn c L A B m0 Hc HA HB)|].
    cbv beta. intros r m' (E1 & E2). apply pok_ret. auto.
Qed.

Lemma A_rim_after (m0 m' : mem (elt S)) r : A_rim m0 M K r -> only_C_changed m0 m' M N -> A_rim m' M K r.
Proof.
  intros H (L & D) i k Hi Hk. destruct (H i k Hi Hk) as (bi & v & E1 & E2 & E3).
  exists bi, v. rewrite L, D; [auto|congruence|intros (? & _); discriminate].
Qed.

Lemma room_after (m0 m' : mem (elt S)) c x : room m0 c x -> only_C_changed m0 m' M N -> room m' c x.
Proof.
  intros H E. destruct x; cbn in *; [intros Hs; eapply rim_after; eauto| | | ];
    (destruct H as (HA & HB); split; [eapply A_rim_after; eauto|eapply rim_after; eauto]).
Qed.

Lemma only_C_refl (m : mem (elt S)) : only_C_changed m m M N.
Proof. split; auto. Qed.

Lemma only_C_trans (m m1 m2 : mem (elt S)) : only_C_changed m m1 M N -> only_C_changed m1 m2 M N -> only_C_changed m m2 M N.
Proof.
  intros (L1 & D1) (L2 & D2). split; [intros b; now rewrite L2|].
  intros b i Hb Hn. rewrite D2; [auto|now rewrite L1|auto].
Qed.

(** any calls, then the call [x] *)
Lemma runs_then c x l ord : orders K ord ->
  (forall c2 A B m0, same_ctx c c2 -> caller m0 M N K A B -> room m0 c x ->
    always (run c2 x) m0 (fun r m' => same_ctx c r /\ holds m' BufC M N (product S A B ord) /\ only_C_changed m0 m' M N)) ->
  Forall (allowed c) l ->
  forall c2 A B m0, same_ctx c c2 -> caller m0 M N K A B -> room m0 c x -> Forall (room m0 c) l ->
    pok (runs c2 (l ++ x :: nil)) m0
      (fun r m' => same_ctx c r /\ holds m' BufC M N (product S A B ord) /\ only_C_changed m0 m' M N).
Proof.
  intros Ho Hx. induction 1 as [|y l Hy Hl IH]; intros c2 A B m0 Hc2 Hc Hr Hrl; cbn [app SpecAny.runs].
  - apply pok_bind. eapply pok_mono; [apply always_pok, (Hx c2 A B m0); auto|]. cbv beta. intros r m' H. now apply pok_ret.
  - inversion_clear Hrl. destruct (product_of c y Hy) as (oy & _ & Gy). apply pok_bind.
    eapply pok_mono; [apply always_pok, (Gy c2 A B m0); auto|]. cbv beta. intros r m' (E1 & _ & E3).
    eapply pok_mono; [apply (IH r A B m'); auto|].
    + eapply caller_after; eauto.
    + eapply room_after; eauto.
    + eapply Forall_impl; [|exact H0]. intros z Hz. eapply room_after; eauto.
    + cbv beta. intros r' m'' (G1 & G2 & G3). split; [auto|split; [auto|eapply only_C_trans; eauto]].
Qed.

Lemma last_decides c x : allowed c x ->
  exists ord, orders K ord /\ forall l A B m0, Forall (allowed c) l ->
    caller m0 M N K A B -> room m0 c x -> Forall (room m0 c) l ->
    always (runs c (l ++ x :: nil)) m0
      (fun r m' => same_ctx c r /\ holds m' BufC M N (product S A B ord) /\ only_C_changed m0 m' M N).
Proof.
  intros Hx. destruct (product_of c x Hx) as (ord & H1 & H2). exists ord. split; [auto|].
  intros l A B m0 Hl Hc Hr Hrl. apply pok_always. eapply runs_then; eauto using same_ctx_refl.
Qed.

End Any.

(** reorderable sums: any nonempty sequence of calls *)
Lemma runs_matmul S F ar q (nz : elt S -> bool) M N K c l add mul A B m0 :
  sums S add mul -> l <> nil -> Forall (allowed S F ar nz M N K c) l -> caller m0 M N K A B -> Forall (room S M N K m0 c) l ->
  always (runs S F ar q nz M N K c l) m0 (fun _ m' => holds m' BufC M N (matmul S add mul A B K) /\ only_C_changed m0 m' M N).
Proof.
  intros Hs Hn Ha Hc Hr. destruct (exists_last Hn) as (l' & x & ->).
  apply Forall_app in Ha. apply Forall_app in Hr. destruct Ha as (Ha & Hx). destruct Hr as (Hr & Hrx).
  inversion_clear Hx. inversion_clear Hrx.
  destruct (last_decides S F ar q nz M N K c x) as (ord & H3 & H4); [auto|].
  eapply always_mono; [apply (H4 l' A B m0); auto|]. cbv beta. intros r m' (_ & E & E2). split; [|auto].
  intros i j Hi Hj. rewrite (E i j Hi Hj). f_equal. now apply product_matmul.
Qed.

(** two callers *)
Lemma runs_agree S F1 F2 ar1 ar2 q1 q2 (nz : elt S -> bool) M N K c1 c2 l1 l2 add mul A B m1 m2 o1 o2 :
  sums S add mul -> 0 <= M -> 0 <= N -> l1 <> nil -> l2 <> nil ->
  Forall (allowed S F1 ar1 nz M N K c1) l1 -> caller m1 M N K A B -> Forall (room S M N K m1 c1) l1 ->
  Forall (allowed S F2 ar2 nz M N K c2) l2 -> caller m2 M N K A B -> Forall (room S M N K m2 c2) l2 ->
  pexec (runs S F1 ar1 q1 nz M N K c1 l1) m1 o1 -> pexec (runs S F2 ar2 q2 nz M N K c2 l2) m2 o2 ->
  exists r1 r2 m1' m2', o1 = Done r1 m1' /\ o2 = Done r2 m2' /\ forall i, 0 <= i < M * N -> dat m1' BufC i = dat m2' BufC i.
Proof.
  intros Hs HM HN N1 N2 A1 C1 R1 A2 C2 R2 X1 X2.
  destruct (runs_matmul S F1 ar1 q1 nz M N K c1 l1 add mul A B m1) as (_ & G1); auto.
  destruct (runs_matmul S F2 ar2 q2 nz M N K c2 l2 add mul A B m2) as (_ & G2); auto.
  destruct (G1 _ X1) as (r1 & m1' & -> & E1 & _). destruct (G2 _ X2) as (r2 & m2' & -> & E2 & _).
  exists r1, r2, m1', m2'. split; [auto|split; [auto|]]. eapply holds_all; eauto.
Qed.

(** the checker after any of them *)
Lemma runs_then_check F ar q (nz : single -> bool) M N K c l ok bad A B m0 :
  l <> nil -> 0 <= M -> 0 <= N -> 0 <= K ->
  Forall (allowed Single F ar nz M N K c) l -> caller m0 M N K A B -> Forall (room Single M N K m0 c) l ->
  all_finite M K A -> all_finite K N B -> at_least m0 retb 1 ->
  (forall i j, 0 <= i < M -> 0 <= j < N ->
    ((2 * grow (K + 1) - 2) * mass A B K i j + 3 * IZR K * grow (K + 1) * / 2 ^ 150 <= 1 / 1000)%R /\
    (grow (K + 1) * mass A B K i j + 2 * IZR K * grow (K + 1) * / 2 ^ 150 < 2 ^ 128)%R) ->
  always (pbind (runs Single F ar q nz M N K c l)
                (fun _ => cake_sgemm_checker Single_mul_add far_single ok bad (BufA, 0) (BufB, 0) (BufC, 0) N M K)) m0
    (fun _ m' => (forall b, live m' b = live m0 b) /\ dat m' retb 0 = Some ok).
Proof.
  intros Hn HM HN HK Ha Hc Hr HA HB Hret Hb. destruct (exists_last Hn) as (l' & x & ->).
  apply Forall_app in Ha. apply Forall_app in Hr. destruct Ha as (Ha & Hx). destruct Hr as (Hr & Hrx).
  inversion_clear Hx. inversion_clear Hrx.
  destruct (last_decides Single F ar q nz M N K c x) as (ord & H3 & H4); [auto|].
  apply pok_always. apply pok_bind. eapply pok_mono; [apply always_pok, (H4 l' A B m0); auto|]. cbv beta.
  intros r m' (_ & E & El & Ed).
  destruct Hc as (HbA & HhA & HbB & HhB & HbC & Hown).
  assert (HL : forall b n, at_least m0 b n -> at_least m' b n).
  { intros b n (bi & E1 & E2). exists bi. rewrite El. auto. }
  assert (HD : forall b rows cols X, b <> BufC -> at_least m0 b (rows * cols) -> holds m0 b rows cols X -> holds m' b rows cols X).
  { intros b rows cols X Hne (bi & E1 & _) Hh i j Hi Hj. rewrite Ed; [apply Hh; auto| |].
    - intros Q. discriminate (eq_trans (eq_sym Q) E1).
    - intros (Q & _). contradiction. }
  apply always_pok. eapply always_mono.
  - apply (checker_ok Single_mul_add far_single ok bad M N K A B (product Single A B ord) m' HM HN HK); auto.
    + apply HD; auto. discriminate.
    + apply HD; auto. discriminate.
    + rewrite El. apply Hown. cbn. lia.
  - cbv beta. intros _ m'' (HL2 & _ & rr & Hr1 & Hr2). split; [intros b; now rewrite HL2, El|]. etransitivity; [exact Hr1|].
    assert (rr = true) as ->; [|reflexivity]. apply Hr2. intros i j Hi Hj. destruct (Hb i j Hi Hj).
    apply (near_checked A B M N K ord i j); auto.
Qed.
