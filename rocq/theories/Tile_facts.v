(** * The register-tile loops of the schedules. *)

From Coq Require Import ZArith List Bool Lia.
From Verif Require Import Lang Lang_facts Spec ModelSizing ModelKernel ModelPack ModelSched Kernel_facts.
Import ListNotations.
Open Scope Z_scope.

(** Packed operand: [nq] panels of [r] rows (or columns), each of depth [kd]. *)
Definition panels {V} (m : mem V) (b : buf) (base r nq kd : Z) (f : Z -> Z -> V) : Prop :=
  forall q i kk, 0 <= q < nq -> 0 <= i < r -> 0 <= kk < kd ->
    dat m b (base + q * r * kd + kk * r + i) = Some (f (q * r + i) kk).

(** Packed result block: column panels of nr, inside each row tiles of mr x nr. *)
Definition ctiles {V} (m : mem V) (b : buf) (base m_r n_r nm nn : Z) (f : Z -> Z -> V) : Prop :=
  forall qm i qn j, 0 <= qm < nm -> 0 <= i < m_r -> 0 <= qn < nn -> 0 <= j < n_r ->
    dat m b (base + qn * (nm * m_r) * n_r + qm * m_r * n_r + i * n_r + j)
    = Some (f (qm * m_r + i) (qn * n_r + j)).

Lemma tile_disj nm w t t' e e' :
  t <> t' -> 0 <= e < w -> 0 <= e' < w -> nm + t * w + e <> nm + t' * w + e'.
Proof. intros H He He'. destruct (Z_lt_le_dec t t'); nia. Qed.

Lemma cell_bound m_r n_r i j : 0 <= i < m_r -> 0 <= j < n_r -> 0 <= i * n_r + j < m_r * n_r.
Proof. nia. Qed.

Lemma lin_neq nm q q' r r' : 0 <= r < nm -> 0 <= r' < nm -> q <> q' \/ r <> r' ->
  q * nm + r <> q' * nm + r'.
Proof. intros H H' [Hq|Hr]; [destruct (Z_lt_le_dec q q'); nia|].
  intro. assert (q = q') by nia. subst. lia. Qed.

Section Tile.

Variable S : scalar.
Notation T := (elt S).

Definition kern_is (ar : arch) (kern : ptr -> ptr -> ptr -> Z -> Z -> Z -> thr T unit) (m_r n_r : Z) : Prop :=
  forall A B C m n k, kern A B C m n k = ukernel S ar m_r n_r A B C m n k.

Lemma tile_loops_spec ar kern (ab bb cb : buf) ao bo co mt nt kt m_r n_r nm nn
      (fa fb fc : Z -> Z -> T) ba bi bc m :
  kern_is ar kern m_r n_r ->
  0 < m_r -> 0 < n_r -> 0 <= nm -> 0 <= nn -> 0 <= kt -> mt = nm * m_r -> nt = nn * n_r ->
  0 < lanes ar -> n_r mod lanes ar = 0 ->
  ab <> cb -> bb <> cb ->
  live m ab = Some ba -> 0 <= ao -> ao + mt * kt <= blen ba ->
  live m bb = Some bi -> 0 <= bo -> bo + nt * kt <= blen bi ->
  (lanes ar = 1 \/ b64 bi = true /\ bo mod lanes ar = 0) ->
  live m cb = Some bc -> 0 <= co -> co + mt * nt <= blen bc ->
  panels m ab ao m_r nm kt fa ->
  panels m bb bo n_r nn kt (fun c kk => fb kk c) ->
  ctiles m cb co m_r n_r nm nn fc ->
  twp (rng cb co (co + mt * nt))
      (fun b i => rng ab ao (ao + mt * kt) b i \/ rng bb bo (bo + nt * kt) b i)
      (tile_loops S kern (ab, ao) (bb, bo) (cb, co) mt nt kt m_r n_r)
      (fun _ m' => ctiles m' cb co m_r n_r nm nn
         (fun r c => dot S (fa r) (fun kk => fb kk c) (zrange 0 kt) (fc r c))) m.
Proof.
  intros Hkern Hmr Hnr Hnm Hnn Hkt -> -> Hln Hlk Nac Nbc La Ha0 Ha1 Lb Hb0 Hb1 Hal Lc Hc0 Hc1 PA PB PC.
  unfold tile_loops, tfor_.
  rewrite !Z.quot_mul by lia.
  set (val := fun (done : bool) r c =>
     if done then dot S (fa r) (fun kk => fb kk c) (zrange 0 kt) (fc r c) else fc r c).
  set (idx := fun qm i qn j => co + qn * (nm * m_r) * n_r + qm * m_r * n_r + i * n_r + j).
  set (W := rng cb co (co + nm * m_r * (nn * n_r))).
  eapply (twp_tfor1 W _ (fun cn _ m' =>
    forall qm i qn j, 0 <= qm < nm -> 0 <= i < m_r -> 0 <= qn < nn -> 0 <= j < n_r ->
      dat m' cb (idx qm i qn j) = Some (val (qn <? cn) (qm * m_r + i) (qn * n_r + j)))); [lia| | |].
  { intros qm i qn j ? ? ? ?. replace (qn <? 0) with false by lia. apply PC; auto. }
  2:{ intros _ m' H _ _ qm i qn j ? ? ? ?. specialize (H qm i qn j).
      replace (qn <? nn) with true in H by lia. apply H; auto. }
  intros cn _ m1 Hcn HI1 HL1 HF1.
  eapply (twp_tfor1 W _ (fun cm _ m' =>
    forall qm i qn j, 0 <= qm < nm -> 0 <= i < m_r -> 0 <= qn < nn -> 0 <= j < n_r ->
      dat m' cb (idx qm i qn j) =
      Some (val ((qn <? cn) || (qn =? cn) && (qm <? cm)) (qm * m_r + i) (qn * n_r + j)))); [lia| | |].
  { intros qm i qn j ? ? ? ?. rewrite HI1 by auto. do 2 f_equal.
    replace (qm <? 0) with false by lia. now rewrite andb_false_r, orb_false_r. }
  2:{ intros _ m' H _ _ qm i qn j ? ? ? ?. rewrite H by auto. do 2 f_equal.
      destruct (Z.ltb_spec qn cn), (Z.eqb_spec qn cn), (Z.ltb_spec qm nm), (Z.ltb_spec qn (cn + 1)); cbn; auto; lia. }
  intros cm _ m2 Hcm HI2 HL2 HF2. rewrite Hkern. unfold padd; cbn [fst snd].
  assert (HW : forall b x, b <> cb -> dat m2 b x = dat m b x).
  { intros b x Hb. rewrite HF2 by (intros (E & _); congruence). apply HF1. intros (E & _); congruence. }
  assert (Hco : forall cm' cn', co + (cn' * (nm * m_r) * n_r + cm' * m_r * n_r)
                = co + (cn' * nm + cm') * (m_r * n_r)) by (intros; ring).
  assert (HT : 0 <= (cn * nm + cm) /\ (cn * nm + cm) + 1 <= nn * nm) by nia.
  assert (Hw : 0 < m_r * n_r) by nia.
  set (t := cn * nm + cm) in *.
  assert (Htot : nm * m_r * (nn * n_r) = nn * nm * (m_r * n_r)) by ring.
  assert (Htb : 0 <= t * (m_r * n_r) /\ t * (m_r * n_r) + m_r * n_r <= nm * m_r * (nn * n_r)).
  { rewrite Htot. nia. }
  assert (HAb : 0 <= cm * m_r * kt /\ cm * m_r * kt + kt * m_r <= nm * m_r * kt).
  { split; [nia|]. transitivity ((cm + 1) * m_r * kt); [nia|]. apply Z.mul_le_mono_nonneg_r; nia. }
  assert (HBb : 0 <= cn * kt * n_r /\ cn * kt * n_r + kt * n_r <= nn * n_r * kt).
  { split; [nia|]. transitivity ((cn + 1) * (n_r * kt)); [nia|].
    replace (nn * n_r * kt) with (nn * (n_r * kt)) by ring. apply Z.mul_le_mono_nonneg_r; nia. }
  eapply twp_call.
  - eapply (ukernel_spec S ar m_r n_r ab bb cb _ _ _ m_r kt
       (fun i kk => fa (cm * m_r + i) kk) (fun kk j => fb kk (cn * n_r + j))
       (fun i j => fc (cm * m_r + i) (cn * n_r + j)) ba bi bc m2); auto.
    + rewrite HL2, HL1. exact La.
    + lia.
    + lia.
    + rewrite HL2, HL1. exact Lb.
    + lia.
    + lia.
    + destruct Hal as [E|(E1 & E2)]; [auto|right; split; auto].
      apply mod0_add; auto. apply mod0_mul; auto.
    + rewrite HL2, HL1. exact Lc.
    + rewrite Hco. fold t. lia.
    + rewrite Hco. fold t. lia.
    + intros i kk Hi Hkk. rewrite HW by auto.
      rewrite <- (PA cm i kk) by auto. f_equal; ring.
    + intros kk j Hkk Hj. rewrite HW by auto.
      rewrite <- (PB cn j kk) by auto. f_equal; ring.
    + intros i j Hi Hj. specialize (HI2 cm i cn j Hcm Hi Hcn Hj).
      unfold idx in HI2. rewrite <- Z.add_assoc in HI2.
      transitivity (dat m2 cb (co + cn * (nm * m_r) * n_r + (cm * m_r * n_r + i * n_r + j))); [f_equal; ring|].
      transitivity (dat m2 cb (co + cn * (nm * m_r) * n_r + cm * m_r * n_r + (i * n_r + j))); [f_equal; ring|].
      rewrite HI2. unfold val.
      replace (cn <? cn) with false by lia. replace (cm <? cm) with false by lia.
      now rewrite andb_false_r.
  - intros b x (-> & Hx). split; auto. rewrite Hco in Hx. fold t in Hx. lia.
  - intros b x [(-> & Hx)|(-> & Hx)]; left; [left|right]; split; auto; lia.
  - cbn. intros _ m3 HK HL3 HF3 qm i qn j Hqm Hi Hqn Hj.
    pose proof (cell_bound m_r n_r i j Hi Hj) as Hcell.
    destruct (Z.eq_dec qn cn) as [->|Nn]; [destruct (Z.eq_dec qm cm) as [->|Nm]|].
    + specialize (HK i j Hi Hj).
      unfold idx. replace (co + cn * (nm * m_r) * n_r + cm * m_r * n_r + i * n_r + j)
        with (co + (cn * (nm * m_r) * n_r + cm * m_r * n_r) + i * n_r + j) by ring.
      rewrite HK. unfold val. replace (cn =? cn) with true by lia.
      replace (cm <? cm + 1) with true by lia. now rewrite orb_true_r.
    + rewrite HF3.
      * rewrite HI2 by auto. do 2 f_equal.
        destruct (Z.ltb_spec qm cm), (Z.ltb_spec qm (cm + 1)); auto; lia.
      * intros (_ & Hx). rewrite Hco in Hx. fold t in Hx. unfold idx in Hx.
        replace (co + cn * (nm * m_r) * n_r + qm * m_r * n_r + i * n_r + j)
          with (co + (cn * nm + qm) * (m_r * n_r) + (i * n_r + j)) in Hx by ring.
        assert (cn * nm + qm <> t) by (apply lin_neq; auto).
        apply (tile_disj co (m_r * n_r) (cn * nm + qm) t (i * n_r + j)
                 (co + (cn * nm + qm) * (m_r * n_r) + (i * n_r + j) - (co + t * (m_r * n_r)))); auto; lia.
    + rewrite HF3.
      * rewrite HI2 by auto. do 2 f_equal. replace (qn =? cn) with false by lia. reflexivity.
      * intros (_ & Hx). rewrite Hco in Hx. fold t in Hx. unfold idx in Hx.
        replace (co + qn * (nm * m_r) * n_r + qm * m_r * n_r + i * n_r + j)
          with (co + (qn * nm + qm) * (m_r * n_r) + (i * n_r + j)) in Hx by ring.
        assert (qn * nm + qm <> t) by (apply lin_neq; auto).
        apply (tile_disj co (m_r * n_r) (qn * nm + qm) t (i * n_r + j)
                 (co + (qn * nm + qm) * (m_r * n_r) + (i * n_r + j) - (co + t * (m_r * n_r)))); auto; lia.
Qed.

End Tile.
