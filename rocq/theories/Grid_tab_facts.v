(** * The choice of the processor grid. *)

From Coq Require Import ZArith List Bool Lia.
From Verif Require Import Lang Spec SpecTop ModelSizing Sizing_facts.
Import ListNotations.
Open Scope Z_scope.

Lemma rem0_divide p d : 0 <= p -> 0 < d -> (Z.rem p d =? 0) = true <-> (d | p).
Proof.
  intros Hp Hd. rewrite Z.eqb_eq, Z.rem_mod_nonneg by lia. split; intros H.
  - exists (p / d). pose proof (Z.div_mod p d). lia.
  - apply Z.mod_divide; auto; lia.
Qed.

Section Tab.

Variables (cores rows p : Z).
Hypothesis Hp : 0 < p.

Definition in_tab : Prop := 0 <= cores - p < rows.

Lemma tab_in f : in_tab -> 0 < f <= p -> grid_tab cores rows p (f - 1) = CRet (Z.rem p f =? 0).
Proof.
  unfold in_tab, grid_tab. intros H Hf.
  replace (0 <=? cores - p) with true by lia. replace (cores - p <? rows) with true by lia.
  replace (0 <=? f - 1) with true by lia. replace (f - 1 <? cores) with true by lia. cbn.
  replace (f - 1 <? p) with true by lia. cbn. now replace (f - 1 + 1) with f by lia.
Qed.

Lemma tab_at i : in_tab -> 0 <= i < p -> grid_tab cores rows p i = CRet (Z.rem p (i + 1) =? 0).
Proof. intros H Hi. replace i with (i + 1 - 1) at 1 by lia. apply tab_in; auto; lia. Qed.

Lemma tab_not f : ~ in_tab -> grid_tab cores rows p f = CUB.
Proof.
  unfold in_tab, grid_tab. intros H.
  destruct (Z.leb_spec 0 (cores - p)), (Z.ltb_spec (cores - p) rows); cbn; auto. lia.
Qed.

(** the first divisor above *)
Lemma scan_up_ok n : in_tab -> forall i, 0 <= i -> i + Z.of_nat n = p ->
  n <> O -> exists h, scan_up cores rows p n i = CRet (Some h) /\ i <= h < p /\ (h + 1 | p) /\
    (forall d, (d | p) -> i < d -> h + 1 <= d).
Proof.
  intros HT. induction n as [|n IH]; intros i Hi Hn Hne; [easy|]. cbn [scan_up].
  rewrite (tab_at i HT) by lia. cbn [cbind].
  destruct (Z.rem p (i + 1) =? 0) eqn:E.
  - exists i. split; [auto|split; [lia|split; [apply rem0_divide; auto; lia|intros; lia]]].
  - destruct n as [|n'].
    + exfalso. assert (E1 : i + 1 = p) by lia. rewrite E1, Z.rem_same in E by lia. discriminate.
    + destruct (IH (i + 1)) as (h & H1 & H2 & H3 & H4); try lia.
      exists h. split; [auto|split; [lia|split; [auto|]]]. intros d Hd Hid.
      assert (d <> i + 1). { intros ->. apply (rem0_divide p) in Hd; [congruence|lia|lia]. }
      apply H4; auto; lia.
Qed.

(** the next divisor below, not counting 1 *)
Lemma scan_down_ok n : in_tab -> forall i, i < p -> i = Z.of_nat n ->
  exists r, scan_down cores rows p n i = CRet r /\
    match r with
    | Some l => 0 < l <= i /\ (l + 1 | p) /\ (forall d, (d | p) -> d <= i + 1 -> d <= l + 1)
    | None => forall d, (d | p) -> 2 <= d -> i + 1 < d
    end.
Proof.
  intros HT. induction n as [|n IH]; intros i Hi Hn; cbn [scan_down].
  - exists None. split; [auto|]. intros; lia.
  - rewrite (tab_at i HT) by lia. cbn [cbind].
    destruct (Z.rem p (i + 1) =? 0) eqn:E.
    + exists (Some i). split; [auto|split; [lia|split; [apply rem0_divide; auto; lia|intros; lia]]].
    + destruct (IH (i - 1)) as (r & H1 & H2); try lia. exists r. split; [auto|].
      assert (Nd : ~ (i + 1 | p)). { intros Hd. apply (rem0_divide p) in Hd; [congruence|lia|lia]. }
      destruct r as [l|].
      * destruct H2 as (H2 & H3 & H4). split; [lia|split; [auto|]]. intros d Hd Hle.
        assert (d <> i + 1) by (intros ->; tauto). apply H4; auto; lia.
      * intros d Hd H2'. assert (d <> i + 1) by (intros ->; tauto). specialize (H2 d Hd H2'). lia.
Qed.

End Tab.

(** the wished-for width, brought into 1 .. p *)
Definition want (F : fpenv) (M N p : Z) : Z :=
  let pn0 := fp_pn F p N M in
  let pn1 := if pn0 =? 0 then 1 else pn0 in
  if p <? pn1 then p else pn1.

Lemma want_range F M N p : 0 < p -> 0 <= fp_pn F p N M -> 1 <= want F M N p <= p.
Proof. intros Hp H. unfold want. destruct (Z.eqb_spec (fp_pn F p N M) 0); match goal with |- context[Z.ltb ?a ?b] => destruct (Z.ltb_spec a b) end; lia. Qed.

Lemma grid_def F M N p cores rows :
  M <> 0 -> 0 < p -> 0 <= fp_pn F p N M ->
  let w := want F M N p in
  ((exists v, grid_dims_2d F M N p cores rows = CRet v) <->
   (p <= cores < p + rows /\ ((w | p) \/ exists d, 2 <= d < w /\ (d | p)))) /\
  (forall v, grid_dims_2d F M N p cores rows = CRet v ->
     1 <= v <= p /\ (v | p) /\ ((w | p) -> v = w) /\
     (~ (w | p) -> 2 <= v /\ forall d, (d | p) -> 2 <= d -> Z.abs (v - w) <= Z.abs (d - w))).
Proof.
  intros HM Hp Hf w. pose proof (want_range F M N p Hp Hf) as Hw. fold w in Hw.
  unfold grid_dims_2d. destruct (Z.eqb_spec M 0) as [E|_]; [lia|]. cbv zeta. fold (want F M N p). fold w.
  assert (D : in_tab cores rows p \/ ~ in_tab cores rows p) by (unfold in_tab; lia).
  destruct D as [HT|HT].
  2:{ rewrite (tab_not cores rows p _ HT). cbn [cbind]. unfold in_tab in HT. split.
      - split; [intros (v & E); discriminate|lia].
      - intros v E; discriminate. }
  rewrite (tab_in cores rows p w HT) by lia. cbn [cbind]. unfold in_tab in HT.
  destruct (Z.rem p w =? 0) eqn:E.
  { apply (rem0_divide p) in E; [|lia|lia]. cbn [cbind].
    assert (Hr : (if w <? p then w else p) = w) by (destruct (Z.ltb_spec w p); lia). rewrite Hr. split.
    - split; [intros _; split; [lia|auto]|intros _; eauto].
    - intros v Ev. injection Ev as <-. split; [lia|split; [auto|split; [auto|tauto]]]. }
  assert (Nw : ~ (w | p)) by (intros H; apply (rem0_divide p) in H; [congruence|lia|lia]).
  assert (W2 : 2 <= w < p).
  { assert (w <> p) by (intros ->; apply Nw, Z.divide_refl). assert (w <> 1) by (intros ->; apply Nw, Z.divide_1_l). lia. }
  destruct (scan_up_ok cores rows p Hp (Z.to_nat (p - w)) HT w ltac:(lia) ltac:(lia) ltac:(lia)) as (h & -> & H1 & H2 & H3).
  cbn [cbind].
  destruct (scan_down_ok cores rows p Hp (Z.to_nat (w - 2)) HT (w - 2) ltac:(lia) ltac:(lia)) as (r & -> & HR).
  cbn [cbind]. destruct r as [l|].
  2:{ split; [|intros v Ev; discriminate]. split; [intros (v & Ev); discriminate|].
      intros (_ & [H|(d & Hd1 & Hd2)]); [tauto|]. specialize (HR d Hd2 ltac:(lia)). lia. }
  destruct HR as (L1 & L2 & L3). cbn [cbind]. split.
  - split; [intros _; split; [lia|right; exists (l + 1); split; [lia|auto]]|intros _; eauto].
  - intros v Ev. injection Ev as <-.
    destruct (Z.ltb_spec (h - (w - 1)) (w - 1 - l)) as [Lt|Ge].
    + assert (Hr : (if h + 1 <? p then h + 1 else p) = h + 1) by (destruct (Z.ltb_spec (h + 1) p); lia). rewrite Hr.
      split; [lia|split; [auto|split; [tauto|]]]. intros _. split; [lia|]. intros d Hd H2d.
      assert (d <> w) by (intros ->; tauto).
      destruct (Z_lt_le_dec w d) as [G|G]; [specialize (H3 d Hd G); lia|specialize (L3 d Hd ltac:(lia)); lia].
    + assert (Hr : (if l + 1 <? p then l + 1 else p) = l + 1) by (destruct (Z.ltb_spec (l + 1) p); lia). rewrite Hr.
      split; [lia|split; [auto|split; [tauto|]]]. intros _. split; [lia|]. intros d Hd H2d.
      assert (d <> w) by (intros ->; tauto).
      destruct (Z_lt_le_dec w d) as [G|G]; [specialize (H3 d Hd G); lia|specialize (L3 d Hd ltac:(lia)); lia].
Qed.
