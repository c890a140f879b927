(** * The generated table of core grids. *)

From Coq Require Import ZArith List Bool Lia Znumtheory.
From Verif Require Import Lang Lang_facts ModelSizing ModelGen Gen_facts ModelGridGen.
Import ListNotations.
Open Scope Z_scope.

Lemma in_range1 lo hi x : In x (py_range lo hi 1) <-> lo <= x < hi.
Proof.
  rewrite py_range1. split.
  - intros H. apply In_nth_error in H. destruct H as [j Hj].
    assert (L : (j < Z.to_nat (hi - lo))%nat) by (rewrite <- (zseq_length (Z.to_nat (hi - lo)) lo 1); apply nth_error_Some; congruence).
    rewrite zseq_nth in Hj by auto. injection Hj as <-. lia.
  - intros H. apply (nth_error_In _ (Z.to_nat (x - lo))). rewrite zseq_nth by lia. f_equal. lia.
Qed.

Lemma factors_in isq n f : 0 < n -> Z.sqrt n <= isq n -> (In f (factors isq n) <-> 0 < f /\ (f | n)).
Proof.
  intros Hn Hs. unfold factors. rewrite in_flat_map. split.
  - intros (i & Hi & Hf). apply in_range1 in Hi. destruct (Z.eqb_spec (n mod i) 0) as [E|]; [|destruct Hf].
    pose proof (Z.div_mod n i ltac:(lia)) as D. rewrite E, Z.add_0_r in D.
    assert (0 < n / i) by nia. destruct Hf as [<-|[<-|[]]]; split; try lia.
    + exists (n / i). lia.
    + exists i. lia.
  - intros [Hf [g Hg]]. assert (0 < g) by nia. destruct (Z.sqrt_spec n ltac:(lia)) as [S1 S2]. set (s := Z.sqrt n) in *.
    destruct (Z_le_gt_dec f s) as [L|L].
    + exists f. split; [apply in_range1; lia|]. rewrite Hg, Z.mod_mul by lia. now left.
    + exists g. assert (g <= s) by nia. split; [apply in_range1; lia|].
      rewrite Hg, Z.mul_comm, Z.mod_mul, Z.div_mul by lia. cbn. tauto.
Qed.

Lemma py_set_ok q i : 0 <= i < Z.of_nat (length q) ->
  exists q', py_set q i = Some q' /\ length q' = length q /\
    forall c, 0 <= c -> nth_error q' (Z.to_nat c) = if c =? i then Some 1 else nth_error q (Z.to_nat c).
Proof.
  intros Hi. unfold py_set.
  replace ((0 <=? i) && (i <? Z.of_nat (length q))) with true by (symmetry; apply andb_true_iff; split; [apply Z.leb_le|apply Z.ltb_lt]; lia).
  eexists. split; [reflexivity|].
  assert (L : length (firstn (Z.to_nat i) q) = Z.to_nat i) by (apply firstn_length_le; lia).
  replace (Z.to_nat (i + 1)) with (Datatypes.S (Z.to_nat i)) by lia.
  split.
  - rewrite app_length, L. cbn [length]. rewrite skipn_length. lia.
  - intros c Hc. assert (Eq : nth_error q (Z.to_nat c) = nth_error (firstn (Z.to_nat i) q ++ skipn (Z.to_nat i) q) (Z.to_nat c)) by (now rewrite firstn_skipn).
    rewrite Eq. clear Eq.
    destruct (Z.eqb_spec c i) as [->|Hn].
    + rewrite nth_error_app2 by lia. rewrite L, Nat.sub_diag. reflexivity.
    + destruct (Z_lt_ge_dec c i).
      * rewrite !nth_error_app1 by lia. reflexivity.
      * rewrite !nth_error_app2 by lia. rewrite L.
        destruct (Z.to_nat c - Z.to_nat i)%nat as [|d] eqn:E; [lia|]. cbn [nth_error].
        destruct (skipn (Z.to_nat i) q) as [|x l] eqn:Es.
        { exfalso. pose proof (skipn_length (Z.to_nat i) q) as SL. rewrite Es in SL. cbn in SL. lia. }
        cbn [nth_error]. f_equal.
        change (Datatypes.S (Z.to_nat i)) with (1 + Z.to_nat i)%nat.
        rewrite Nat.add_comm. clear -Es. revert q Es. induction (Z.to_nat i) as [|k IH]; intros q Es.
        { cbn in Es. now rewrite Es. }
        destruct q; [discriminate|]. cbn in *. now apply IH.
Qed.

Lemma row_fold fs : forall q, (forall f, In f fs -> 0 <= f - 1 < Z.of_nat (length q)) ->
  exists q', fold_left (fun q f => match q with Some q => py_set q (f - 1) | None => None end) fs (Some q) = Some q' /\
    length q' = length q /\
    forall c, 0 <= c -> (In (c + 1) fs -> nth_error q' (Z.to_nat c) = Some 1) /\
                        (~ In (c + 1) fs -> nth_error q' (Z.to_nat c) = nth_error q (Z.to_nat c)).
Proof.
  induction fs as [|f fs IH]; intros q Hq.
  - exists q. cbn. tauto.
  - destruct (py_set_ok q (f - 1)) as (q1 & E1 & L1 & N1); [apply Hq; now left|].
    destruct (IH q1) as (q2 & E2 & L2 & N2); [intros g Hg; rewrite L1; apply Hq; now right|].
    exists q2. cbn [fold_left]. rewrite E1. split; [exact E2|]. split; [congruence|].
    intros c Hc. destruct (N2 c Hc) as [A1 A2]. specialize (N1 c Hc). split.
    + intros [->|Hin]; [|auto]. destruct (in_dec Z.eq_dec (c + 1) fs) as [Hi|Hi]; [auto|].
      rewrite A2 by auto. rewrite N1. now replace (c =? c + 1 - 1) with true by (symmetry; apply Z.eqb_eq; lia).
    + intros Hn. rewrite A2 by (intros H; apply Hn; now right). rewrite N1.
      now replace (c =? f - 1) with false by (symmetry; apply Z.eqb_neq; intros ->; apply Hn; left; lia).
Qed.

Lemma row_ok isq p n : 0 < n <= p -> Z.sqrt n <= isq n ->
  exists q, grid_row isq p n = Some q /\ length q = Z.to_nat p /\
    forall c, 0 <= c < p -> nth_error q (Z.to_nat c) = Some (if (n mod (c + 1) =? 0) then 1 else 0).
Proof.
  intros Hn Hs. destruct (row_fold (factors isq n) (repeat 0 (Z.to_nat p))) as (q & E & L & N).
  { intros f Hf. apply factors_in in Hf; [|lia|auto]. destruct Hf as [F1 F2]. apply Z.divide_pos_le in F2; [|lia].
    rewrite repeat_length. lia. }
  exists q. split; [exact E|]. rewrite L, repeat_length. split; [auto|]. intros c Hc. destruct (N c ltac:(lia)) as [A1 A2].
  destruct (Z.eqb_spec (n mod (c + 1)) 0) as [D|D].
  - apply A1, factors_in; [lia|auto|]. split; [lia|]. apply Z.mod_divide; lia.
  - rewrite A2.
    + assert (G : forall k j, (j < k)%nat -> nth_error (repeat 0 k) j = Some 0).
      { induction k as [|k IH]; intros j Hj; [lia|]. destruct j; [reflexivity|]. cbn. apply IH. lia. }
      apply G. lia.
    + intros H. apply D. apply factors_in in H; [|lia|auto]. apply Z.mod_divide; [lia|tauto].
Qed.

Lemma rows_ok isq p ns : (forall n, In n ns -> 0 < n <= p /\ Z.sqrt n <= isq n) ->
  exists t, all_rows isq p ns = Some t /\ length t = length ns /\
    forall i n, nth_error ns i = Some n -> exists q, nth_error t i = Some q /\ grid_row isq p n = Some q.
Proof.
  induction ns as [|n ns IH]; intros H.
  - exists []. repeat split; auto. intros [|i] n E; discriminate.
  - destruct (row_ok isq p n) as (q & Eq & _); [apply H; now left|apply H; now left|].
    destruct IH as (t & Et & Lt & Nt); [intros; apply H; now right|].
    exists (q :: t). cbn [all_rows]. rewrite Eq, Et. split; [auto|]. split; [cbn; congruence|].
    intros [|i] n' E; cbn in *; [|auto]. injection E as <-. eauto.
Qed.

Lemma rev_nth {X} (l : list X) : forall i j, (i + j + 1 = length l)%nat -> nth_error (rev l) i = nth_error l j.
Proof.
  induction l as [|x l IH]; intros i j H; cbn in H; [lia|]. cbn [rev].
  destruct j as [|j].
  - rewrite nth_error_app2 by (rewrite rev_length; lia). rewrite rev_length. replace (i - length l)%nat with O by lia. reflexivity.
  - rewrite nth_error_app1 by (rewrite rev_length; lia). cbn [nth_error]. apply IH. lia.
Qed.

Lemma table_ok isq p r : 0 < p -> r <= p -> (forall n, 0 < n <= p -> Z.sqrt n <= isq n) ->
  exists g, gen_factor_table isq p r = Some g /\ t_rows g = p - Z.max 1 r + 1 /\ t_cols g = p /\
    forall i j, array_at g i j =
      if (0 <=? i) && (i <? t_rows g) && (0 <=? j) && (j <? p)
      then Some (if (p - i) mod (j + 1) =? 0 then 1 else 0) else None.
Proof.
  intros Hp Hr Hs. unfold gen_factor_table. set (a := Z.max 1 r). set (ns := py_range a (p + 1) 1).
  assert (Ha : 1 <= a <= p) by lia.
  destruct (rows_ok isq p ns) as (t & Et & Lt & Nt).
  { intros n Hn. apply in_range1 in Hn. split; [lia|apply Hs; lia]. }
  assert (Ln : length ns = Z.to_nat (p - a + 1)) by (unfold ns; rewrite py_range1, zseq_length; f_equal; lia).
  rewrite Et. eexists. split; [reflexivity|]. cbn [t_rows t_cols]. rewrite Ln, Z2Nat.id by lia.
  split; [auto|]. split; [auto|]. intros i j. unfold array_at. cbn [t_rows t_cols t_tab].
  destruct ((0 <=? i) && _ && _ && _) eqn:E; [|reflexivity].
  rewrite !andb_true_iff, !Z.leb_le, !Z.ltb_lt in E. destruct E as [[[E1 E2] E3] E4].
  set (k := Z.to_nat (p - a - i)).
  rewrite (rev_nth t (Z.to_nat i) k) by lia.
  assert (Nk : nth_error ns k = Some (p - i)).
  { unfold ns. rewrite py_range1, zseq_nth by lia. f_equal. lia. }
  destruct (Nt _ _ Nk) as (q & Eq & Eg). rewrite Eq.
  destruct (row_ok isq p (p - i)) as (q' & Eg' & _ & Nq); [lia|apply Hs; lia|]. rewrite Eg in Eg'. injection Eg' as <-.
  apply Nq. lia.
Qed.
