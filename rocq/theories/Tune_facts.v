(** * The search loop of the autotuner. *)

From Coq Require Import ZArith List Bool Lia Permutation.
From Verif Require Import Lang ModelSizing ModelUtil ModelTune Spec SpecTop SpecTune Torch_facts.
Import ListNotations.
Open Scope Z_scope.

Lemma tile_eqb_eq a b : tile_eqb a b = true <-> a = b.
Proof.
  destruct a as ((m & k) & n), b as ((m' & k') & n'). unfold tile_eqb.
  rewrite !andb_true_iff, !Z.eqb_eq. split; [intros ((-> & ->) & ->); reflexivity|intros E; injection E; auto].
Qed.

Lemma seen_in t v : existsb (tile_eqb t) v = true <-> In t v.
Proof.
  rewrite existsb_exists. split.
  - intros (x & Hx & E). apply tile_eqb_eq in E. now subst.
  - intros H. exists t. split; [auto|now apply tile_eqb_eq].
Qed.

Lemma tile_dec (a b : tile) : {a = b} + {a <> b}.
Proof. destruct (tile_eqb a b) eqn:E; [left; now apply tile_eqb_eq|right; intros H; apply tile_eqb_eq in H; congruence]. Qed.

(** ** The specification's words *)

Lemma max_cand_all M K N : 0 <= M -> 0 <= K -> 0 <= N -> max_cand M K N = all_points M K N.
Proof.
  assert (R : forall D s, 0 <= D -> 0 < s -> steps_in D s = (D + (s - 1)) / s).
  { intros D s HD Hs. unfold steps_in. rewrite Z.rem_mod_nonneg, Z.quot_div_nonneg by lia.
    pose proof (Z.div_mod D s ltac:(lia)) as E. pose proof (Z.mod_pos_bound D s Hs).
    destruct (Z.eqb_spec (D mod s) 0).
    - apply Z.div_unique with (s - 1); lia.
    - apply Z.div_unique with (D mod s - 1); lia. }
  intros. unfold max_cand, all_points. rewrite !R by lia. reflexivity.
Qed.

Lemma clamp_clamped lo hi z : clamp_val_int z lo hi = clamped lo hi z.
Proof. unfold clamp_val_int, clamped. destruct (Z.ltb_spec z lo); repeat (match goal with |- context[?a <? ?b] => destruct (Z.ltb_spec a b) end); lia. Qed.

Lemma share_eq D g r : 0 <= D -> 0 < g -> 0 < r -> Z.quot D g + (r - Z.rem (Z.quot D g) r) = share D g r.
Proof.
  intros. unfold share. rewrite (Z.quot_div_nonneg D g) by lia. pose proof (Z.div_pos D g ltac:(lia) ltac:(lia)).
  rewrite Z.rem_mod_nonneg by lia. pose proof (Z.div_mod (D / g) r ltac:(lia)). lia.
Qed.

Lemma candidate_moved M K N pm pn c curr dm dk dn : tunable M K N pm pn c ->
  get_candidate M K N pm pn c (cd_m_c curr) (cd_k_c curr) (cd_n_c curr) dm dk dn = moved M K N pm pn c curr (dm, dk, dn).
Proof.
  intros (? & ? & ? & ? & ? & ? & ?). unfold get_candidate, moved. cbv zeta. rewrite !clamp_clamped, !share_eq by auto.
  rewrite (Z.mul_comm 30), (Z.mul_comm 20), (Z.mul_comm 128). reflexivity.
Qed.

Section Loop.

Variables (M K N pm pn : Z) (c : cntx).
Hypothesis TU : tunable M K N pm pn c.

Notation point := (moved M K N pm pn c).

Lemma cand_all : max_cand M K N = all_points M K N.
Proof. destruct TU as (? & ? & ? & _). now apply max_cand_all. Qed.

Lemma loop_full fuel v cand curr steps i : all_points M K N <= Z.of_nat (length v) ->
  candidate_loop (S fuel) M K N pm pn c v cand curr steps i = Some (v, cand).
Proof. intros H. cbn [candidate_loop]. rewrite cand_all. now rewrite (proj2 (Z.ltb_ge _ _) H). Qed.

Lemma loop_step fuel v cand curr steps i : Z.of_nat (length v) < all_points M K N ->
  candidate_loop (S fuel) M K N pm pn c v cand curr steps i =
  let t := point curr (steps i) in
  if existsb (tile_eqb t) v then candidate_loop fuel M K N pm pn c v cand curr steps (S i)
  else Some (t :: v, CD (fst (fst t)) (snd (fst t)) (snd t) (cd_sch curr)).
Proof.
  intros H. cbn [candidate_loop]. rewrite cand_all, (proj2 (Z.ltb_lt _ _) H). destruct (steps i) as ((dm & dk) & dn).
  rewrite (candidate_moved M K N pm pn c curr dm dk dn TU). destruct (moved _ _ _ _ _ _ _ _) as ((m & k) & n). reflexivity.
Qed.

Lemma loop_inv fuel : forall v cand curr steps i v' r, Z.of_nat (length v) < all_points M K N ->
  candidate_loop fuel M K N pm pn c v cand curr steps i = Some (v', r) ->
  (exists j, tile_of r = point curr (steps j) /\ (i <= j)%nat) /\ ~ In (tile_of r) v /\ v' = tile_of r :: v /\ cd_sch r = cd_sch curr.
Proof.
  induction fuel as [|fuel IH]; intros v cand curr steps i v' r H E; [discriminate|].
  rewrite loop_step in E by auto. cbv zeta in E.
  destruct (existsb (tile_eqb (point curr (steps i))) v) eqn:SE.
  - destruct (IH _ _ _ _ _ _ _ H E) as ((j & J1 & J2) & R). split; [exists j; split; [auto|lia]|auto].
  - injection E as <- <-.
    assert (T : tile_of (CD (fst (fst (point curr (steps i)))) (snd (fst (point curr (steps i)))) (snd (point curr (steps i))) (cd_sch curr)) = point curr (steps i)).
    { unfold tile_of. cbn [cd_m_c cd_k_c cd_n_c]. now destruct (point curr (steps i)) as ((? & ?) & ?). }
    rewrite T. split; [exists i; auto|]. split; [|auto]. intros Hin. apply seen_in in Hin. congruence.
Qed.

Lemma loop_finds v cand curr steps : Z.of_nat (length v) < all_points M K N ->
  forall d i, ~ In (point curr (steps (i + d)%nat)) v ->
  exists fuel v' r, candidate_loop fuel M K N pm pn c v cand curr steps i = Some (v', r).
Proof.
  intros H. induction d as [|d IH]; intros i Hd.
  - exists 1%nat. rewrite Nat.add_0_r in Hd. rewrite loop_step by auto. cbv zeta.
    destruct (existsb _ v) eqn:SE; [now apply seen_in in SE|eauto].
  - destruct (IH (S i)) as (fuel & v' & r & E); [now replace (S i + d)%nat with (i + S d)%nat by lia|].
    destruct (existsb (tile_eqb (point curr (steps i))) v) eqn:SE.
    + exists (S fuel), v', r. rewrite loop_step by auto. cbv zeta. rewrite SE. exact E.
    + exists 1%nat. rewrite loop_step by auto. cbv zeta. rewrite SE. eauto.
Qed.

Lemma loop_hangs v cand curr steps : Z.of_nat (length v) < all_points M K N -> (forall j, In (point curr (steps j)) v) ->
  forall fuel i, candidate_loop fuel M K N pm pn c v cand curr steps i = None.
Proof.
  intros H HI. induction fuel as [|fuel IH]; intros i; [reflexivity|]. rewrite loop_step by auto. cbv zeta.
  now rewrite (proj2 (seen_in _ _) (HI i)).
Qed.

(** a finished call *)
Theorem call_result v cand curr steps v' r : gives M K N pm pn c v cand curr steps v' r ->
  (all_points M K N <= Z.of_nat (length v) /\ v' = v /\ r = cand) \/
  (Z.of_nat (length v) < all_points M K N /\ ~ In (tile_of r) v /\ v' = tile_of r :: v /\ cd_sch r = cd_sch curr /\
   exists d, tile_of r = moved M K N pm pn c curr d).
Proof.
  intros (fuel & E). destruct (Z.lt_ge_cases (Z.of_nat (length v)) (all_points M K N)) as [L|L].
  - right. destruct (loop_inv _ _ _ _ _ _ _ _ L E) as ((j & J & _) & R1 & R2 & R3).
    split; [exact L|]. split; [auto|split; [auto|split; [auto|]]]. eauto.
  - left. destruct fuel; [discriminate|]. rewrite loop_full in E by auto. injection E as <- <-. auto.
Qed.

(** which calls finish *)
Theorem call_returns v cand curr steps :
  (exists v' r, gives M K N pm pn c v cand curr steps v' r) <->
  (all_points M K N <= Z.of_nat (length v) \/ exists i, ~ In (point curr (steps i)) v).
Proof.
  split.
  - intros (v' & r & G). pose proof (call_result _ _ _ _ _ _ G) as [(L & _)|(L & NI & _)]; [auto|]. right.
    destruct G as (fuel & E). destruct (loop_inv _ _ _ _ _ _ _ _ L E) as ((j & J & _) & _). exists j. now rewrite <- J.
  - intros H. destruct (Z.lt_ge_cases (Z.of_nat (length v)) (all_points M K N)) as [L|L].
    + destruct H as [H|(i & Hi)]; [lia|]. destruct (loop_finds v cand curr steps L i 0%nat Hi) as (fuel & v' & r & E).
      exists v', r, fuel. exact E.
    + exists v, cand, 1%nat. now apply loop_full.
Qed.

Theorem call_hangs v cand curr steps : hangs M K N pm pn c v cand curr steps <->
  (Z.of_nat (length v) < all_points M K N /\ forall i, In (point curr (steps i)) v).
Proof.
  split.
  - intros H. assert (NG : ~ exists v' r, gives M K N pm pn c v cand curr steps v' r).
    { intros (v' & r & fuel & E). rewrite (H fuel) in E. discriminate. }
    rewrite call_returns in NG. split; [lia|]. intros i. destruct (in_dec tile_dec (point curr (steps i)) v); [auto|].
    elim NG. eauto.
  - intros (L & HI) fuel. now apply loop_hangs.
Qed.

(** ** Searches *)

Lemma search_gen from v outs : search M K N pm pn c from v outs ->
  NoDup v /\ (Z.of_nat (length outs) <= all_points M K N -> v = map tile_of outs) /\
  (all_points M K N <= Z.of_nat (length outs) -> 0 <= all_points M K N -> Z.of_nat (length v) = all_points M K N) /\
  (forall t, In t v -> exists curr d, from curr /\ t = moved M K N pm pn c curr d).
Proof.
  induction 1 as [|v outs cand curr steps v' r H (I1 & I2 & I3 & I4) HF G].
  - split; [constructor|split; [reflexivity|split; [cbn; lia|intros ? []]]].
  - cbn [length map]. destruct (call_result _ _ _ _ _ _ G) as [(L & -> & ->)|(L & NI & -> & _ & d & E)].
    + split; [auto|]. split; [|split; [|auto]].
      * intros B. rewrite I2 in L by lia. rewrite map_length in L. lia.
      * intros B P. destruct (Z.le_gt_cases (all_points M K N) (Z.of_nat (length outs))); [auto|].
        rewrite I2 in L by lia. rewrite map_length in L. lia.
    + assert (B : Z.of_nat (length outs) < all_points M K N).
      { apply Z.nle_gt. intros B. destruct (Z.le_gt_cases 0 (all_points M K N)); [rewrite I3 in L; lia|lia]. }
      rewrite <- I2 by lia. split; [constructor; auto|]. split; [reflexivity|split].
      * intros B' P. cbn [length]. assert (length v = length outs) by (rewrite I2 by lia; apply map_length). lia.
      * intros t [<- |Ht]; [|auto]. exists curr, d. auto.
Qed.

(** never the same sizes twice *)
Theorem search_distinct from v outs : search M K N pm pn c from v outs -> Z.of_nat (length outs) <= all_points M K N ->
  NoDup (map tile_of outs).
Proof. intros H L. destruct (search_gen _ _ _ H) as (I1 & I2 & _). now rewrite <- I2. Qed.

(** afterwards nothing is proposed any more *)
Theorem search_over from v outs cand curr steps : search M K N pm pn c from v outs ->
  all_points M K N <= Z.of_nat (length outs) ->
  gives M K N pm pn c v cand curr steps v cand /\
  (forall v' r, gives M K N pm pn c v cand curr steps v' r -> v' = v /\ r = cand).
Proof.
  intros H L. assert (P : 0 <= all_points M K N).
  { destruct TU as (? & ? & ? & _). unfold all_points. repeat apply Z.mul_nonneg_nonneg; apply Z.div_pos; lia. }
  destruct (search_gen _ _ _ H) as (_ & _ & I3 & _). specialize (I3 L P). split.
  - exists 1%nat. apply loop_full. lia.
  - intros v' r G. destruct (call_result _ _ _ _ _ _ G) as [(_ & ? & ?)|(L' & _)]; [auto|lia].
Qed.

(** ** Searches from one point *)

Lemma point_proposal curr L d : proposals_at M K N pm pn c curr L -> In (point curr d) L.
Proof. intros (_ & HL). apply HL. eauto. Qed.

Theorem search_one curr L v outs : proposals_at M K N pm pn c curr L -> Z.of_nat (length L) < all_points M K N ->
  search M K N pm pn c (eq curr) v outs ->
  (length outs <= length L)%nat /\
  (length outs = length L -> forall cand steps, hangs M K N pm pn c v cand curr steps) /\
  ((length outs < length L)%nat -> exists d, forall cand steps, (exists i, steps i = d) ->
     exists v' r, gives M K N pm pn c v cand curr steps v' r).
Proof.
  intros HL HB H. pose proof HL as (ND & HP).
  assert (SUB : forall v outs, search M K N pm pn c (eq curr) v outs -> NoDup v /\ incl v L).
  { intros v0 outs0 H0. destruct (search_gen _ _ _ H0) as (J1 & _ & _ & J4). split; [auto|].
    intros t Ht. destruct (J4 t Ht) as (cu & d & <- & ->). apply HP. eauto. }
  assert (LEN : forall v outs, search M K N pm pn c (eq curr) v outs -> (length outs <= length L)%nat /\ v = map tile_of outs).
  { induction 1 as [|v0 outs0 cand cu steps v' r H0 IH HF G]; [cbn; split; [lia|reflexivity]|].
    destruct IH as (I1 & I2). assert (B : Z.of_nat (length (r :: outs0)) <= all_points M K N) by (cbn [length]; lia).
    pose proof (Call _ _ _ _ _ _ _ _ _ _ _ _ _ _ H0 HF G) as H1.
    destruct (search_gen _ _ _ H1) as (_ & J2 & _). specialize (J2 B). split; [|auto].
    destruct (SUB _ _ H1) as (S1 & S2). pose proof (NoDup_incl_length S1 S2) as Q. rewrite J2, map_length in Q. exact Q. }
  destruct (LEN _ _ H) as (L1 & L2). destruct (SUB _ _ H) as (S1 & S2).
  assert (LV : length v = length outs) by (rewrite L2; apply map_length).
  split; [auto|split].
  - intros E cand steps. apply call_hangs. split; [lia|]. intros i.
    assert (incl L v) by (apply NoDup_length_incl; auto; lia). apply H0. now apply point_proposal.
  - intros LT. destruct (Exists_dec (fun t => ~ In t v) L) as [E|E].
    { intros t. destruct (in_dec tile_dec t v); [right; tauto|left; auto]. }
    + apply Exists_exists in E. destruct E as (t & Ht & NI). apply HP in Ht. destruct Ht as (d & ->).
      exists d. intros cand steps (i & Hi). apply call_returns. right. exists i. now rewrite Hi.
    + exfalso. assert (I : incl L v).
      { intros t Ht. destruct (in_dec tile_dec t v); [auto|]. elim E. apply Exists_exists. eauto. }
      pose proof (NoDup_incl_length ND I). lia.
Qed.

(** such a search can be continued up to the call that does not return *)
Theorem search_one_ends curr L : proposals_at M K N pm pn c curr L -> Z.of_nat (length L) < all_points M K N ->
  exists v outs, search M K N pm pn c (eq curr) v outs /\ length outs = length L /\
    forall cand steps, hangs M K N pm pn c v cand curr steps.
Proof.
  intros HL HB.
  assert (EX : forall n, (n <= length L)%nat -> exists v outs, search M K N pm pn c (eq curr) v outs /\ length outs = n).
  { induction n as [|n IH]; intros Hn; [exists [], []; split; [constructor|reflexivity]|].
    destruct IH as (v & outs & H & E); [lia|].
    destruct (search_one curr L v outs HL HB H) as (_ & _ & G). destruct G as (d & G); [lia|].
    destruct (G curr (fun _ => d)) as (v' & r & R); [exists 0%nat; reflexivity|].
    exists v', (r :: outs). split; [|cbn [length]; lia]. eapply Call; [exact H|reflexivity|exact R]. }
  destruct (EX (length L) (le_n _)) as (v & outs & H & E). exists v, outs. split; [auto|split; [auto|]].
  now apply (search_one curr L v outs HL HB H).
Qed.

End Loop.

(** ** How many proposals a point has *)

Definition between (lo n : Z) : list Z := map (fun i => lo + Z.of_nat i) (seq 0 (Z.to_nat n)).

(** the values of clamp (cur + step * j) lo hi *)
Definition values (cur step lo hi : Z) : list Z :=
  if lo <? hi then
    let f := lo + 1 + (cur - (lo + 1)) mod step in
    lo :: hi :: map (fun i => f + step * Z.of_nat i) (seq 0 (Z.to_nat ((hi - f + step - 1) / step)))
  else [hi].

Lemma values_nodup cur step lo hi : 0 < step -> NoDup (values cur step lo hi).
Proof.
  intros Hs. unfold values. destruct (Z.ltb_spec lo hi) as [L|L]; [|constructor; [easy|constructor]]. cbv zeta.
  set (f := lo + 1 + (cur - (lo + 1)) mod step). pose proof (Z.mod_pos_bound (cur - (lo + 1)) step Hs).
  set (q := (hi - f + step - 1) / step).
  assert (Q : step * q <= hi - f + step - 1) by (apply Z.mul_div_le; auto).
  assert (BD : forall x, In x (map (fun i => f + step * Z.of_nat i) (seq 0 (Z.to_nat q))) -> lo < x < hi).
  { intros x Hx. apply in_map_iff in Hx. destruct Hx as (i & <- & Hi). apply in_seq in Hi.
    assert (Z.of_nat i <= q - 1) by lia. unfold f in *. nia. }
  constructor; [intros [E|E]; [lia|apply BD in E; lia]|]. constructor; [intros E; apply BD in E; lia|].
  apply FinFun.Injective_map_NoDup; [|apply seq_NoDup]. intros i j E. nia.
Qed.

Lemma values_iff cur step lo hi x : 0 < step -> (In x (values cur step lo hi) <-> exists j, x = clamped lo hi (cur + step * j)).
Proof.
  intros Hs. transitivity (exists j, x = clamp_val_int (cur + j * step) lo hi);
    [|split; intros (j & ->); exists j; rewrite clamp_clamped, (Z.mul_comm step); reflexivity].
  unfold values, clamp_val_int. destruct (Z.ltb_spec lo hi) as [L|L]; cbv zeta.
  - set (f := lo + 1 + (cur - (lo + 1)) mod step). pose proof (Z.mod_pos_bound (cur - (lo + 1)) step Hs).
    pose proof (Z.div_mod (cur - (lo + 1)) step ltac:(lia)) as DM. set (d := (cur - (lo + 1)) / step) in *.
    set (q := (hi - f + step - 1) / step).
    assert (Q : step * q <= hi - f + step - 1) by (apply Z.mul_div_le; auto).
    assert (Q2 : hi - f + step - 1 < step * (q + 1)) by (unfold q; pose proof (Z.mul_succ_div_gt (hi - f + step - 1) step Hs); lia).
    assert (F : cur = f + step * d) by (unfold f; lia).
    split.
    + intros [<- |[<- |Hx]].
      * exists (- Z.abs (cur - lo)). assert (cur + - Z.abs (cur - lo) * step <= lo) by nia.
        destruct (Z.ltb_spec (cur + - Z.abs (cur - lo) * step) lo); destruct (Z.ltb_spec hi lo); try lia. 
        destruct (Z.ltb_spec hi (cur + - Z.abs (cur - lo) * step)); lia.
      * exists (Z.abs (hi - cur)). assert (hi <= cur + Z.abs (hi - cur) * step) by nia.
        destruct (Z.ltb_spec (cur + Z.abs (hi - cur) * step) lo); [lia|]. destruct (Z.ltb_spec hi (cur + Z.abs (hi - cur) * step)); lia.
      * apply in_map_iff in Hx. destruct Hx as (i & <- & Hi). apply in_seq in Hi. exists (Z.of_nat i - d).
        assert (E : cur + (Z.of_nat i - d) * step = f + step * Z.of_nat i) by lia. rewrite E.
        assert (Z.of_nat i <= q - 1) by lia. assert (lo < f) by (unfold f; lia).
        destruct (Z.ltb_spec (f + step * Z.of_nat i) lo); [nia|]. destruct (Z.ltb_spec hi (f + step * Z.of_nat i)); [nia|reflexivity].
    + intros (j & ->). assert (E : cur + j * step = f + step * (d + j)) by lia. rewrite E. set (i := d + j).
      destruct (Z.ltb_spec (f + step * i) lo); [destruct (Z.ltb_spec hi lo); [lia|now left]|].
      destruct (Z.ltb_spec hi (f + step * i)); [right; now left|].
      destruct (Z.eq_dec (f + step * i) lo) as [-> |]; [now left|]. destruct (Z.eq_dec (f + step * i) hi) as [-> |]; [right; now left|].
      right. right. apply in_map_iff. assert (0 <= i) by (unfold f in *; nia). exists (Z.to_nat i). rewrite Z2Nat.id by auto.
      split; [reflexivity|]. apply in_seq. assert (i < q) by nia. lia.
  - split.
    + intros [<- |[]]. exists 0. destruct (Z.ltb_spec (cur + 0 * step) lo).
      * destruct (Z.ltb_spec hi lo); lia.
      * destruct (Z.ltb_spec hi (cur + 0 * step)); lia.
    + intros (j & ->). left. destruct (Z.ltb_spec (cur + j * step) lo).
      * destruct (Z.ltb_spec hi lo); lia.
      * destruct (Z.ltb_spec hi (cur + j * step)); lia.
Qed.

Lemma values_length cur step lo hi : 0 < step -> Z.of_nat (length (values cur step lo hi)) = places cur lo hi step.
Proof.
  intros Hs. unfold values, places. destruct (Z.ltb_spec lo hi) as [L|L]; [|reflexivity]. cbv zeta.
  cbn [length]. rewrite map_length, seq_length. set (f := lo + 1 + (cur - (lo + 1)) mod step).
  pose proof (Z.mod_pos_bound (cur - (lo + 1)) step Hs). pose proof (Z.div_mod (cur - (lo + 1)) step ltac:(lia)) as DM.
  set (d := (cur - (lo + 1)) / step) in *. set (r := (cur - (lo + 1)) mod step) in *.
  assert (E1 : (lo - cur) / step = - d - 1) by (symmetry; apply Z.div_unique with (step - r - 1); lia).
  assert (E2 : (hi - f + step - 1) / step = (hi - 1 - cur) / step + (d + 1)).
  { rewrite <- Z.div_add by lia. f_equal. unfold f. lia. }
  assert ((lo - cur) / step <= (hi - 1 - cur) / step) by (apply Z.div_le_mono; lia).
  rewrite E2, E1 in *. lia.
Qed.

Theorem proposals_exist M K N pm pn c curr :
  exists L, proposals_at M K N pm pn c curr L /\
    Z.of_nat (length L) =
      places (cd_m_c curr) (mr c) (share M pm (mr c)) 30 * places (cd_k_c curr) 20 K 20 *
      places (cd_n_c curr) (nr c) (share N pn (nr c)) 128.
Proof.
  set (mx := share M pm (mr c)). set (nx := share N pn (nr c)).
  set (ms := values (cd_m_c curr) 30 (mr c) mx). set (ks := values (cd_k_c curr) 20 20 K). set (ns := values (cd_n_c curr) 128 (nr c) nx).
  assert (PD : forall (A B : Type) (a : list A) (b : list B), NoDup a -> NoDup b -> NoDup (list_prod a b)).
  { intros A B a b Ha Hb. induction Ha as [|x a Hx Ha IH]; [constructor|]. cbn [list_prod].
    assert (D : forall l1 l2 : list (A * B), NoDup l1 -> NoDup l2 -> (forall z, In z l1 -> ~ In z l2) -> NoDup (l1 ++ l2)).
    { clear. induction 1 as [|z l1 Hz H IH]; intros H2 HD; [auto|]. cbn [app]. constructor.
      - rewrite in_app_iff. intros [?|?]; [auto|]. eapply HD; [left; reflexivity|auto].
      - apply IH; [auto|]. intros w Hw. apply HD. now right. }
    apply D; [|auto|].
    - apply FinFun.Injective_map_NoDup; [intros u w E; now injection E|auto].
    - intros (u, w) Hu Hw. apply in_map_iff in Hu. destruct Hu as (y & E & _). injection E as <- _.
      apply in_prod_iff in Hw. tauto. }
  exists (list_prod (list_prod ms ks) ns). split; [split|].
  - apply PD; [apply PD|]; apply values_nodup; lia.
  - intros ((m & k) & n). etransitivity; [apply in_prod_iff|]. etransitivity; [apply and_iff_compat_r; apply in_prod_iff|].
    unfold ms, ks, ns. rewrite !values_iff by lia. unfold moved. fold mx nx. split.
    + intros ((( j1 & ->) & (j2 & ->)) & (j3 & ->)). exists (j1, j2, j3). reflexivity.
    + intros (((dm & dk) & dn) & E). injection E as -> -> ->. repeat split; eexists; reflexivity.
  - unfold tile. rewrite !prod_length, !Nat2Z.inj_mul. unfold ms, ks, ns. rewrite !values_length by lia. reflexivity.
Qed.
