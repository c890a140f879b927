(** * Snake-ordered loops and the order in which the k dimension is traversed. *)

From Coq Require Import ZArith List Bool Lia Permutation.
From Verif Require Import Lang Spec ModelSched Kernel_facts Sizing_facts.
Import ListNotations.
Open Scope Z_scope.

Lemma snake_inc rev nb : sn_inc (snake rev nb) * sn_inc (snake rev nb) = 1.
Proof. destruct rev; reflexivity. Qed.

Lemma snake_end rev nb : sn_end (snake rev nb) = sn_start (snake rev nb) + nb * sn_inc (snake rev nb).
Proof. destruct rev; cbn; lia. Qed.

(** the j-th index visited *)
Definition sn_at (rev : bool) (nb j : Z) : Z := sn_start (snake rev nb) + j * sn_inc (snake rev nb).

Lemma sn_at_in rev nb j : 0 <= j < nb -> 0 <= sn_at rev nb j < nb.
Proof. destruct rev; cbn; unfold sn_at; cbn; lia. Qed.

Lemma sn_at_surj rev nb b : 0 <= b < nb -> exists j, 0 <= j < nb /\ sn_at rev nb j = b.
Proof. intros H. unfold sn_at. destruct rev; cbn; [exists (nb - 1 - b)|exists b]; lia. Qed.

Lemma sn_at_inj rev nb j j' : sn_at rev nb j = sn_at rev nb j' -> j = j'.
Proof. unfold sn_at. destruct rev; cbn; lia. Qed.

Definition snake_list (rev : bool) (nb c : Z) : list Z := map (sn_at rev nb) (zrange 0 c).

Lemma snake_list_snoc rev nb c : 0 <= c -> snake_list rev nb (c + 1) = snake_list rev nb c ++ [sn_at rev nb c].
Proof. intros H. unfold snake_list. rewrite zrange_snoc by auto. now rewrite map_app. Qed.

Lemma zseq_NoDup n i : NoDup (zseq n i 1).
Proof.
  revert i; induction n as [|n IH]; intros i; cbn [zseq]; constructor; auto.
  rewrite in_zseq. lia.
Qed.

Lemma snake_perm rev nb : 0 <= nb -> Permutation (snake_list rev nb nb) (zrange 0 nb).
Proof.
  intros H. apply NoDup_Permutation.
  - unfold snake_list. apply FinFun.Injective_map_NoDup; [|apply zseq_NoDup].
    intros a b. apply sn_at_inj.
  - apply zseq_NoDup.
  - intros b. rewrite in_zrange. unfold snake_list. rewrite in_map_iff. split.
    + intros (j & <- & Hj). rewrite in_zrange in Hj. pose proof (sn_at_in rev nb j). lia.
    + intros Hb. destruct (sn_at_surj rev nb b ltac:(lia)) as (j & Hj & E). exists j.
      rewrite in_zrange. lia.
Qed.

(** The elements of block [b]. *)
Definition blk_elems (t : Z) (w : Z -> Z) (b : Z) : list Z := zrange (b * t) (w b).

(** k indices in the order they are accumulated by a loop over the blocks *)
Definition kord (t : Z) (w : Z -> Z) (rev : bool) (nb c : Z) : list Z :=
  flat_map (blk_elems t w) (snake_list rev nb c).

Lemma kord_0 t w rev nb : kord t w rev nb 0 = [].
Proof. reflexivity. Qed.

Lemma kord_snoc t w rev nb c : 0 <= c ->
  kord t w rev nb (c + 1) = kord t w rev nb c ++ blk_elems t w (sn_at rev nb c).
Proof.
  intros H. unfold kord. rewrite snake_list_snoc by auto. rewrite flat_map_app. cbn. now rewrite app_nil_r.
Qed.

Lemma flat_blocks nb t D w : part nb t D w -> forall c, 0 <= c <= nb ->
  flat_map (blk_elems t w) (zrange 0 c) = zrange 0 (off nb t D c).
Proof.
  intros H. assert (G : forall c, 0 <= c -> c <= nb ->
    flat_map (blk_elems t w) (zrange 0 c) = zrange 0 (off nb t D c)).
  { apply (natlike_ind (fun c => c <= nb -> flat_map (blk_elems t w) (zrange 0 c) = zrange 0 (off nb t D c))).
    - intros _. rewrite (off_0 _ _ _ _ H). reflexivity.
    - intros c Hc IH Hle. unfold Z.succ in *. rewrite zrange_snoc by lia. rewrite flat_map_app. cbn [flat_map].
      rewrite app_nil_r, IH by lia. rewrite (off_S _ _ _ _ H) by lia. rewrite (off_lt nb t D c) by lia.
      pose proof (pt_w _ _ _ _ H c ltac:(lia)).
      rewrite zrange_app by nia. unfold blk_elems. now rewrite Z.add_0_l. }
  intros c Hc. apply G; lia.
Qed.

Lemma kord_perm nb t D w rev : part nb t D w -> Permutation (kord t w rev nb nb) (zrange 0 D).
Proof.
  intros H. pose proof (pt_nb _ _ _ _ H) as Hn.
  transitivity (flat_map (blk_elems t w) (zrange 0 nb)).
  - unfold kord. apply Permutation_flat_map, snake_perm; auto.
  - rewrite (flat_blocks _ _ _ _ H) by lia. now rewrite off_n.
Qed.

Lemma in_kord nb t D w rev c k : part nb t D w -> 0 <= c <= nb -> In k (kord t w rev nb c) -> 0 <= k < D.
Proof.
  intros H Hc Hk. unfold kord in Hk. rewrite in_flat_map in Hk. destruct Hk as (b & Hb & Hk).
  unfold snake_list in Hb. rewrite in_map_iff in Hb. destruct Hb as (j & <- & Hj). rewrite in_zrange in Hj.
  pose proof (sn_at_in rev nb j ltac:(lia)) as Hs.
  unfold blk_elems in Hk. rewrite in_zrange in Hk.
  pose proof (part_end _ _ _ _ H _ Hs). pose proof (pt_w _ _ _ _ H _ Hs). nia.
Qed.

Lemma part_div nb t D w i b : part nb t D w -> 0 <= b < nb -> b * t <= i < b * t + w b -> i / t = b.
Proof.
  intros H Hb Hi. pose proof (pt_w _ _ _ _ H b Hb). symmetry. apply (Z.div_unique i t b (i - b * t)); lia.
Qed.
