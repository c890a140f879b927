(** * When all points of a search by the autotuner are legal tiles. *)

From Coq Require Import ZArith List Bool Lia.
From Verif Require Import Lang ModelSizing ModelUtil Spec SpecTop SpecMisfit Torch_facts.
Open Scope Z_scope.

Lemma share_div D p r : 0 < r -> (r | Z.quot D p + (r - Z.rem (Z.quot D p) r)).
Proof.
  intros Hr. pose proof (Z.quot_rem (Z.quot D p) r ltac:(lia)) as E. exists (Z.quot (Z.quot D p) r + 1). lia.
Qed.

Lemma clamp_div d mn mx r : (r | d) -> (r | mn) -> (r | mx) -> (r | clamp_val_int d mn mx).
Proof. intros. unfold clamp_val_int. destruct (d <? mn), (mx <? _); auto; destruct (mx <? _); auto. Qed.

Definition legal3 (c : cntx) (t : Z * Z * Z) : Prop := let '(m, k, n) := t in user_tiles c m k n.

Lemma explored_legal M K N pm pn c s t : 0 < mr c -> 0 < nr c -> (mr c | 30) -> (nr c | 128) ->
  0 <= M -> 0 < K -> 0 <= N -> 0 < pm -> 0 < pn ->
  legal3 c s -> explored M K N pm pn c s t -> legal3 c t.
Proof.
  intros Hmr Hnr D1 D2 HM HK HN Hpm Hpn Hs H. induction H as [|m k n dm dk dn H IH]; [exact Hs|].
  destruct IH as (I1 & I2 & I3 & I4 & I5).
  pose proof (candidate_range M K N pm pn c m k n dm dk dn HM HK HN Hpm Hpn Hmr Hnr) as R.
  unfold get_candidate in *. cbv zeta in R. cbn [legal3]. destruct R as (R1 & R2 & R3).
  split; [lia|split; [lia|split; [lia|split]]].
  - apply clamp_div; [|apply Z.divide_refl|apply share_div; auto]. apply Z.divide_add_r; [auto|apply Z.divide_mul_r; auto].
  - apply clamp_div; [|apply Z.divide_refl|apply share_div; auto]. apply Z.divide_add_r; [auto|apply Z.divide_mul_r; auto].
Qed.

Lemma clamp_in d mn mx : mn <= d <= mx -> clamp_val_int d mn mx = d.
Proof. intros H. unfold clamp_val_int. replace (d <? mn) with false by lia. replace (mx <? d) with false by lia. reflexivity. Qed.

(** One step from the smallest legal point, in a matrix large enough. *)
Lemma explored_step c : 0 < mr c -> 0 < nr c ->
  exists t, explored (mr c + 30) 20 (nr c + 128) 1 1 c (mr c, 20, nr c) t /\ (legal3 c t -> (mr c | 30) /\ (nr c | 128)).
Proof.
  intros Hmr Hnr. eexists. split; [apply (Propose _ _ _ _ _ _ _ (mr c) 20 (nr c) 1 0 1); apply Start|].
  unfold get_candidate. cbv zeta. rewrite !Z.quot_1_r.
  pose proof (Z.rem_bound_pos (mr c + 30) (mr c) ltac:(lia) Hmr). pose proof (Z.rem_bound_pos (nr c + 128) (nr c) ltac:(lia) Hnr).
  rewrite !clamp_in by lia. intros (_ & _ & _ & L4 & L5).
  split; eapply Z.divide_add_cancel_r; try apply Z.divide_refl; [exact L4|exact L5].
Qed.

Theorem explored_iff c : 0 < mr c -> 0 < nr c ->
  ((mr c | 30) /\ (nr c | 128) <->
   forall M K N pm pn m k n m' k' n', 0 <= M -> 0 < K -> 0 <= N -> 0 < pm -> 0 < pn -> user_tiles c m k n ->
     explored M K N pm pn c (m, k, n) (m', k', n') -> user_tiles c m' k' n').
Proof.
  intros Hmr Hnr. split.
  - intros (D1 & D2) M K N pm pn m k n m' k' n' HM HK HN Hpm Hpn Hs H.
    exact (explored_legal M K N pm pn c (m, k, n) (m', k', n') Hmr Hnr D1 D2 HM HK HN Hpm Hpn Hs H).
  - intros H. destruct (explored_step c Hmr Hnr) as (((m' & k') & n') & E & G). apply G. cbn [legal3].
    apply (H (mr c + 30) 20 (nr c + 128) 1 1 (mr c) 20 (nr c)); try lia; [|exact E].
    split; [auto|split; [lia|split; [auto|split; apply Z.divide_refl]]].
Qed.
