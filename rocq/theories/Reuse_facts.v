(** * Block loops that keep packed blocks of A and B from one iteration to the next. *)

From Coq Require Import ZArith List Bool Lia.
From Verif Require Import Lang Lang_facts Spec ModelSizing ModelKernel ModelPack ModelSched
     Kernel_facts Tile_facts Loop_facts Sizing_facts Order_facts Cphase_facts SchedK_facts.
Import ListNotations.
Open Scope Z_scope.

Lemma odd2_succ n : 0 <= n -> odd2 (n + 1) = negb (odd2 n).
Proof.
  intros H. unfold odd2, truthy. rewrite !Z.rem_mod_nonneg by lia.
  pose proof (Z.mod_pos_bound n 2 ltac:(lia)).
  rewrite Z.add_mod by lia. change (1 mod 2) with 1.
  assert (n mod 2 = 0 \/ n mod 2 = 1) as [E|E] by lia; rewrite E; reflexivity.
Qed.

Lemma sn_at_0 rev nb : sn_at rev nb 0 = sn_start (snake rev nb).
Proof. unfold sn_at. lia. Qed.

(** where one direction ends the other starts *)
Lemma sn_at_turn rev nb : sn_at rev nb (nb - 1) = sn_at (negb rev) nb 0.
Proof. unfold sn_at. destruct rev; cbn; lia. Qed.

Lemma sn_at_next rev nb j : 0 <= j -> j + 1 < nb -> odd2 (sn_at rev nb (j + 1)) = negb (odd2 (sn_at rev nb j)).
Proof.
  intros Hj Hn. unfold sn_at. destruct rev; cbn.
  - replace (nb - 1 + j * -1) with (nb - 1 + (j + 1) * -1 + 1) by lia. rewrite odd2_succ by lia.
    now rewrite Bool.negb_involutive.
  - rewrite !Z.mul_1_r. apply odd2_succ. lia.
Qed.

Lemma inner_rev_m n m m' : odd2 m' = negb (odd2 m) -> inner_rev n m' = negb (inner_rev n m).
Proof. intros E. unfold inner_rev. rewrite E. now destruct (odd2 n). Qed.

Lemma inner_rev_n n m : 0 <= n -> inner_rev (n + 1) m = negb (inner_rev n m).
Proof. intros H. unfold inner_rev. rewrite odd2_succ by auto. destruct (odd2 n); cbn; now rewrite ?Bool.negb_involutive. Qed.

Section Reuse.

Variable S : scalar.
Notation T := (elt S).

Lemma reuse_grid (stepp : Z -> Z -> Z -> bool -> bool -> prog T unit) (fin : Z -> Z -> prog T unit)
      nN tN DN wN nM tM DM wM nK M N (val : Z -> Z -> T)
      (Base Zero : mem T -> Prop) (Acc : Z -> Z -> Z -> mem T -> Prop) (Ab Bb : Z -> Z -> mem T -> Prop)
      m (Post : unit -> mem T -> Prop) :
  part nN tN DN wN -> part nM tM DM wM -> M <= DM -> N <= DN -> 0 <= nK ->
  Base m -> Zero m ->
  (forall n mb m', 0 <= n < nN -> 0 <= mb < nM -> Base m' -> Zero m' -> Acc n mb 0 m') ->
  (forall n mb j rb ra m', 0 <= n < nN -> 0 <= mb < nM -> 0 <= j < nK -> Base m' -> Acc n mb j m' ->
     let k := sn_at (inner_rev n mb) nK j in 0 <= k < nK ->
     (rb = true -> Bb n k m') -> (ra = true -> Ab mb k m') ->
     pok (stepp n mb k rb ra) m' (fun _ m'' =>
       Base m'' /\ Acc n mb (j + 1) m'' /\ Bb n k m'' /\ Ab mb k m'' /\
       (forall i, dat m'' BufC i = dat m' BufC i))) ->
  (forall n mb Dn m', 0 <= n < nN -> 0 <= mb < nM -> Base m' -> Acc n mb nK m' -> cdone S m' M N val Dn ->
     pok (fin n mb) m' (fun _ m'' =>
       Base m'' /\ Zero m'' /\
       cdone S m'' M N val (fun r c => Dn r c \/
          (mb * tM <= r < mb * tM + wM mb /\ n * tN <= c < n * tN + wN n)) /\
       (forall k, 0 <= k < nK -> Bb n k m' -> Bb n k m'') /\
       (forall k, 0 <= k < nK -> Ab mb k m' -> Ab mb k m''))) ->
  (forall m', Base m' -> cdone S m' M N val (fun _ _ => True) -> Post tt m') ->
  pok (pfor_ 0 nN 1 (fun n =>
        let ms := snake (odd2 n) nM in
        pfor_ne_ (sn_start ms) (sn_end ms) (sn_inc ms) (fun mb =>
          let ks := snake (inner_rev n mb) nK in
          pbind (pfor_ne_ (sn_start ks) (sn_end ks) (sn_inc ks) (fun k =>
             stepp n mb k ((k =? sn_start ks) && negb (mb =? sn_start ms))
                          ((k =? sn_start ks) && (mb =? sn_start ms) && negb (n =? 0))))
            (fun _ => fin n mb)))) m Post.
Proof.
  intros HN HM HMD HND HnK HB0 HZ0 HAcc0 Hstep Hfin HPost.
  pose proof (pt_nb _ _ _ _ HN) as HnN. pose proof (pt_nb _ _ _ _ HM) as HnM.
  eapply (grid_loop S _ nN tN DN wN nM tM DM wM M N val
    (fun n j m' => Base m' /\ Zero m' /\
       (0 < nK -> 0 < j ->
          let mb := sn_at (odd2 n) nM (j - 1) in
          let k := sn_at (inner_rev n mb) nK (nK - 1) in Bb n k m' /\ Ab mb k m') /\
       (0 < nK -> 0 < nM -> j = 0 -> 0 < n ->
          let mb := sn_at (odd2 (n - 1)) nM (nM - 1) in
          Ab mb (sn_at (inner_rev (n - 1) mb) nK (nK - 1)) m'))); auto.
  - split; [auto|split; [auto|split; intros; lia]].
  - intros n j Dn m1 Hn Hj (HB1 & HZ1 & HPrev & HTurn) HD1.
    pose proof (sn_at_in (odd2 n) nM j Hj) as Hmb. set (mb := sn_at (odd2 n) nM j) in *.
    cbv zeta. apply pok_bind. unfold pfor_ne_.
    set (rev := inner_rev n mb).
    eapply (pok_pfor_ne (fun j2 _ m2 => Base m2 /\ Acc n mb j2 m2 /\ cdone S m2 M N val Dn /\
       (0 < j2 -> let k := sn_at rev nK (j2 - 1) in Bb n k m2 /\ Ab mb k m2) /\
       (j2 = 0 -> m2 = m1)) _ _ _ _ nK).
    + apply snake_inc.
    + lia.
    + apply snake_end.
    + split; [auto|split; [apply HAcc0; auto|split; [auto|split; [intros; lia|auto]]]].
    + intros j2 _ m2 Hj2 (HB2 & HA2 & HD2 & _ & H02). fold (sn_at rev nK j2).
      pose proof (sn_at_in rev nK j2 Hj2) as Hk.
      eapply pok_mono; [apply (Hstep n mb j2 _ _ m2 Hn Hmb Hj2 HB2 HA2 Hk)|].
      * intros E. apply andb_true_iff in E. destruct E as (E1 & E2).
        apply Z.eqb_eq in E1. apply negb_true_iff, Z.eqb_neq in E2.
        fold rev. rewrite <- sn_at_0 in E1. rewrite E1. apply sn_at_inj in E1. rewrite (H02 E1).
        assert (Hj0 : 0 < j).
        { destruct (Z.eq_dec j 0) as [->|]; [|lia]. exfalso. apply E2. unfold mb. apply sn_at_0. }
        destruct (HPrev ltac:(lia) Hj0) as (HBb & _). cbv zeta in HBb.
        rewrite sn_at_turn in HBb. unfold rev.
        rewrite (inner_rev_m n (sn_at (odd2 n) nM (j - 1)) mb); [auto|].
        unfold mb. replace j with (j - 1 + 1) at 1 by lia. apply sn_at_next; lia.
      * intros E. apply andb_true_iff in E. destruct E as (E & E3). apply andb_true_iff in E. destruct E as (E1 & E2).
        apply Z.eqb_eq in E1. apply Z.eqb_eq in E2. apply negb_true_iff, Z.eqb_neq in E3.
        fold rev. rewrite <- sn_at_0 in E1. rewrite E1. apply sn_at_inj in E1. rewrite (H02 E1).
        rewrite <- sn_at_0 in E2. unfold mb in E2. apply sn_at_inj in E2.
        specialize (HTurn ltac:(lia) ltac:(lia) E2 ltac:(lia)). cbv zeta in HTurn.
        rewrite !sn_at_turn in HTurn.
        assert (En : odd2 n = negb (odd2 (n - 1))).
        { replace n with (n - 1 + 1) at 1 by lia. apply odd2_succ. lia. }
        rewrite <- En in HTurn. unfold rev, mb. rewrite E2.
        replace (inner_rev n) with (inner_rev (n - 1 + 1)) by (f_equal; lia).
        rewrite inner_rev_n by lia. exact HTurn.
      * cbn. intros _ m3 (HB3 & HA3 & HBb3 & HAb3 & HC3).
        split; [auto|split; [auto|split; [|split]]].
        -- intros r c Hr Hc Hd. rewrite HC3. auto.
        -- intros _. replace (j2 + 1 - 1) with j2 by lia. auto.
        -- lia.
    + cbn. intros _ m2 (HB2 & HA2 & HD2 & Hlast & _).
      eapply pok_mono; [apply (Hfin n mb Dn m2 Hn Hmb HB2 HA2 HD2)|].
      cbn. intros _ m3 (HB3 & HZ3 & HD3 & HBb3 & HAb3). split; [|auto].
      split; [auto|split; [auto|split]].
      * intros HK1 _. replace (j + 1 - 1) with j by lia. fold mb. fold rev.
        destruct (Hlast HK1) as (H1 & H2). pose proof (sn_at_in rev nK (nK - 1) ltac:(lia)).
        split; [apply HBb3|apply HAb3]; auto.
      * lia.
  - intros n m' Hn (HB & HZ & HPrev & _). split; [auto|split; [auto|split; [lia|]]].
    intros HK1 HM1 _ _. replace (n + 1 - 1) with n by lia. apply (HPrev HK1 HM1).
  - intros m' (HB & _) HD. auto.
Qed.

End Reuse.
