(** * Loops of parallel loops over disjoint regions. *)

From Coq Require Import ZArith List Bool Lia.
From Verif Require Import Lang Lang_facts Spec ModelSizing ModelKernel ModelPack ModelSched
     Kernel_facts Loop_facts Sizing_facts Order_facts.
Import ListNotations.
Open Scope Z_scope.

Section Grid2.

Context {V : Type}.

(** Union of the regions of a grid *)
Definition runion (nU nV : Z) (W : Z -> Z -> region) : region :=
  fun b i => exists u v, 0 <= u < nU /\ 0 <= v < nV /\ W u v b i.

(** for u: parallel for v; each cell (u,v) writes only its own region. *)
Lemma grid2 (body : Z -> Z -> thr V unit) nU nV (W : Z -> Z -> region) (Rd : Z -> Z -> region)
      (P Q : Z -> Z -> mem V -> Prop) m (Post : unit -> mem V -> Prop) :
  0 <= nU -> 0 <= nV ->
  (forall u v u' v' b i, 0 <= u < nU -> 0 <= v < nV -> 0 <= u' < nU -> 0 <= v' < nV ->
     W u v b i -> W u' v' b i -> u = u' /\ v = v') ->
  (forall u v u' v' b i, 0 <= u < nU -> 0 <= v < nV -> 0 <= u' < nU -> 0 <= v' < nV ->
     W u v b i -> ~ Rd u' v' b i) ->
  (forall u v m1 m2, 0 <= u < nU -> 0 <= v < nV ->
     (forall b i, W u v b i \/ Rd u v b i -> dat m2 b i = dat m1 b i) -> P u v m1 -> P u v m2) ->
  (forall u v m1 m2, 0 <= u < nU -> 0 <= v < nV ->
     (forall b i, W u v b i -> dat m2 b i = dat m1 b i) -> Q u v m1 -> Q u v m2) ->
  (forall u v, 0 <= u < nU -> 0 <= v < nV -> P u v m) ->
  (forall u v m', 0 <= u < nU -> 0 <= v < nV -> live m' = live m -> P u v m' ->
     twp (W u v) (Rd u v) (body u v) (fun _ => Q u v) m') ->
  (forall m', live m' = live m -> same_out (runion nU nV W) m m' ->
     (forall u v, 0 <= u < nU -> 0 <= v < nV -> Q u v m') -> Post tt m') ->
  pok (pfor_ 0 nU 1 (fun u => ppar_for 0 nV 1 (body u))) m Post.
Proof.
  intros HU HV Hdis HRd HPst HQst HP0 Hb HPost. unfold pfor_.
  eapply (pok_pfor1 (fun u0 _ m' => live m' = live m /\ same_out (runion nU nV W) m m' /\
     (forall u v, 0 <= u < u0 -> 0 <= v < nV -> Q u v m') /\
     (forall u v, u0 <= u < nU -> 0 <= v < nV -> P u v m'))); [lia| | |].
  - split; [auto|split; [apply same_out_refl|split]]; intros; [lia|apply HP0; lia].
  - intros u0 _ m' Hu (HL & HF & HQ & HP).
    eapply (pok_par_for 0 nV 1 nV _ m' (W u0) (Rd u0) (Q u0)); try lia.
    + intros v Hv. replace (0 + v * 1) with v by lia. apply Hb; auto. apply HP; lia.
    + intros v v' b i Hv Hv' Hne Hw [Hw'|Hr].
      * destruct (Hdis u0 v u0 v' b i); auto.
      * apply (HRd u0 v u0 v' b i); auto.
    + intros m2 HL2 HT HF2. split; [congruence|]. split; [|split].
      * intros b i Hbi. rewrite HF2; [apply HF; auto|]. intros v Hv Hw. apply Hbi. exists u0, v. auto.
      * intros u v Huu Hv. destruct (Z.eq_dec u u0) as [->|Hn].
        -- destruct (HT v Hv) as (ms & HQs & _ & _ & Hag). eapply HQst; [lia|auto| |exact HQs]. auto.
        -- eapply HQst; [lia|auto| |apply HQ; [lia|auto]]. intros b i Hw. apply HF2.
           intros v' Hv' Hw'. destruct (Hdis u v u0 v' b i); auto; lia.
      * intros u v Huu Hv. eapply HPst; [lia|auto| |apply HP; [lia|auto]].
        intros b i Hw. apply HF2. intros v' Hv' Hw'. destruct Hw as [Hw|Hr].
        -- destruct (Hdis u v u0 v' b i); auto; lia.
        -- apply (HRd u0 v' u v b i); auto; lia.
  - intros [] m' (HL & HF & HQ & _). apply HPost; auto.
Qed.

(** for u: for k in snake order: parallel for v; each cell (u,v) is updated once for
    every k. *)
Lemma grid3 (body : Z -> Z -> Z -> thr V unit) nU nK nV (W : Z -> Z -> region) (Rd : region)
      (Q : Z -> Z -> Z -> mem V -> Prop) m (Post : unit -> mem V -> Prop) :
  0 <= nU -> 0 <= nK -> 0 <= nV ->
  (forall u v u' v' b i, 0 <= u < nU -> 0 <= v < nV -> 0 <= u' < nU -> 0 <= v' < nV ->
     W u v b i -> W u' v' b i -> u = u' /\ v = v') ->
  (forall u v b i, 0 <= u < nU -> 0 <= v < nV -> W u v b i -> ~ Rd b i) ->
  (forall u v j m1 m2, 0 <= u < nU -> 0 <= v < nV ->
     (forall b i, W u v b i -> dat m2 b i = dat m1 b i) -> Q u v j m1 -> Q u v j m2) ->
  (forall u v, 0 <= u < nU -> 0 <= v < nV -> Q u v 0 m) ->
  (forall u j v m', 0 <= u < nU -> 0 <= j < nK -> 0 <= v < nV -> live m' = live m ->
     same_out (runion nU nV W) m m' -> Q u v j m' ->
     twp (W u v) Rd (body u (sn_at (odd2 u) nK j) v) (fun _ => Q u v (j + 1)) m') ->
  (forall m', live m' = live m -> same_out (runion nU nV W) m m' ->
     (forall u v, 0 <= u < nU -> 0 <= v < nV -> Q u v nK m') -> Post tt m') ->
  pok (pfor_ 0 nU 1 (fun u =>
         let ks := snake (odd2 u) nK in
         pfor_ne_ (sn_start ks) (sn_end ks) (sn_inc ks) (fun k =>
           let vs := snake (inner_rev u k) nV in
           ppar_for 0 nV 1 (fun vi => body u k (sn_start vs + vi * sn_inc vs))))) m Post.
Proof.
  intros HU HK HV Hdis HRd Hst H0 Hb HPost. unfold pfor_.
  eapply (pok_pfor1 (fun u0 _ m' => live m' = live m /\ same_out (runion nU nV W) m m' /\
     (forall u v, 0 <= u < u0 -> 0 <= v < nV -> Q u v nK m') /\
     (forall u v, u0 <= u < nU -> 0 <= v < nV -> Q u v 0 m'))); [lia| | |].
  - split; [auto|split; [apply same_out_refl|split]]; intros; [lia|apply H0; lia].
  - intros u0 _ m' Hu (HL & HF & HQ & HP). cbv zeta. unfold pfor_ne_.
    eapply (pok_pfor_ne (fun j _ m2 => live m2 = live m /\ same_out (runion nU nV W) m m2 /\
       (forall u v, 0 <= u < u0 -> 0 <= v < nV -> Q u v nK m2) /\
       (forall v, 0 <= v < nV -> Q u0 v j m2) /\
       (forall u v, u0 < u < nU -> 0 <= v < nV -> Q u v 0 m2)) _ _ _ _ nK).
    + apply snake_inc.
    + lia.
    + apply snake_end.
    + repeat split; auto; intros; apply HP; lia.
    + intros j _ m2 Hj (HL2 & HF2 & HQ2 & HQ2' & HQ2''). fold (sn_at (odd2 u0) nK j).
      set (k := sn_at (odd2 u0) nK j).
      eapply (pok_par_for 0 nV 1 nV _ m2 (fun vi => W u0 (sn_at (inner_rev u0 k) nV vi)) (fun _ => Rd)
                (fun vi => Q u0 (sn_at (inner_rev u0 k) nV vi) (j + 1))); try lia.
      * intros vi Hvi. replace (0 + vi * 1) with vi by lia.
        fold (sn_at (inner_rev u0 k) nV vi). pose proof (sn_at_in (inner_rev u0 k) nV vi Hvi). apply Hb; auto.
      * intros v v' b i Hv Hv' Hne Hw [Hw'|Hr].
        -- destruct (Hdis u0 (sn_at (inner_rev u0 k) nV v) u0 (sn_at (inner_rev u0 k) nV v') b i); auto using sn_at_in.
           apply Hne. apply (sn_at_inj (inner_rev u0 k) nV); auto.
        -- apply (HRd u0 (sn_at (inner_rev u0 k) nV v) b i); auto using sn_at_in.
      * intros m3 HL3 HT HF3. split; [congruence|]. split; [|split; [|split]].
        -- intros b i Hbi. rewrite HF3; [apply HF2; auto|]. intros v Hv Hw. apply Hbi.
           exists u0, (sn_at (inner_rev u0 k) nV v). auto using sn_at_in.
        -- intros u v Huu Hv. eapply Hst; [lia|auto| |apply HQ2; auto]. intros b i Hw. apply HF3.
           intros v' Hv' Hw'. destruct (Hdis u v u0 (sn_at (inner_rev u0 k) nV v') b i); auto using sn_at_in; lia.
        -- intros v Hv. destruct (sn_at_surj (inner_rev u0 k) nV v Hv) as (vi & Hvi & <-).
           destruct (HT vi Hvi) as (ms & HQs & _ & _ & Hag). eapply Hst; [lia|auto| |exact HQs]. auto.
        -- intros u v Huu Hv. eapply Hst; [lia|auto| |apply HQ2''; auto]. intros b i Hw. apply HF3.
           intros v' Hv' Hw'. destruct (Hdis u v u0 (sn_at (inner_rev u0 k) nV v') b i); auto using sn_at_in; lia.
    + intros [] m2 (HL2 & HF2 & HQ2 & HQ2' & HQ2''). split; [auto|split; [auto|split]].
      * intros u v Huu Hv. destruct (Z.eq_dec u u0) as [->|]; [auto|]. apply HQ2; [lia|auto].
      * intros u v Huu Hv. apply HQ2''; [lia|auto].
  - intros [] m' (HL & HF & HQ & _). apply HPost; auto.
Qed.

End Grid2.
