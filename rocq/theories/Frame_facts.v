(** * What every public multiplication function does around its schedule: allocate,
      pack, run, free. *)

From Coq Require Import ZArith List Bool Lia.
From Verif Require Import Lang Lang_facts Spec ModelSizing ModelKernel ModelPack ModelSched ModelTop
     Kernel_facts Loop_facts Cphase_facts.
Import ListNotations.
Open Scope Z_scope.

Section Frame.

Variable S : scalar.
Notation T := (elt S).

Lemma live_alloc (m : mem T) b n al init b' :
  live (do_alloc m b n al init) b' = if buf_eqb b b' then Some (BInfo n al) else live m b'.
Proof. reflexivity. Qed.
Lemma dat_alloc (m : mem T) b n al init b' i :
  dat (do_alloc m b n al init) b' i = if buf_eqb b b' then init else dat m b' i.
Proof. reflexivity. Qed.
Lemma live_free (m : mem T) b b' :
  live (do_free m b) b' = if buf_eqb b b' then None else live m b'.
Proof. reflexivity. Qed.
Lemma dat_free (m : mem T) b b' i :
  dat (do_free m b) b' i = if buf_eqb b b' then None else dat m b' i.
Proof. reflexivity. Qed.

(** Buffers [mk 0 .. mk (p-1)] *)
Lemma alloc_fam (mk : Z -> buf) p n al init m (Post : unit -> mem T -> Prop) :
  (forall i j, mk i = mk j -> i = j) -> 0 <= p -> 0 <= n ->
  (forall k, 0 <= k < p -> live m (mk k) = None) ->
  (forall m', (forall k, 0 <= k < p -> live m' (mk k) = Some (BInfo n al)) ->
     (forall k i, 0 <= k < p -> dat m' (mk k) i = init) ->
     (forall b, (forall k, 0 <= k < p -> b <> mk k) -> live m' b = live m b) ->
     (forall b i, (forall k, 0 <= k < p -> b <> mk k) -> dat m' b i = dat m b i) -> Post tt m') ->
  pok (pfor_ 0 p 1 (fun i => palloc (mk i) n al init)) m Post.
Proof.
  intros Hinj Hp Hn Hf HPost. unfold pfor_.
  eapply (pok_pfor1 (fun j _ m' =>
     (forall k, 0 <= k < j -> live m' (mk k) = Some (BInfo n al)) /\
     (forall k i, 0 <= k < j -> dat m' (mk k) i = init) /\
     (forall b, (forall k, 0 <= k < j -> b <> mk k) -> live m' b = live m b) /\
     (forall b i, (forall k, 0 <= k < j -> b <> mk k) -> dat m' b i = dat m b i))); [lia| | |].
  - repeat split; intros; lia || auto.
  - intros j _ m' Hj (H1 & H2 & H3 & H4).
    apply pok_alloc; [lia| |].
    + rewrite H3; [apply Hf; lia|]. intros k Hk E. apply Hinj in E. lia.
    + repeat split.
      * intros k Hk. rewrite live_alloc. destruct (buf_eqb_spec (mk j) (mk k)) as [E|E]; auto.
        apply H1. assert (k <> j) by congruence. lia.
      * intros k i Hk. rewrite dat_alloc. destruct (buf_eqb_spec (mk j) (mk k)) as [E|E]; auto.
        apply H2. assert (k <> j) by congruence. lia.
      * intros b Hb. rewrite live_alloc. destruct (buf_eqb_spec (mk j) b) as [E|E].
        -- exfalso. apply (Hb j); [lia|auto].
        -- apply H3. intros k Hk. apply Hb. lia.
      * intros b i Hb. rewrite dat_alloc. destruct (buf_eqb_spec (mk j) b) as [E|E].
        -- exfalso. apply (Hb j); [lia|auto].
        -- apply H4. intros k Hk. apply Hb. lia.
  - intros [] m' (H1 & H2 & H3 & H4). apply HPost; auto.
Qed.

Lemma free_fam (mk : Z -> buf) p m (Post : unit -> mem T -> Prop) :
  (forall i j, mk i = mk j -> i = j) -> 0 <= p ->
  (forall k, 0 <= k < p -> live m (mk k) <> None) ->
  (forall m', (forall k, 0 <= k < p -> live m' (mk k) = None) ->
     (forall b, (forall k, 0 <= k < p -> b <> mk k) -> live m' b = live m b) ->
     (forall b i, (forall k, 0 <= k < p -> b <> mk k) -> dat m' b i = dat m b i) -> Post tt m') ->
  pok (pfor_ 0 p 1 (fun i => pfree (mk i))) m Post.
Proof.
  intros Hinj Hp Hf HPost. unfold pfor_.
  eapply (pok_pfor1 (fun j _ m' =>
     (forall k, 0 <= k < j -> live m' (mk k) = None) /\
     (forall b, (forall k, 0 <= k < j -> b <> mk k) -> live m' b = live m b) /\
     (forall b i, (forall k, 0 <= k < j -> b <> mk k) -> dat m' b i = dat m b i))); [lia| | |].
  - repeat split; intros; lia || auto.
  - intros j _ m' Hj (H1 & H3 & H4).
    apply pok_free.
    + rewrite H3; [apply Hf; lia|]. intros k Hk E. apply Hinj in E. lia.
    + repeat split.
      * intros k Hk. rewrite live_free. destruct (buf_eqb_spec (mk j) (mk k)) as [E|E]; auto.
        apply H1. assert (k <> j) by congruence. lia.
      * intros b Hb. rewrite live_free. destruct (buf_eqb_spec (mk j) b) as [E|E].
        -- exfalso. apply (Hb j); [lia|auto].
        -- apply H3. intros k Hk. apply Hb. lia.
      * intros b i Hb. rewrite dat_free. destruct (buf_eqb_spec (mk j) b) as [E|E].
        -- exfalso. apply (Hb j); [lia|auto].
        -- apply H4. intros k Hk. apply Hb. lia.
  - intros [] m' (H1 & H3 & H4). apply HPost; auto.
Qed.

Lemma pok_lift {A} (a : A) c m (Q : A -> mem T -> Prop) : c = CRet a -> Q a m -> pok (lift S c) m Q.
Proof. intros -> H. now apply pok_ret. Qed.

(** Objects a call of cake_sgemm with [p] cores may allocate *)
Definition used (p : Z) (b : buf) : Prop :=
  b = BufX 0 \/ b = BufAp 0 \/ b = BufBp \/ exists k, 0 <= k < p /\ b = BufCp k.

(** The part of a run visible to the caller: the same objects are live, and nothing
    changed but elements 0..M*N-1 of C. *)
Definition only_C (M N : Z) (m m' : mem T) : Prop :=
  (forall b, live m' b = live m b) /\
  (forall b i, live m b <> None -> ~ (b = BufC /\ 0 <= i < M * N) -> dat m' b i = dat m b i).

(** The body of cake_sgemm after the block sizes are known. *)
Definition sgemm_rest (pa pb : bool) (szA szB : comp Z) (packa packb : prog T unit)
           (mid : ptr -> ptr -> prog T unit) (c : cntx) : prog T cntx :=
  (let* A_p := (if pa then PRet (BufA, 0)
     else let* sz := lift S szA in
          palloc (BufAp 0) sz true None ;;; packa ;;; PRet (BufAp 0, 0)) in
   let* B_p := (if pb then PRet (BufB, 0)
     else let* sz := lift S szB in
          palloc BufBp sz true None ;;; packb ;;; PRet (BufBp, 0)) in
   mid A_p B_p ;;;
   (if pa then PRet tt else pfree (BufAp 0)) ;;;
   (if pb then PRet tt else pfree BufBp) ;;;
   pfree xbuf ;;;
   PRet c)%prog.

Definition dat_local (b : buf) (P : mem T -> Prop) : Prop :=
  forall m m', (forall i, dat m' b i = dat m b i) -> P m -> P m'.

Lemma sgemm_rest_spec pa pb szA szB nA nB LA LB packa packb mid c M N p
      (PA PB : buf -> mem T -> Prop) (okA okB : mem T -> Prop) (R : mem T -> Prop) (R0 : mem T -> Prop) m0 :
  szA = CRet nA -> szB = CRet nB -> 0 <= nA -> 0 <= nB ->
  (forall b, dat_local b (PA b)) -> (forall b, dat_local b (PB b)) ->
  dat_local BufA okA -> dat_local BufB okB -> dat_local BufC R -> dat_local BufC R0 ->
  (* packing *)
  (pa = false -> forall m ba, live m BufA = Some ba -> LA <= blen ba -> okA m ->
     live m (BufAp 0) = Some (BInfo nA true) ->
     pok packa m (fun _ m' => live m' = live m /\ same_out (rng (BufAp 0) 0 nA) m m' /\ PA (BufAp 0) m')) ->
  (pb = false -> forall m bb, live m BufB = Some bb -> LB <= blen bb -> okB m ->
     live m BufBp = Some (BInfo nB true) ->
     pok packb m (fun _ m' => live m' = live m /\ same_out (rng BufBp 0 nB) m m' /\ PB BufBp m')) ->
  (* the multiplication *)
  (forall ab bb ba bi m, (ab = BufA \/ ab = BufAp 0) -> (bb = BufB \/ bb = BufBp) ->
     live m ab = Some ba -> nA <= blen ba -> PA ab m ->
     live m bb = Some bi -> nB <= blen bi -> b64 bi = true -> PB bb m ->
     (exists bc, live m BufC = Some bc /\ M * N <= blen bc) ->
     (forall k, 0 <= k < p -> live m (BufCp k) = None) -> R0 m ->
     pok (mid (ab, 0) (bb, 0)) m (fun _ m' => (forall b, live m' b = live m b) /\
        (forall b i, (forall k, 0 <= k < p -> b <> BufCp k) -> ~ (b = BufC /\ 0 <= i < M * N) ->
            dat m' b i = dat m b i) /\ R m')) ->
  (* the caller's memory *)
  (exists ba, live m0 BufA = Some ba /\ if pa then nA <= blen ba /\ PA BufA m0 else LA <= blen ba /\ okA m0) ->
  (exists bb, live m0 BufB = Some bb /\
      if pb then nB <= blen bb /\ b64 bb = true /\ PB BufB m0 else LB <= blen bb /\ okB m0) ->
  (exists bc, live m0 BufC = Some bc /\ M * N <= blen bc) ->
  (forall b, used p b -> b <> BufX 0 -> live m0 b = None) -> live m0 (BufX 0) <> None -> R0 m0 ->
  pok (sgemm_rest pa pb szA szB packa packb mid c) m0
      (fun r m' => r = c /\ R m' /\ (forall b, live m' b = if buf_eqb (BufX 0) b then None else live m0 b) /\
         (forall b i, ~ used p b -> ~ (b = BufC /\ 0 <= i < M * N) -> dat m' b i = dat m0 b i)).
Proof.
  intros EA EB HnA HnB LPA LPB LokA LokB LR LR0 Hpa Hpb Hmid (ba & HLa & HA) (bb & HLb & HB) HC Hfr HX HR0.
  assert (FAp : live m0 (BufAp 0) = None) by (apply Hfr; [right; left; auto|discriminate]).
  assert (FBp : live m0 BufBp = None) by (apply Hfr; [right; right; left; auto|discriminate]).
  assert (FCp : forall k, 0 <= k < p -> live m0 (BufCp k) = None).
  { intros k Hk. apply Hfr; [right; right; right; eauto|discriminate]. }
  unfold sgemm_rest. apply pok_bind.
  set (abuf := if pa then BufA else BufAp 0).
  assert (SA : pok (if pa then PRet (BufA, 0)
     else (let* sz := lift S szA in
          palloc (BufAp 0) sz true None ;;; packa ;;; PRet (BufAp 0, 0))%prog) m0
     (fun r m => r = (abuf, 0) /\ PA abuf m /\
        (exists bi, live m abuf = Some bi /\ nA <= blen bi) /\
        (forall b, b <> BufAp 0 -> live m b = live m0 b) /\
        live m (BufAp 0) = (if pa then None else Some (BInfo nA true)) /\
        (forall b i, b <> BufAp 0 -> dat m b i = dat m0 b i))).
  { destruct pa.
    - apply pok_ret. destruct HA as (HA1 & HA2). repeat split; auto. exists ba. auto.
    - apply pok_bind. apply (pok_lift nA); [auto|]. apply pok_bind. apply pok_alloc; [lia|auto|].
      apply pok_bind. destruct HA as (HA1 & HA2).
      eapply pok_mono.
      + apply (Hpa eq_refl _ ba); auto.
        eapply LokA; [|exact HA2]. intros i. rewrite dat_alloc. reflexivity.
      + cbv beta. intros _ m1 (E1 & E2 & E3). apply pok_ret. repeat split; auto.
        * unfold abuf. rewrite E1, live_alloc, buf_eqb_refl. eexists. split; [reflexivity|cbn; lia].
        * intros b Hb. rewrite E1, live_alloc, buf_eqb_neq; auto.
        * rewrite E1, live_alloc, buf_eqb_refl. auto.
        * intros b i Hb. rewrite E2, dat_alloc, buf_eqb_neq; auto. intros (E & _). auto. }
  eapply pok_mono; [exact SA|]. clear SA. cbv beta. intros r m1 (-> & A1 & (bi & A2 & A2') & A3 & A4 & A5).
  apply pok_bind. set (bbuf := if pb then BufB else BufBp).
  assert (SB : pok (if pb then PRet (BufB, 0)
     else (let* sz := lift S szB in
          palloc BufBp sz true None ;;; packb ;;; PRet (BufBp, 0))%prog) m1
     (fun r m => r = (bbuf, 0) /\ PB bbuf m /\
        (exists bi, live m bbuf = Some bi /\ nB <= blen bi /\ b64 bi = true) /\
        (forall b, b <> BufBp -> live m b = live m1 b) /\
        live m BufBp = (if pb then None else Some (BInfo nB true)) /\
        (forall b i, b <> BufBp -> dat m b i = dat m1 b i))).
  { destruct pb.
    - apply pok_ret. destruct HB as (HB1 & HB1' & HB2). repeat split; auto.
      + eapply LPB; [|exact HB2]. intros i. apply A5. discriminate.
      + exists bb. rewrite A3 by discriminate. auto.
      + rewrite A3 by discriminate. auto.
    - apply pok_bind. apply (pok_lift nB); [auto|]. apply pok_bind. apply pok_alloc; [lia|rewrite A3 by discriminate; auto|].
      apply pok_bind. destruct HB as (HB1 & HB2).
      eapply pok_mono.
      + apply (Hpb eq_refl _ bb); auto.
        * rewrite live_alloc. cbn. rewrite A3 by discriminate. auto.
        * eapply LokB; [|exact HB2]. intros i. rewrite dat_alloc. cbn. apply A5. discriminate.
      + cbv beta. intros _ m2 (E1 & E2 & E3). apply pok_ret. repeat split; auto.
        * unfold bbuf. rewrite E1, live_alloc, buf_eqb_refl. eexists. split; [reflexivity|cbn; split; [lia|auto]].
        * intros b Hb. rewrite E1, live_alloc, buf_eqb_neq; auto.
        * rewrite E1, live_alloc, buf_eqb_refl. auto.
        * intros b i Hb. rewrite E2, dat_alloc, buf_eqb_neq; auto. intros (E & _). auto. }
  eapply pok_mono; [exact SB|]. clear SB. cbv beta. intros r m2 (-> & B1 & (bi2 & B2 & B2' & B2'') & B3 & B4 & B5).
  assert (Nab : abuf <> BufBp) by (unfold abuf; destruct pa; discriminate).
  apply pok_bind. eapply pok_mono.
  { apply (Hmid abuf bbuf bi bi2 m2); auto.
    - unfold abuf. destruct pa; auto.
    - unfold bbuf. destruct pb; auto.
    - rewrite B3; auto.
    - eapply LPA; [|exact A1]. intros i. apply B5. auto.
    - destruct HC as (bc & HC1 & HC2). exists bc. rewrite B3, A3 by discriminate. auto.
    - intros k Hk. rewrite B3, A3 by discriminate. auto.
    - eapply LR0; [|exact HR0]. intros i. rewrite B5, A5 by discriminate. auto. }
  cbv beta. intros _ m3 (C1 & C2 & C3).
  apply pok_bind.
  assert (SF : pok (if pa then PRet tt else pfree (BufAp 0)) m3 (fun _ m =>
     live m (BufAp 0) = None /\ (forall b, b <> BufAp 0 -> live m b = live m3 b) /\
     (forall b i, b <> BufAp 0 -> dat m b i = dat m3 b i))).
  { destruct pa.
    - apply pok_ret. repeat split; auto. rewrite C1, B3 by discriminate. auto.
    - apply pok_free; [rewrite C1, B3 by discriminate; congruence|].
      repeat split.
      + intros b Hb. rewrite live_free, buf_eqb_neq; auto.
      + intros b i Hb. rewrite dat_free, buf_eqb_neq; auto. }
  eapply pok_mono; [exact SF|]. clear SF. cbv beta. intros _ m4 (D1 & D2 & D3).
  apply pok_bind.
  assert (SF : pok (if pb then PRet tt else pfree BufBp) m4 (fun _ m =>
     live m BufBp = None /\ (forall b, b <> BufBp -> live m b = live m4 b) /\
     (forall b i, b <> BufBp -> dat m b i = dat m4 b i))).
  { destruct pb.
    - apply pok_ret. repeat split; auto. rewrite D2, C1 by discriminate. auto.
    - apply pok_free; [rewrite D2, C1, B4 by discriminate; congruence|].
      repeat split.
      + intros b Hb. rewrite live_free, buf_eqb_neq; auto.
      + intros b i Hb. rewrite dat_free, buf_eqb_neq; auto. }
  eapply pok_mono; [exact SF|]. clear SF. cbv beta. intros _ m5 (E1 & E2 & E3).
  apply pok_bind. apply pok_free.
  { unfold xbuf. rewrite E2, D2, C1, B3, A3 by discriminate. auto. }
  apply pok_ret. split; [auto|]. split.
  { eapply LR; [|exact C3]. intros i. rewrite dat_free. cbn. rewrite E3, D3 by discriminate. auto. }
  split.
  - intros b. rewrite live_free. unfold xbuf. destruct (buf_eqb_spec (BufX 0) b) as [Eb|Eb]; [auto|].
    destruct (buf_eqb_spec b BufBp) as [->|Nb]; [congruence|]. rewrite E2 by auto.
    destruct (buf_eqb_spec b (BufAp 0)) as [->|Na]; [congruence|].
    rewrite D2, C1, B3, A3 by auto. auto.
  - intros b i Hu HnC. rewrite dat_free. unfold xbuf.
    assert (b <> BufX 0) by (intros ->; apply Hu; left; auto).
    assert (b <> BufAp 0) by (intros ->; apply Hu; right; left; auto).
    assert (b <> BufBp) by (intros ->; apply Hu; right; right; left; auto).
    rewrite buf_eqb_neq by auto. rewrite E3, D3 by auto.
    rewrite C2; [|intros k Hk ->; apply Hu; right; right; right; eauto|auto].
    rewrite B5, A5 by auto. auto.
Qed.

End Frame.
