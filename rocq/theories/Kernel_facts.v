(** * Facts about the microkernel. *)

From Coq Require Import ZArith List Bool Lia.
From Verif Require Import Lang Lang_facts Spec ModelSizing ModelKernel.
Import ListNotations.
Open Scope Z_scope.

Definition region := buf -> Z -> Prop.
Definition rng (b : buf) (lo hi : Z) : region := fun b' i => b' = b /\ lo <= i < hi.
Definition rnone : region := fun _ _ => False.

Lemma twp_call {V R} (W Rd W' Rd' : region) (t : thr V R) (Q Q' : R -> mem V -> Prop) m :
  twp W' Rd' t Q m ->
  (forall b i, W' b i -> W b i) -> (forall b i, Rd' b i -> Rd b i \/ W b i) ->
  (forall r m', Q r m' -> live m' = live m ->
     (forall b i, ~ W' b i -> dat m' b i = dat m b i) -> Q' r m') ->
  twp W Rd t Q' m.
Proof.
  intros H HW HR HQ. eapply twp_weaken; [|exact HW|exact HR]. eapply twp_conseq; eauto.
Qed.

Lemma zseq_snoc n i step :
  zseq (Datatypes.S n) i step = zseq n i step ++ [i + Z.of_nat n * step].
Proof.
  revert i; induction n as [|n IH]; intros i.
  - cbn. now rewrite Z.add_0_r.
  - change (zseq (Datatypes.S (Datatypes.S n)) i step) with (i :: zseq (Datatypes.S n) (i + step) step).
    rewrite IH. cbn [zseq app].
    now replace (i + step + Z.of_nat n * step) with (i + Z.of_nat (Datatypes.S n) * step) by lia.
Qed.

Lemma zseq_app n1 n2 i step :
  zseq (n1 + n2) i step = zseq n1 i step ++ zseq n2 (i + Z.of_nat n1 * step) step.
Proof.
  revert i; induction n1 as [|n IH]; intros i.
  - cbn [zseq plus app]. now rewrite Z.add_0_r.
  - cbn [zseq plus app]. rewrite IH.
    now replace (i + step + Z.of_nat n * step) with (i + Z.of_nat (Datatypes.S n) * step) by lia.
Qed.

Lemma zrange_0 lo n : n <= 0 -> zrange lo n = [].
Proof. intros. unfold zrange. replace (Z.to_nat n) with 0%nat by lia. easy. Qed.

Lemma zrange_snoc lo n : 0 <= n -> zrange lo (n + 1) = zrange lo n ++ [lo + n].
Proof.
  intros. unfold zrange. replace (Z.to_nat (n + 1)) with (Datatypes.S (Z.to_nat n)) by lia.
  rewrite zseq_snoc. now replace (lo + Z.of_nat (Z.to_nat n) * 1) with (lo + n) by lia.
Qed.

Lemma zrange_app lo n1 n2 : 0 <= n1 -> 0 <= n2 ->
  zrange lo (n1 + n2) = zrange lo n1 ++ zrange (lo + n1) n2.
Proof.
  intros. unfold zrange. rewrite Z2Nat.inj_add by lia. rewrite zseq_app.
  now replace (lo + Z.of_nat (Z.to_nat n1) * 1) with (lo + n1) by lia.
Qed.

Lemma in_zseq n i x : In x (zseq n i 1) <-> i <= x < i + Z.of_nat n.
Proof.
  revert i; induction n as [|n IH]; intros i; cbn [zseq In]; [lia|]. rewrite IH. lia.
Qed.

Lemma in_zrange lo n x : In x (zrange lo n) <-> lo <= x < lo + n /\ 0 <= n.
Proof. unfold zrange. rewrite in_zseq. lia. Qed.

Lemma mod0_add l a b : 0 < l -> a mod l = 0 -> b mod l = 0 -> (a + b) mod l = 0.
Proof. intros H Ha Hb. rewrite Z.add_mod, Ha, Hb by lia. apply Z.mod_0_l. lia. Qed.

Lemma mod0_mul l a b : 0 < l -> b mod l = 0 -> (a * b) mod l = 0.
Proof. intros H Hb. rewrite Z.mul_mod, Hb, Z.mul_0_r by lia. apply Z.mod_0_l. lia. Qed.

Section K.

Variable S : scalar.
Notation T := (elt S).

Lemma dot_app (a b : Z -> S) ks1 ks2 acc : dot S a b (ks1 ++ ks2) acc = dot S a b ks2 (dot S a b ks1 acc).
Proof. apply fold_left_app. Qed.

Lemma dot_ext (a b a' b' : Z -> S) ks acc :
  (forall k, In k ks -> a k = a' k /\ b k = b' k) -> dot S a b ks acc = dot S a' b' ks acc.
Proof.
  revert acc; induction ks as [|k ks IH]; intros acc H; cbn; auto.
  destruct (H k) as (-> & ->); [now left|]. apply IH. intros. apply H. now right.
Qed.

Lemma dot_shift (a b : Z -> S) lo n acc :
  dot S (fun k => a (lo + k)) (fun k => b (lo + k)) (zrange 0 n) acc = dot S a b (zrange lo n) acc.
Proof.
  unfold zrange. generalize (Z.to_nat n) as j. clear n. intros j.
  assert (G : forall s acc, dot S (fun k => a (lo + k)) (fun k => b (lo + k)) (zseq j s 1) acc
                            = dot S a b (zseq j (lo + s) 1) acc).
  { unfold dot. induction j as [|j IH]; intros s acc'; cbn [zseq fold_left]; auto.
    rewrite IH. now replace (lo + (s + 1)) with (lo + s + 1) by lia. }
  rewrite G. now rewrite Z.add_0_r.
Qed.

Lemma load_vec_spec (W Rd : region) al (p : ptr) n (v : Z -> T) bi m :
  0 <= n -> 0 < al ->
  live m (fst p) = Some bi -> 0 <= snd p -> snd p + n <= blen bi ->
  (al = 1 \/ b64 bi = true /\ snd p mod al = 0) ->
  (forall j, 0 <= j < n -> (Rd (fst p) (snd p + j) \/ W (fst p) (snd p + j)) /\
                           dat m (fst p) (snd p + j) = Some (v j)) ->
  twp W Rd (load_vec S al p n) (fun f m' => m' = m /\ forall j, 0 <= j < n -> f j = v j) m.
Proof.
  intros Hn Hal HL H0 H1 HA Hv. unfold load_vec.
  eapply (twp_tfor1 W Rd (fun i f m' => m' = m /\ forall j, 0 <= j < i -> f j = v j)); auto.
  - split; auto. intros; lia.
  - intros i f m' Hi (-> & Hf) _ _. apply twp_bind.
    destruct (Hv i Hi) as (Hr & Hd).
    eapply twp_load_al; eauto; [lia| |].
    + unfold aligned. destruct (Z.eqb_spec (Z.rem i al) 0) as [E|E]; [|reflexivity].
      destruct HA as [->|(-> & HA)]; [reflexivity|]. cbn [andb].
      rewrite Z.rem_mod_nonneg in E by lia. rewrite Z.add_mod, HA, E by lia.
      rewrite Z.mod_0_l by lia. cbn. now rewrite orb_true_r.
    + apply twp_ret. split; auto. intros j Hj.
      destruct (Z.eqb_spec j i); subst; auto. apply Hf. lia.
Qed.

Lemma store_vec_spec (p : ptr) n (c : Z -> T) bi m :
  0 <= n -> live m (fst p) = Some bi -> 0 <= snd p -> snd p + n <= blen bi ->
  twp (rng (fst p) (snd p) (snd p + n)) rnone (store_vec S p n c)
      (fun _ m' => forall j, 0 <= j < n -> dat m' (fst p) (snd p + j) = Some (c j)) m.
Proof.
  intros Hn HL H0 H1. unfold store_vec, tfor_.
  eapply (twp_tfor1 _ _ (fun i _ m' => forall j, 0 <= j < i -> dat m' (fst p) (snd p + j) = Some (c j))); auto.
  - intros; lia.
  - intros i _ m' Hi HI Hl _.
    eapply twp_store; [split; [reflexivity|lia]|rewrite Hl; eauto|lia|].
    intros j Hj. destruct (Z.eq_dec j i) as [->|].
    + apply dat_upd_same.
    + rewrite dat_upd_other by lia. apply HI. lia.
Qed.

Lemma idx_split knr i j i' j' :
  0 <= j < knr -> 0 <= j' < knr -> i * knr + j = i' * knr + j' -> i = i' /\ j = j'.
Proof. intros. assert (i = i') by nia. subst. lia. Qed.

(** One k step: every accumulator gets its product. *)
Lemma inner_spec (Rd : region) ar kmr knr n (ab bb : buf) (ao bo : Z) (c : Z -> T)
      (va vb : Z -> T) ba bi m :
  0 < kmr -> 0 < knr -> 0 < lanes ar ->
  live m ab = Some ba -> 0 <= ao -> ao + kmr <= blen ba ->
  live m bb = Some bi -> 0 <= bo -> bo + knr <= blen bi ->
  (lanes ar = 1 \/ b64 bi = true /\ bo mod lanes ar = 0) ->
  (forall i, 0 <= i < kmr -> Rd ab (ao + i) /\ dat m ab (ao + i) = Some (va i)) ->
  (forall j, 0 <= j < knr -> Rd bb (bo + j) /\ dat m bb (bo + j) = Some (vb j)) ->
  twp rnone Rd (inner S ar kmr knr n ((ab, ao), (bb, bo), c))
    (fun st m' => m' = m /\ fst (fst st) = (ab, ao + kmr) /\ snd (fst st) = (bb, bo + n) /\
       forall i j, 0 <= i < kmr -> 0 <= j < knr ->
         snd st (i * knr + j) = fma S (va i) (vb j) (c (i * knr + j))) m.
Proof.
  intros Hkm Hkn Hln La Ha0 Ha1 Lb Hb0 Hb1 Hal HA HB. unfold inner. apply twp_bind.
  eapply twp_mono.
  { eapply (load_vec_spec rnone Rd (lanes ar) (bb, bo) knr vb bi m); cbn; auto; try lia.
    intros j Hj. destruct (HB j Hj). auto. }
  cbn. intros b m' (-> & Hb). apply twp_bind.
  eapply (twp_tfor1 rnone Rd (fun i ac m' => m' = m /\ fst ac = (ab, ao + i) /\
     forall i' j, 0 <= i' < kmr -> 0 <= j < knr ->
       snd ac (i' * knr + j) = if i' <? i then fma S (va i') (vb j) (c (i' * knr + j))
                               else c (i' * knr + j))); [lia| | |].
  - split; [auto|split]; cbn. + f_equal; lia. + intros. now replace (i' <? 0) with false by lia.
  - intros i [pa ca] m' Hi (-> & Hp & Hc) _ _. cbn in Hp. subst pa. apply twp_bind. cbn [fst snd].
    destruct (HA i Hi) as (Hr & Hd).
    eapply twp_load; eauto; [lia|]. apply twp_ret. split; [auto|split]; cbn.
    + unfold padd; cbn. f_equal; lia.
    + intros i' j Hi' Hj. cbn in Hc. specialize (Hc i' j Hi' Hj).
      destruct (Z.eq_dec i' i) as [->|Hne].
      * replace (i * knr <=? i * knr + j) with true by lia.
        replace (i * knr + j <? (i + 1) * knr) with true by lia. cbn.
        rewrite Hc. replace (i <? i) with false by lia. replace (i <? i + 1) with true by lia.
        f_equal. rewrite <- Hb by lia. f_equal. lia.
      * replace ((i * knr <=? i' * knr + j) && (i' * knr + j <? (i + 1) * knr)) with false.
        2:{ symmetry. apply andb_false_iff. destruct (Z_lt_le_dec i' i).
            - left. apply Z.leb_gt. nia.
            - right. apply Z.ltb_ge. nia. }
        rewrite Hc. destruct (Z.ltb_spec i' i), (Z.ltb_spec i' (i + 1)); auto; lia.
  - intros [pa ca] m' (-> & Hp & Hc) _ _. cbn in *. subst pa. split; [auto|split; [auto|split]].
    + reflexivity.
    + intros i j Hi Hj. rewrite Hc by auto. now replace (i <? kmr) with true by lia.
Qed.

(** The microkernel: [kmr] x [knr] tile of C gets k more terms of each dot product. *)
Lemma ukernel_spec ar kmr knr (ab bb cb : buf) (ao bo co mm k : Z)
      (fa fb fc : Z -> Z -> T) ba bi bc m :
  0 < kmr -> 0 < knr -> 0 <= k -> 0 < lanes ar -> knr mod lanes ar = 0 ->
  live m ab = Some ba -> 0 <= ao -> ao + k * kmr <= blen ba ->
  live m bb = Some bi -> 0 <= bo -> bo + k * knr <= blen bi ->
  (lanes ar = 1 \/ b64 bi = true /\ bo mod lanes ar = 0) ->
  live m cb = Some bc -> 0 <= co -> co + kmr * knr <= blen bc ->
  (forall i kk, 0 <= i < kmr -> 0 <= kk < k -> dat m ab (ao + kk * kmr + i) = Some (fa i kk)) ->
  (forall kk j, 0 <= kk < k -> 0 <= j < knr -> dat m bb (bo + kk * knr + j) = Some (fb kk j)) ->
  (forall i j, 0 <= i < kmr -> 0 <= j < knr -> dat m cb (co + i * knr + j) = Some (fc i j)) ->
  twp (rng cb co (co + kmr * knr))
      (fun b i => rng ab ao (ao + k * kmr) b i \/ rng bb bo (bo + k * knr) b i)
      (ukernel S ar kmr knr (ab, ao) (bb, bo) (cb, co) mm knr k)
      (fun _ m' => forall i j, 0 <= i < kmr -> 0 <= j < knr ->
         dat m' cb (co + i * knr + j) =
         Some (dot S (fa i) (fun kk => fb kk j) (zrange 0 k) (fc i j))) m.
Proof.
  intros Hkm Hkn Hk Hln Hlk La Ha0 Ha1 Lb Hb0 Hb1 Hal Lc Hc0 Hc1 HA HB HC.
  set (Rd := fun b i => rng ab ao (ao + k * kmr) b i \/ rng bb bo (bo + k * knr) b i).
  unfold ukernel. apply twp_bind.
  (* the invariant after kk steps *)
  set (Inv := fun (kk : Z) (st : ptr * ptr * (Z -> T)) (m' : mem T) =>
     m' = m /\ fst (fst st) = (ab, ao + kk * kmr) /\ snd (fst st) = (bb, bo + kk * knr) /\
     forall i j, 0 <= i < kmr -> 0 <= j < knr ->
       snd st (i * knr + j) = dot S (fa i) (fun kk => fb kk j) (zrange 0 kk) (fc i j)).
  assert (Step : forall W kk st, 0 <= kk < k -> Inv kk st m ->
            twp W Rd (inner S ar kmr knr knr st) (Inv (kk + 1)) m).
  { intros W kk [[pa pb] c] Hkk (_ & Hpa & Hpb & Hc). cbn in Hpa, Hpb, Hc. subst pa pb.
    eapply twp_mono with (Q := fun st m' => m' = m /\ fst (fst st) = (ab, ao + kk * kmr + kmr) /\
       snd (fst st) = (bb, bo + kk * knr + knr) /\
       forall i j, 0 <= i < kmr -> 0 <= j < knr ->
         snd st (i * knr + j) = fma S (fa i kk) (fb kk j) (c (i * knr + j))).
    2:{ cbn. intros [[pa pb] c'] m' (-> & Hpa & Hpb & Hc'). cbn in *. subst pa pb.
        split; [auto|cbn]. split; [f_equal; lia|split; [f_equal; lia|]].
        intros i j Hi Hj. rewrite Hc', Hc, zrange_snoc, dot_app by lia. reflexivity. }
    eapply twp_weaken; [eapply (inner_spec Rd); eauto; try nia|intros ? ? []|auto].
    - destruct Hal as [->|(Hb6 & Hbm)]; [auto|right; split; auto].
      apply mod0_add; auto. apply mod0_mul; auto.
    - intros i Hi. split; [left; split; [reflexivity|nia]|]. apply HA; lia.
    - intros j Hj. split; [right; split; [reflexivity|nia]|]. apply HB; lia. }
  eapply twp_mono.
  { eapply (load_vec_spec _ Rd 1 (cb, co) (kmr * knr) (fun e => fc (e / knr) (e mod knr)) bc m);
      cbn; auto; try nia.
    intros j Hj. split; [right; split; [reflexivity|lia]|].
    replace (co + j) with (co + (j / knr) * knr + j mod knr) by (rewrite (Z.div_mod j knr) at 3; lia).
    pose proof (Z.mod_pos_bound j knr ltac:(lia)).
    apply HC; [|lia]. split; [apply Z.div_pos; lia|apply Z.div_lt_upper_bound; lia]. }
  cbn. intros c m' (-> & Hc).
  assert (I0 : Inv 0 ((ab, ao), (bb, bo), c) m).
  { split; [auto|cbn]. split; [f_equal; lia|split; [f_equal; lia|]].
    intros i j Hi Hj. rewrite Hc by nia. cbn.
    replace ((i * knr + j) / knr) with i by (apply (Z.div_unique _ _ _ j); lia).
    replace ((i * knr + j) mod knr) with j by (apply (Z.mod_unique _ _ i); lia). reflexivity. }
  assert (Hrem : 0 <= Z.rem k 4 < 4) by (apply Z.rem_bound_pos; lia).
  assert (Hq : k - Z.rem k 4 = 0 + Z.quot k 4 * 4).
  { pose proof (Z.quot_rem' k 4). lia. }
  assert (Hq0 : 0 <= Z.quot k 4) by (apply Z.quot_pos; lia).
  apply twp_bind.
  eapply (twp_tfor _ Rd (fun cnt => Inv (cnt * 4)) _ 0 (k - Z.rem k 4) 4 (Z.quot k 4)); auto; [lia| |].
  - intros cnt st m' Hcnt HI _ _. pose proof HI as (-> & _).
    apply twp_bind. eapply twp_mono; [eapply Step; [|exact HI]; lia|].
    intros st1 m1 H1. pose proof H1 as (-> & _).
    apply twp_bind. eapply twp_mono; [eapply Step; [|exact H1]; lia|].
    intros st2 m2 H2. pose proof H2 as (-> & _).
    apply twp_bind. eapply twp_mono; [eapply Step; [|exact H2]; lia|].
    intros st3 m3 H3. pose proof H3 as (-> & _).
    eapply twp_mono; [eapply Step; [|exact H3]; lia|].
    intros st4 m4 H4. replace ((cnt + 1) * 4) with (cnt * 4 + 1 + 1 + 1 + 1) by lia. exact H4.
  - intros st m' HI _ _. pose proof HI as (-> & _). apply twp_bind.
    eapply (twp_tfor1 _ Rd (fun i => Inv (Z.quot k 4 * 4 + i))); [lia| | |].
    + now rewrite Z.add_0_r.
    + intros i st' m' Hi HI' _ _. pose proof HI' as (-> & _).
      eapply twp_mono; [eapply Step; [|exact HI']; lia|].
      intros st1 m1 H1. rewrite Z.add_assoc. exact H1.
    + intros st' m' HI' _ _. pose proof HI' as (-> & _ & _ & Hfin).
      replace (Z.quot k 4 * 4 + Z.rem k 4) with k in Hfin by lia.
      eapply twp_call.
      * eapply (store_vec_spec (cb, co) (kmr * knr) (snd st') bc m); cbn; auto; nia.
      * cbn. auto.
      * intros ? ? [].
      * cbn. intros _ m' Hst _ _ i j Hi Hj.
        rewrite <- Z.add_assoc. rewrite Hst by nia. now rewrite Hfin.
Qed.

End K.
