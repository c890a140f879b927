(** * The sparse kernels. *)

From Coq Require Import ZArith List Bool Permutation Lia.
From Verif Require Import Lang Lang_facts Spec SpecTop SpecSmall ModelSizing ModelKernel ModelPack ModelSmall
     Kernel_facts Mult_facts Small_facts.
Import ListNotations.
Open Scope Z_scope.

Lemma flat_snoc {A B} (f : A -> list B) l x : flat_map f (l ++ [x]) = flat_map f l ++ f x.
Proof. rewrite flat_map_app. cbn. now rewrite app_nil_r. Qed.

Lemma firstn_snoc {A} (l : list A) n x : nth_error l n = Some x -> firstn (Datatypes.S n) l = firstn n l ++ [x].
Proof. revert n; induction l as [|y l IH]; intros [|n]; cbn; try discriminate. - now intros [= ->]. - intros H. f_equal. now apply IH. Qed.

Section Sparse.

Variable S : scalar.
Notation T := (elt S).

Variables (al kmr knr : Z) (ab bb cb : buf) (ao bo co n k : Z).
Variables (nnz k_inds loc_m : Z -> option Z) (cols : Z -> list (Z * T)) (kind : Z -> Z).
Variables (fb fc : Z -> Z -> T) (m : mem T).
Hypothesis Hal0 : 0 < al.
Hypothesis Hkm : 0 < kmr.
Hypothesis Hkn : 0 < knr.
Hypothesis Hk : 0 <= k.
Hypothesis HA : compressed m ab ao nnz k_inds loc_m kmr k cols kind.
Hypothesis HB : forall t s, 0 <= t < k -> 0 <= s < knr -> cell m bb (bo + n * kind t + s) (fb (kind t) s).
Hypothesis Hal : al = 1 \/ bo mod al = 0 /\ n mod al = 0 /\ exists bi, live m bb = Some bi /\ b64 bi = true.
Hypothesis HC : row_stored m cb co knr kmr knr fc.

Let val r s ts := sparse_dot S cols kind fb r s ts (fc r s).
Let cnt t := Z.of_nat (length (nonzeros cols t)).

Definition Sinv (t : Z) (st : Z * (Z -> T)) (m' : mem T) : Prop :=
  m' = m /\ fst st = cnt t /\
  forall r s, 0 <= r < kmr -> 0 <= s < knr -> snd st (r * knr + s) = val r s (zrange 0 t).

Lemma val_snoc r s t : 0 <= t ->
  val r s (zrange 0 (t + 1)) =
  fold_left (fun acc e => if fst e =? r then fma S (snd e) (fb (kind t) s) acc else acc) (cols t) (val r s (zrange 0 t)).
Proof. intros H. unfold val, sparse_dot. now rewrite zrange_snoc, fold_left_app by lia. Qed.

Lemma nz_snoc t : 0 <= t -> nonzeros cols (t + 1) = nonzeros cols t ++ cols t.
Proof. intros. unfold nonzeros. now rewrite zrange_snoc, flat_snoc by lia. Qed.

Lemma nz_nth t j e : 0 <= t < k -> nth_error (cols t) j = Some e ->
  nth_error (nonzeros cols k) (length (nonzeros cols t) + j) = Some e.
Proof.
  intros Ht E. unfold nonzeros at 1. replace k with (t + 1 + (k - t - 1)) by lia.
  rewrite zrange_app, flat_map_app by lia.
  change (flat_map cols (zrange 0 (t + 1))) with (nonzeros cols (t + 1)). rewrite nz_snoc by lia.
  rewrite nth_error_app1.
  - rewrite nth_error_app2 by lia. now replace (length (nonzeros cols t) + j - length (nonzeros cols t))%nat with j by lia.
  - rewrite app_length. assert (j < length (cols t))%nat by (apply nth_error_Some; congruence). lia.
Qed.

Lemma column_spec W t st : 0 <= t < k -> Sinv t st m ->
  twp W rall (sp_column S al kmr knr (ab, ao) (bb, bo) n nnz k_inds loc_m t st) (Sinv (t + 1)) m.
Proof.
  intros Ht (_ & Hq & Hv). unfold sp_column, iget.
  rewrite (cp_nnz _ _ _ _ _ _ _ _ _ _ HA t Ht), (cp_kind _ _ _ _ _ _ _ _ _ _ HA t Ht). cbn [tbind].
  apply twp_bind.
  destruct (HB t 0) as (bi & Lb & B0 & _); [lia|lia|]. destruct (HB t (knr - 1)) as (bi' & L' & B1 & _); [lia|lia|].
  rewrite Lb in L'. injection L' as <-.
  eapply twp_mono.
  { eapply (load_vec_spec S W rall al (padd (bb, bo) (n * kind t)) knr (fb (kind t)) bi m); cbn [padd fst snd]; auto; try lia.
    - destruct Hal as [->|(H1 & H2 & bi' & H3 & H4)]; [now left|right].
      rewrite Lb in H3. injection H3 as <-. split; [auto|]. apply mod0_add; auto. rewrite Z.mul_comm. apply mod0_mul; auto.
    - intros j Hj. split; [left; exact I|]. destruct (HB t j) as (? & _ & _ & E); auto. }
  cbv beta. intros b m' (-> & Hb).
  eapply (twp_tfor1 W rall (fun j st m' => m' = m /\ fst st = cnt t + j /\
     forall r s, 0 <= r < kmr -> 0 <= s < knr -> snd st (r * knr + s) =
       fold_left (fun acc e => if fst e =? r then fma S (snd e) (fb (kind t) s) acc else acc)
         (firstn (Z.to_nat j) (cols t)) (val r s (zrange 0 t)))); [lia| | |].
  - split; [auto|split; [lia|]]. intros r s Hr Hs. change (Z.to_nat 0) with O. cbn [firstn fold_left]. apply Hv; auto.
  - intros j [q c] m' Hj (-> & Hq' & Hc) _ _. cbn [fst snd] in Hq', Hc. subst q.
    destruct (nth_error (cols t) (Z.to_nat j)) as [[i v]|] eqn:E.
    2:{ apply nth_error_None in E. lia. }
    destruct (cp_nz _ _ _ _ _ _ _ _ _ _ HA _ i v (nz_nth t _ _ Ht E)) as (Eloc & ba & La & A0 & Ev).
    pose proof (cp_row _ _ _ _ _ _ _ _ _ _ HA t i v Ht (nth_error_In _ _ E)) as Hi.
    assert (Eidx : Z.of_nat (length (nonzeros cols t) + Z.to_nat j) = cnt t + j) by (unfold cnt; lia).
    rewrite Eidx in *. unfold sp_nonzero, iget. cbn [fst snd]. apply twp_bind.
    eapply twp_load; eauto; [left; exact I|]. rewrite Eloc. cbn [tbind].
    replace ((0 <=? i) && (i <? kmr)) with true by lia.
    apply twp_ret. cbn [fst snd]. split; [auto|split; [lia|]]. intros r s Hr Hs.
    replace (Z.to_nat (j + 1)) with (Datatypes.S (Z.to_nat j)) by lia.
    rewrite (firstn_snoc _ _ _ E), fold_left_app. cbn [fold_left fst snd].
    destruct (Z.eqb_spec i r) as [->|Hne].
    + replace ((r * knr <=? r * knr + s) && (r * knr + s <? (r + 1) * knr)) with true by lia.
      f_equal; [|apply Hc; auto]. rewrite <- Hb by lia. f_equal. lia.
    + replace ((i * knr <=? r * knr + s) && (r * knr + s <? (i + 1) * knr)) with false; [apply Hc; auto|].
      symmetry. apply andb_false_iff. destruct (Z_lt_le_dec r i); [left; apply Z.leb_gt; nia|right; apply Z.ltb_ge; nia].
  - intros st' m' (-> & Hq' & Hc) _ _. split; [auto|split].
    + rewrite Hq'. unfold cnt. rewrite nz_snoc, app_length by lia. lia.
    + intros r s Hr Hs. rewrite Hc by auto. rewrite Nat2Z.id, firstn_all. now rewrite val_snoc by lia.
Qed.

Lemma Sinv_skip t t' st m' : 0 <= t <= t' -> (forall u, t <= u < t' -> cols u = []) -> Sinv t st m' -> Sinv t' st m'.
Proof.
  intros Ht He (E & Hq & Hv). split; [auto|].
  replace t' with (t + (t' - t)) by lia. set (d := t' - t). assert (Hd : 0 <= d) by lia.
  assert (G : forall u, In u (zrange (0 + t) d) -> cols u = []).
  { intros u Hu. apply in_zrange in Hu. apply He. lia. }
  split.
  - rewrite Hq. unfold cnt, nonzeros. rewrite zrange_app, flat_map_app, app_length by lia.
    replace (flat_map cols (zrange (0 + t) d)) with (@nil (Z * T)); [cbn; lia|].
    clear - G. induction (zrange (0 + t) d) as [|u l IH]; cbn; auto. rewrite (G u) by now left. cbn. apply IH. intros; apply G; now right.
  - intros r s Hr Hs. rewrite Hv by auto. unfold val, sparse_dot. rewrite zrange_app, fold_left_app by lia.
    generalize (fold_left (fun acc t0 => fold_left (fun acc e => if fst e =? r then fma S (snd e) (fb (kind t0) s) acc else acc) (cols t0) acc) (zrange 0 t) (fc r s)).
    clear - G. induction (zrange (0 + t) d) as [|u l IH]; intros acc; cbn; auto. rewrite (G u) by now left. cbn. apply IH. intros; apply G; now right.
Qed.

Hypothesis Hlast : empty_last cols k.

Lemma sp_kernel_spec mm :
  twp (tile_reg cb co knr kmr knr) rall
    (sp_kernel S al kmr knr (ab, ao) (bb, bo) (cb, co) mm n k nnz k_inds loc_m)
    (fun _ m' => forall r s, 0 <= r < kmr -> 0 <= s < knr ->
       dat m' cb (co + r * knr + s) = Some (val r s (zrange 0 k))) m.
Proof.
  destruct (HC 0 0) as (bc & Lc & C0 & _); [lia|lia|]. destruct (HC (kmr - 1) (knr - 1)) as (bc' & L' & C1 & _); [lia|lia|].
  rewrite Lc in L'. injection L' as <-.
  unfold sp_kernel. apply twp_bind.
  eapply twp_mono.
  { eapply (load_vec_spec S _ rall 1 (cb, co) (kmr * knr) (fun e => fc (e / knr) (e mod knr)) bc m); cbn [fst snd]; auto; try nia.
    intros j Hj. split; [left; exact I|].
    replace (co + j) with (co + (j / knr) * knr + j mod knr) by (rewrite (Z.div_mod j knr) at 3; lia).
    pose proof (Z.mod_pos_bound j knr ltac:(lia)).
    destruct (HC (j / knr) (j mod knr)) as (? & _ & _ & E); auto.
    split; [apply Z.div_pos; lia|apply Z.div_lt_upper_bound; lia]. }
  cbv beta. intros c m' (-> & Hc).
  assert (I0 : Sinv 0 (0, c) m).
  { split; [auto|split; [reflexivity|]]. cbn [snd]. intros i j Hi Hj. rewrite Hc by nia.
    unfold val, sparse_dot. change (zrange 0 0) with (@nil Z). cbn [fold_left].
    replace ((i * knr + j) / knr) with i by (apply (Z.div_unique _ _ _ j); lia).
    replace ((i * knr + j) mod knr) with j by (apply (Z.mod_unique _ _ i); lia). reflexivity. }
  assert (Hrem : 0 <= Z.rem k 4 < 4) by (apply Z.rem_bound_pos; lia).
  assert (Hq : k - Z.rem k 4 = 0 + Z.quot k 4 * 4) by (pose proof (Z.quot_rem' k 4); lia).
  assert (Hq0 : 0 <= Z.quot k 4) by (apply Z.quot_pos; lia).
  cbv zeta. apply twp_bind.
  eapply (twp_tfor _ rall (fun g r m' => Sinv (g * 4) (snd r) m' /\
      (fst r = true -> forall u, g * 4 <= u < k -> cols u = [])) _ 0 (k - Z.rem k 4) 4 (Z.quot k 4)); auto; [lia|split; [exact I0|discriminate]| |].
  - intros g [stop st] m' Hg (HI & Hst) _ _. cbn [fst snd] in HI, Hst. pose proof HI as (-> & _).
    destruct stop.
    { apply twp_ret. cbn [fst snd]. specialize (Hst eq_refl). split; [|intros _ u Hu; apply Hst; lia].
      apply (Sinv_skip (g * 4)); [lia| |exact HI]. intros u Hu. apply Hst. lia. }
    unfold iget. rewrite (cp_nnz _ _ _ _ _ _ _ _ _ _ HA (0 + g * 4)) by lia. cbn [tbind].
    destruct (Z.eqb_spec (Z.of_nat (length (cols (0 + g * 4)))) 0) as [E0|E0].
    { apply twp_ret. cbn [fst snd]. assert (En : cols (0 + g * 4) = []) by (apply length_zero_iff_nil; lia).
      assert (Hall : forall u, g * 4 <= u < k -> cols u = []).
      { intros u Hu. apply (Hlast (0 + g * 4) u); [lia|lia|exact En]. }
      split; [|intros _ u Hu; apply Hall; lia].
      apply (Sinv_skip (g * 4)); [lia| |exact HI]. intros u Hu. apply Hall. lia. }
    rewrite Z.add_0_l.
    apply twp_bind. eapply twp_mono; [apply (column_spec _ (g * 4)); [lia|exact HI]|].
    intros st1 m1 H1. pose proof H1 as (-> & _).
    apply twp_bind. eapply twp_mono; [apply (column_spec _ (g * 4 + 1)); [lia|exact H1]|].
    intros st2 m2 H2. pose proof H2 as (-> & _).
    apply twp_bind. eapply twp_mono; [apply (column_spec _ (g * 4 + 2)); [lia|]; now replace (g * 4 + 2) with (g * 4 + 1 + 1) by lia|].
    intros st3 m3 H3. pose proof H3 as (-> & _).
    apply twp_bind. eapply twp_mono; [apply (column_spec _ (g * 4 + 3)); [lia|]; now replace (g * 4 + 3) with (g * 4 + 2 + 1) by lia|].
    intros st4 m4 H4. apply twp_ret. cbn [fst snd]. split; [|discriminate].
    replace ((g + 1) * 4) with (g * 4 + 3 + 1) by lia. exact H4.
  - intros [stop st] m' (HI & _) _ _. cbn [fst snd] in HI |- *. pose proof HI as (-> & _). apply twp_bind.
    eapply (twp_tfor1 _ rall (fun i => Sinv (Z.quot k 4 * 4 + i))); [lia| | |].
    + now rewrite Z.add_0_r.
    + intros i st' m' Hi HI' _ _. pose proof HI' as (-> & _).
      replace (k - Z.rem k 4 + i) with (Z.quot k 4 * 4 + i) by lia.
      eapply twp_mono; [apply column_spec; [lia|exact HI']|].
      intros st1 m1 H1. rewrite Z.add_assoc. exact H1.
    + intros st' m' HI' _ _. pose proof HI' as (-> & _ & Hfin).
      replace (Z.quot k 4 * 4 + Z.rem k 4) with k in Hfin by lia.
      eapply twp_call.
      * eapply (store_vec_spec S (cb, co) (kmr * knr) (snd st') bc m); cbn [fst snd]; auto; nia.
      * cbn [fst snd]. intros b x (-> & Hx). split; [reflexivity|].
        exists ((x - co) / knr), ((x - co) mod knr).
        pose proof (Z.mod_pos_bound (x - co) knr ltac:(lia)). pose proof (Z.div_mod (x - co) knr ltac:(lia)).
        split; [split; [apply Z.div_pos; lia|apply Z.div_lt_upper_bound; lia]|split; lia].
      * intros b x [].
      * cbn [fst snd]. intros [] m1 HS _ _ r s Hr Hs. replace (co + r * knr + s) with (co + (r * knr + s)) by lia.
        rewrite HS by nia. now rewrite Hfin.
Qed.

End Sparse.

(** ** Dense meaning *)
Section Dense.

Variable S : scalar.
Notation T := (elt S).
Variables (add mul : T -> T -> T).
Hypothesis Hs : sums S add mul.
Hypothesis Hz : forall a b, add (mul (zero S) b) a = a.

Lemma col_dot (l : list (Z * T)) r (A : Z -> T) (b : T) acc :
  NoDup (map fst l) -> (forall i v, In (i, v) l -> A i = v) -> (~ In r (map fst l) -> A r = zero S) ->
  fold_left (fun acc e => if fst e =? r then fma S (snd e) b acc else acc) l acc = fma S (A r) b acc.
Proof.
  destruct Hs as (H1 & _). revert acc. induction l as [|[i v] l IH]; intros acc Hn Hv H0; cbn [fold_left fst snd].
  - rewrite H0 by (intros []). now rewrite H1, Hz.
  - cbn in Hn. inversion Hn as [|? ? Hni Hn']; subst. destruct (Z.eqb_spec i r) as [->|Hne].
    + rewrite (Hv r v) by now left.
      clear - Hni. revert acc. generalize (fma S v b). intros g acc. generalize (g acc). clear g acc.
      induction l as [|[i w] l IH]; intros acc; cbn; auto. cbn in Hni.
      destruct (Z.eqb_spec i r); [exfalso; apply Hni; now left|]. apply IH. intros H. apply Hni. now right.
    + apply IH; auto. intros; apply Hv; now right. intros H. apply H0. cbn. intros [E|E]; auto.
Qed.

Lemma sparse_dot_dense (cols : Z -> list (Z * T)) kind rows k A B r s acc : 0 <= r < rows ->
  describes S cols kind rows k A ->
  sparse_dot S cols kind B r s (zrange 0 k) acc = dot S (A r) (fun kk => B kk s) (zrange 0 k) acc.
Proof.
  intros Hr (Hp & Hd). rewrite <- (dot_perm S add mul _ _ _ _ Hs Hp).
  unfold sparse_dot, dot. clear Hp. assert (G : forall t, In t (zrange 0 k) -> 0 <= t < k) by (intros t Ht; apply in_zrange in Ht; lia).
  revert acc. induction (zrange 0 k) as [|t l IH]; intros acc; cbn [fold_left map]; auto.
  destruct (Hd t (G t (or_introl eq_refl))) as (D1 & D2 & D3).
  rewrite (col_dot (cols t) r (fun i => A i (kind t))); auto. apply IH. intros; apply G; now right.
Qed.

End Dense.

Lemma sparse_ok S al kmr knr (ab bb cb : buf) ao bo co mm n k nnz k_inds loc_m
      (cols : Z -> list (Z * elt S)) kind fb fc m :
  0 < al -> 0 < kmr -> 0 < knr -> 0 <= k ->
  compressed m ab ao nnz k_inds loc_m kmr k cols kind -> empty_last cols k ->
  (forall t s, 0 <= t < k -> 0 <= s < knr -> cell m bb (bo + n * kind t + s) (fb (kind t) s)) ->
  al = 1 \/ bo mod al = 0 /\ n mod al = 0 /\ (exists bi, live m bb = Some bi /\ b64 bi = true) ->
  row_stored m cb co knr kmr knr fc ->
  turns_tile_into (ppar_for 0 1 1 (fun _ => sp_kernel S al kmr knr (ab, ao) (bb, bo) (cb, co) mm n k nnz k_inds loc_m))
    m cb co knr kmr knr (fun r s => sparse_dot S cols kind fb r s (zrange 0 k) (fc r s)).
Proof.
  intros Hal Hkm Hkn Hk HA HE HB Ha HC. apply one_thread.
  exact (sp_kernel_spec S al kmr knr ab bb cb ao bo co n k nnz k_inds loc_m cols kind fb fc m Hal Hkm Hkn Hk HA HB Ha HC HE mm).
Qed.

Lemma turns_tile_eq {V} (P : prog V unit) m c co ldc rows cs R R' :
  (forall r s, 0 <= r < rows -> 0 <= s < cs -> R r s = R' r s) ->
  turns_tile_into P m c co ldc rows cs R -> turns_tile_into P m c co ldc rows cs R'.
Proof.
  intros E (H1 & H2). split; [exact H1|]. intros o Hx. destruct (H2 o Hx) as (u & m' & -> & Ha & Hb).
  exists u, m'. split; [reflexivity|]. split; [|exact Hb]. intros r s Hr Hs. rewrite <- E by auto. auto.
Qed.

(** The first column listed has no nonzero: a tile of 4 j columns is not multiplied at all. *)
Lemma sparse_skip S al kmr knr (ab bb cb : buf) ao bo co mm n k nnz k_inds loc_m (fc : Z -> Z -> elt S) m :
  0 < kmr -> 0 < knr -> 0 < k -> (4 | k) -> nnz 0 = Some 0 -> row_stored m cb co knr kmr knr fc ->
  turns_tile_into (ppar_for 0 1 1 (fun _ => sp_kernel S al kmr knr (ab, ao) (bb, bo) (cb, co) mm n k nnz k_inds loc_m))
    m cb co knr kmr knr fc.
Proof.
  intros Hkm Hkn Hk (j & ->) Hz HC. apply one_thread.
  destruct (HC 0 0) as (bc & Lc & C0 & _); [lia|lia|]. destruct (HC (kmr - 1) (knr - 1)) as (bc' & L' & C1 & _); [lia|lia|].
  rewrite Lc in L'. injection L' as <-.
  unfold sp_kernel. apply twp_bind.
  eapply twp_mono.
  { eapply (load_vec_spec S _ rall 1 (cb, co) (kmr * knr) (fun e => fc (e / knr) (e mod knr)) bc m); cbn [fst snd]; auto; try nia.
    intros i Hi. split; [left; exact I|].
    replace (co + i) with (co + (i / knr) * knr + i mod knr) by (rewrite (Z.div_mod i knr) at 3; lia).
    pose proof (Z.mod_pos_bound i knr ltac:(lia)).
    destruct (HC (i / knr) (i mod knr)) as (? & _ & _ & E); auto.
    split; [apply Z.div_pos; lia|apply Z.div_lt_upper_bound; lia]. }
  cbv beta. intros c m' (-> & Hc). cbv zeta.
  assert (Hr : Z.rem (j * 4) 4 = 0) by (apply Z.rem_mul; lia). rewrite Hr. apply twp_bind.
  eapply (twp_tfor _ rall (fun g r m' => m' = m /\ snd r = (0, c) /\ (fst r = true \/ g = 0)) _ 0 (j * 4 - 0) 4 j); [lia|lia|lia|auto| |].
  - intros g [stop st] m' Hg (-> & E & Hst) _ _. cbn [fst snd] in E, Hst. subst st.
    destruct stop; [apply twp_ret; auto|]. destruct Hst as [Hst| ->]; [discriminate|].
    unfold iget. change (0 + 0 * 4) with 0. rewrite Hz. cbn [tbind Z.eqb]. apply twp_ret. auto.
  - intros [stop st] m' (-> & E & _) _ _. cbn [fst snd] in E |- *. subst st.
    apply twp_bind. eapply (twp_tfor1 _ rall (fun _ st m' => m' = m /\ st = (0, c))); [lia|auto|lia|].
    intros st m' (-> & ->) _ _. cbn [snd].
    eapply twp_call.
    + eapply (store_vec_spec S (cb, co) (kmr * knr) c bc m); cbn [fst snd]; auto; nia.
    + cbn [fst snd]. intros b x (-> & Hx). split; [reflexivity|].
      exists ((x - co) / knr), ((x - co) mod knr).
      pose proof (Z.mod_pos_bound (x - co) knr ltac:(lia)). pose proof (Z.div_mod (x - co) knr ltac:(lia)).
      split; [split; [apply Z.div_pos; lia|apply Z.div_lt_upper_bound; lia]|split; lia].
    + intros b x [].
    + cbn [fst snd]. intros [] m1 HS _ _ r s Hr' Hs. replace (co + r * knr + s) with (co + (r * knr + s)) by lia.
      rewrite HS by nia. rewrite Hc by nia.
      replace ((r * knr + s) / knr) with r by (apply (Z.div_unique _ _ _ s); lia).
      replace ((r * knr + s) mod knr) with s by (apply (Z.mod_unique _ _ r); lia). reflexivity.
Qed.
