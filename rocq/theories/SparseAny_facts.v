(** * The sparse kernels for columns listed in any order. *)

From Coq Require Import ZArith List Bool Permutation Lia.
From Verif Require Import Lang Lang_facts Spec SpecTop SpecSmall ModelSizing ModelKernel ModelPack ModelSmall
     Witness Kernel_facts Mult_facts Small_facts Sparse_facts.
Import ListNotations.
Open Scope Z_scope.

Lemma combine_snoc {A B} (l : list A) (x : A) (l' : list B) y :
  nth_error l' (length l) = Some y -> combine (l ++ [x]) l' = combine l l' ++ [(x, y)].
Proof.
  revert l'; induction l as [|a l IH]; intros [|b l']; cbn; try discriminate.
  - intros [= ->]. now destruct l'.
  - intros H. f_equal. now apply IH.
Qed.

Lemma repeat_snoc {A} (x : A) n : repeat x (Datatypes.S n) = repeat x n ++ [x].
Proof. induction n as [|n IH]; [reflexivity|]. cbn in *. now rewrite IH at 1. Qed.

Lemma flat_snoc' {A B} (f : A -> list B) l x : flat_map f (l ++ [x]) = flat_map f l ++ f x.
Proof. rewrite flat_map_app. cbn [flat_map]. now rewrite app_nil_r. Qed.

Section Any.

Variable S : scalar.
Notation T := (elt S).

Variables (al kmr knr : Z) (ab bb cb : buf) (ao bo co n k : Z).
Variables (nnz k_inds loc_m : Z -> option Z) (cols : Z -> list (Z * T)) (kind : Z -> Z).
Variables (fb fc : Z -> Z -> T) (m : mem T).
Hypothesis Hal0 : 0 < al.
Hypothesis Hkm : 0 < kmr.
Hypothesis Hkn : 0 < knr.
Hypothesis Hk : 0 <= k.
Hypothesis HA : compressed m ab ao nnz k_inds loc_m kmr k cols kind.
Hypothesis HB : forall t s, 0 <= t < k -> 0 <= s < knr -> cell m bb (bo + n * kind t + s) (fb (kind t) s).
Hypothesis Hal : al = 1 \/ bo mod al = 0 /\ n mod al = 0 /\ exists bi, live m bb = Some bi /\ b64 bi = true.
Hypothesis HC : row_stored m cb co knr kmr knr fc.

Let nz := nonzeros cols k.
Let step r s := (fun (acc : T) (te : Z * (Z * T)) =>
  if fst (snd te) =? r then fma S (snd (snd te)) (fb (kind (fst te)) s) acc else acc).
Let val r s ul := fold_left (step r s) (combine ul nz) (fc r s).
Definition widen (ts : list Z) : list Z := flat_map (fun t => repeat t (length (cols t))) ts.

Definition Uinv (ul : list Z) (st : Z * (Z -> T)) (m' : mem T) : Prop :=
  m' = m /\ fst st = Z.of_nat (length ul) /\
  forall r s, 0 <= r < kmr -> 0 <= s < knr -> snd st (r * knr + s) = val r s ul.

Lemma nz_rows i v : In (i, v) nz -> 0 <= i < kmr.
Proof.
  unfold nz, nonzeros. rewrite in_flat_map. intros (t & Ht & Hi). apply in_zrange in Ht.
  exact (cp_row _ _ _ _ _ _ _ _ _ _ HA t i v ltac:(lia) Hi).
Qed.

Lemma column_any W t ul st : 0 <= t < k -> (length ul + length (cols t) <= length nz)%nat -> Uinv ul st m ->
  twp W rall (sp_column S al kmr knr (ab, ao) (bb, bo) n nnz k_inds loc_m t st)
    (Uinv (ul ++ repeat t (length (cols t)))) m.
Proof.
  intros Ht Hlen (_ & Hq & Hv). unfold sp_column, iget.
  rewrite (cp_nnz _ _ _ _ _ _ _ _ _ _ HA t Ht), (cp_kind _ _ _ _ _ _ _ _ _ _ HA t Ht). cbn [tbind].
  apply twp_bind.
  destruct (HB t 0) as (bi & Lb & B0 & _); [lia|lia|]. destruct (HB t (knr - 1)) as (bi' & L' & B1 & _); [lia|lia|].
  rewrite Lb in L'. injection L' as <-.
  eapply twp_mono.
  { eapply (load_vec_spec S W rall al (padd (bb, bo) (n * kind t)) knr (fb (kind t)) bi m); cbn [padd fst snd]; auto; try lia.
    - destruct Hal as [->|(H1 & H2 & bi' & H3 & H4)]; [now left|right].
      rewrite Lb in H3. injection H3 as <-. split; [auto|]. apply mod0_add; auto. rewrite Z.mul_comm. apply mod0_mul; auto.
    - intros j Hj. split; [left; exact I|]. destruct (HB t j) as (? & _ & _ & E); auto. }
  cbv beta. intros b m' (-> & Hb).
  eapply (twp_tfor1 W rall (fun j => Uinv (ul ++ repeat t (Z.to_nat j)))); [lia| | |].
  - change (Z.to_nat 0) with O. cbn [repeat]. rewrite app_nil_r. split; [auto|split; assumption].
  - intros j [q c] m' Hj (-> & Hq' & Hc) _ _. cbn [fst snd] in Hq', Hc.
    rewrite app_length, repeat_length in Hq'.
    destruct (nth_error nz (length ul + Z.to_nat j)) as [[i v]|] eqn:E.
    2:{ apply nth_error_None in E. lia. }
    destruct (cp_nz _ _ _ _ _ _ _ _ _ _ HA _ i v E) as (Eloc & ba & La & A0 & Ev).
    pose proof (nz_rows i v (nth_error_In _ _ E)) as Hi.
    subst q. unfold sp_nonzero, iget. cbn [fst snd]. apply twp_bind.
    eapply twp_load; eauto; [left; exact I|]. rewrite Eloc. cbn [tbind].
    replace ((0 <=? i) && (i <? kmr)) with true by lia.
    apply twp_ret. replace (Z.to_nat (j + 1)) with (Datatypes.S (Z.to_nat j)) by lia.
    rewrite repeat_snoc, app_assoc. split; [auto|split].
    { cbn [fst]. rewrite !app_length, repeat_length. cbn [length]. lia. }
    cbn [snd]. intros r s Hr Hs. unfold val.
    rewrite (combine_snoc (ul ++ repeat t (Z.to_nat j)) t nz (i, v)) by (rewrite app_length, repeat_length; exact E).
    rewrite fold_left_app. cbn [fold_left fst snd]. unfold step at 1. cbn [fst snd].
    destruct (Z.eqb_spec i r) as [->|Hne].
    + replace ((r * knr <=? r * knr + s) && (r * knr + s <? (r + 1) * knr)) with true by lia.
      f_equal; [|apply Hc; auto]. rewrite <- Hb by lia. f_equal. lia.
    + replace ((i * knr <=? r * knr + s) && (r * knr + s <? (i + 1) * knr)) with false; [apply Hc; auto|].
      symmetry. apply andb_false_iff. destruct (Z_lt_le_dec r i); [left; apply Z.leb_gt; nia|right; apply Z.ltb_ge; nia].
  - intros st' m' H _ _. rewrite Nat2Z.id in H. exact H.
Qed.

Lemma widen_length ts : length (widen ts) = length (flat_map cols ts).
Proof. unfold widen. induction ts as [|t ts IH]; [reflexivity|]. cbn. now rewrite !app_length, repeat_length, IH. Qed.

Lemma widen_snoc ts t : widen (ts ++ [t]) = widen ts ++ repeat t (length (cols t)).
Proof. unfold widen. rewrite flat_map_app. cbn [flat_map]. now rewrite app_nil_r. Qed.

Lemma nz_split a : 0 <= a <= k -> nz = flat_map cols (zrange 0 a) ++ flat_map cols (zrange a (k - a)).
Proof.
  intros H. unfold nz, nonzeros. replace k with (a + (k - a)) at 1 by lia. now rewrite zrange_app, flat_map_app by lia.
Qed.

Lemma flat_split a b c : 0 <= b -> 0 <= c -> flat_map cols (zrange a (b + c)) = flat_map cols (zrange a b) ++ flat_map cols (zrange (a + b) c).
Proof. intros. now rewrite zrange_app, flat_map_app by lia. Qed.

(** a column within the first part *)
Lemma room t : 0 <= t < k -> (length (widen (zrange 0 t)) + length (cols t) <= length nz)%nat.
Proof.
  intros Ht. rewrite widen_length, (nz_split (t + 1)), zrange_snoc, flat_snoc', !app_length by lia. cbn [Z.add]. lia.
Qed.

(** a column of the last part, after a stop at column a *)
Lemma room_tail a b i : 0 <= a <= b -> 0 <= i -> b + i < k ->
  (length (widen (zrange 0 a ++ zrange b i)) + length (cols (b + i)) <= length nz)%nat.
Proof.
  intros Ha Hi Hb. rewrite widen_length, flat_map_app, app_length.
  rewrite (nz_split a) by lia. rewrite app_length.
  replace (k - a) with ((b - a) + (k - b)) by lia. rewrite flat_split, app_length by lia.
  replace (a + (b - a)) with b by lia. replace (k - b) with ((i + 1) + (k - b - i - 1)) by lia.
  rewrite flat_split, app_length, zrange_snoc, flat_snoc', app_length by lia. lia.
Qed.

Lemma groups_range g : 0 <= g ->
  flat_map (fun g => [4 * g; 4 * g + 1; 4 * g + 2; 4 * g + 3]) (zrange 0 g) = zrange 0 (4 * g).
Proof.
  intros H. pattern g. apply natlike_ind; [reflexivity| |exact H]. intros x Hx IH. unfold Z.succ.
  rewrite zrange_snoc, flat_snoc', IH by lia. replace (4 * (x + 1)) with (4 * x + 4) by lia. rewrite zrange_app by lia.
  f_equal. rewrite Z.add_0_l, (Z.add_0_l (4 * x)). unfold zrange. change (Z.to_nat 4) with 4%nat.
  cbn [zseq]. f_equal. f_equal. f_equal; [lia|]. f_equal; lia.
Qed.

Lemma while_stop g G : 0 <= g <= G -> (forall h, 0 <= h < g -> cols (4 * h) <> []) ->
  g = G \/ cols (4 * g) = [] -> while_nonempty cols (zrange 0 G) = zrange 0 g.
Proof.
  intros Hg Hne Hst.
  assert (P : forall l rest, (forall h, In h l -> cols (4 * h) <> []) -> while_nonempty cols (l ++ rest) = l ++ while_nonempty cols rest).
  { induction l as [|h l IH]; intros rest H; [reflexivity|]. cbn [app while_nonempty]. destruct (cols (4 * h)) eqn:E; [exfalso; apply (H h); [now left|exact E]|].
    f_equal. apply IH. intros; apply H; now right. }
  assert (Q : forall h, In h (zrange 0 g) -> cols (4 * h) <> []).
  { intros h Hh. apply in_zrange in Hh. apply Hne. lia. }
  destruct Hst as [->|Hst].
  - rewrite <- (app_nil_r (zrange 0 G)) at 1. rewrite P by exact Q. apply app_nil_r.
  - destruct (Z.eq_dec g G) as [->|Hn].
    + rewrite <- (app_nil_r (zrange 0 G)) at 1. rewrite P by exact Q. apply app_nil_r.
    + replace G with (g + (G - g)) by lia. rewrite zrange_app, P by (auto; lia).
      replace (G - g) with (1 + (G - g - 1)) by lia. rewrite zrange_app by lia. cbn [Z.add].
      change (zrange g 1) with [g]. cbn [app while_nonempty]. rewrite Hst. apply app_nil_r.
Qed.

Lemma used_range g : 0 <= g <= k / 4 -> (forall h, 0 <= h < g -> cols (4 * h) <> []) ->
  g = k / 4 \/ cols (4 * g) = [] -> columns_used cols k = zrange 0 (4 * g) ++ zrange (4 * (k / 4)) (k mod 4).
Proof. intros H1 H2 H3. unfold columns_used. rewrite (while_stop g) by assumption. now rewrite groups_range by lia. Qed.

Lemma sp_any_spec mm :
  twp (tile_reg cb co knr kmr knr) rall
    (sp_kernel S al kmr knr (ab, ao) (bb, bo) (cb, co) mm n k nnz k_inds loc_m)
    (fun _ m' => forall r s, 0 <= r < kmr -> 0 <= s < knr ->
       dat m' cb (co + r * knr + s) = Some (sparse_used S cols kind fb r s k (fc r s))) m.
Proof.
  destruct (HC 0 0) as (bc & Lc & C0 & _); [lia|lia|]. destruct (HC (kmr - 1) (knr - 1)) as (bc' & L' & C1 & _); [lia|lia|].
  rewrite Lc in L'. injection L' as <-.
  unfold sp_kernel. apply twp_bind.
  eapply twp_mono.
  { eapply (load_vec_spec S _ rall 1 (cb, co) (kmr * knr) (fun e => fc (e / knr) (e mod knr)) bc m); cbn [fst snd]; auto; try nia.
    intros j Hj. split; [left; exact I|].
    replace (co + j) with (co + (j / knr) * knr + j mod knr) by (rewrite (Z.div_mod j knr) at 3; lia).
    pose proof (Z.mod_pos_bound j knr ltac:(lia)).
    destruct (HC (j / knr) (j mod knr)) as (? & _ & _ & E); auto.
    split; [apply Z.div_pos; lia|apply Z.div_lt_upper_bound; lia]. }
  cbv beta. intros c m' (-> & Hc).
  assert (I0 : Uinv (widen (zrange 0 0)) (0, c) m).
  { split; [auto|split; [reflexivity|]]. cbn [snd]. intros i j Hi Hj. rewrite Hc by nia.
    unfold val. change (widen (zrange 0 0)) with (@nil Z). cbn [combine fold_left].
    replace ((i * knr + j) / knr) with i by (apply (Z.div_unique _ _ _ j); lia).
    replace ((i * knr + j) mod knr) with j by (apply (Z.mod_unique _ _ i); lia). reflexivity. }
  rewrite Z.rem_mod_nonneg by lia.
  assert (Hrem : 0 <= k mod 4 < 4) by (apply Z.mod_pos_bound; lia).
  assert (Hq : k - k mod 4 = 0 + k / 4 * 4) by (pose proof (Z.div_mod k 4 ltac:(lia)); lia).
  assert (Hq0 : 0 <= k / 4) by (apply Z.div_pos; lia).
  cbv zeta. apply twp_bind.
  eapply (twp_tfor _ rall (fun g (r : bool * (Z * (Z -> T))) m' => exists g0, 0 <= g0 <= g /\ Uinv (widen (zrange 0 (4 * g0))) (snd r) m' /\
      (forall h, 0 <= h < g0 -> cols (4 * h) <> []) /\ (if fst r then cols (4 * g0) = [] else g0 = g)) _ 0 (k - k mod 4) 4 (k / 4)); [lia|lia|lia| | |].
  - exists 0. split; [lia|]. split; [exact I0|]. split; [lia|reflexivity].
  - intros g [stop st] m' Hg (g0 & Hg0 & HI & Hne & Hst) _ _. cbn [fst snd] in HI, Hst. pose proof HI as (-> & _).
    destruct stop.
    { apply twp_ret. cbn [fst snd]. exists g0. split; [lia|]. auto. }
    subst g0. unfold iget. rewrite (cp_nnz _ _ _ _ _ _ _ _ _ _ HA (0 + g * 4)) by lia. cbn [tbind].
    replace (0 + g * 4) with (4 * g) by lia.
    destruct (Z.eqb_spec (Z.of_nat (length (cols (4 * g)))) 0) as [E0|E0].
    { apply twp_ret. cbn [fst snd]. exists g. split; [lia|]. split; [exact HI|]. split; [exact Hne|]. apply length_zero_iff_nil. lia. }
    assert (ST : forall W t st, 0 <= t < k -> Uinv (widen (zrange 0 t)) st m ->
       twp W rall (sp_column S al kmr knr (ab, ao) (bb, bo) n nnz k_inds loc_m t st) (Uinv (widen (zrange 0 (t + 1)))) m).
    { intros W t st' Ht H. rewrite zrange_snoc, widen_snoc by lia. rewrite Z.add_0_l. apply column_any; [exact Ht|now apply room|exact H]. }
    apply twp_bind. eapply twp_mono; [apply (ST _ (4 * g)); [lia|exact HI]|].
    intros st1 m1 H1. pose proof H1 as (-> & _).
    apply twp_bind. eapply twp_mono; [apply (ST _ (4 * g + 1)); [lia|exact H1]|].
    intros st2 m2 H2. pose proof H2 as (-> & _).
    apply twp_bind. eapply twp_mono; [apply (ST _ (4 * g + 2)); [lia|]; now replace (4 * g + 2) with (4 * g + 1 + 1) by lia|].
    intros st3 m3 H3. pose proof H3 as (-> & _).
    apply twp_bind. eapply twp_mono; [apply (ST _ (4 * g + 3)); [lia|]; now replace (4 * g + 3) with (4 * g + 2 + 1) by lia|].
    intros st4 m4 H4. apply twp_ret. cbn [fst snd]. exists (g + 1). split; [lia|].
    split; [replace (4 * (g + 1)) with (4 * g + 3 + 1) by lia; exact H4|]. split; [|reflexivity].
    intros h Hh. destruct (Z.eq_dec h g) as [->|]; [intros E; rewrite E in E0; now apply E0|apply Hne; lia].
  - intros [stop st] m' (g0 & Hg0 & HI & Hne & Hst) _ _. cbn [fst snd] in HI, Hst |- *. pose proof HI as (-> & _).
    assert (Hst' : g0 = k / 4 \/ cols (4 * g0) = []) by (destruct stop; auto).
    pose proof (used_range g0 Hg0 Hne Hst') as HU. apply twp_bind.
    eapply (twp_tfor1 _ rall (fun i => Uinv (widen (zrange 0 (4 * g0) ++ zrange (4 * (k / 4)) i)))); [lia| | |].
    + change (zrange (4 * (k / 4)) 0) with (@nil Z). now rewrite app_nil_r.
    + intros i st' m' Hi HI' _ _. pose proof HI' as (-> & _).
      replace (k - k mod 4 + i) with (4 * (k / 4) + i) by lia.
      rewrite zrange_snoc, app_assoc, widen_snoc by lia.
      apply column_any; [lia|apply room_tail; lia|exact HI'].
    + intros st' m' HI' _ _. pose proof HI' as (-> & _ & Hfin). rewrite <- HU in Hfin.
      eapply twp_call.
      * eapply (store_vec_spec S (cb, co) (kmr * knr) (snd st') bc m); cbn [fst snd]; auto; nia.
      * cbn [fst snd]. intros b x (-> & Hx). split; [reflexivity|].
        exists ((x - co) / knr), ((x - co) mod knr).
        pose proof (Z.mod_pos_bound (x - co) knr ltac:(lia)). pose proof (Z.div_mod (x - co) knr ltac:(lia)).
        split; [split; [apply Z.div_pos; lia|apply Z.div_lt_upper_bound; lia]|split; lia].
      * intros b x [].
      * cbn [fst snd]. intros [] m1 HS _ _ r s Hr Hs. replace (co + r * knr + s) with (co + (r * knr + s)) by lia.
        rewrite HS by nia. rewrite Hfin by assumption. reflexivity.
Qed.

End Any.

Lemma sparse_any S al kmr knr (ab bb cb : buf) ao bo co mm n k nnz k_inds loc_m
      (cols : Z -> list (Z * elt S)) kind fb fc m :
  0 < al -> 0 < kmr -> 0 < knr -> 0 <= k ->
  compressed m ab ao nnz k_inds loc_m kmr k cols kind ->
  (forall t s, 0 <= t < k -> 0 <= s < knr -> cell m bb (bo + n * kind t + s) (fb (kind t) s)) ->
  al = 1 \/ bo mod al = 0 /\ n mod al = 0 /\ (exists bi, live m bb = Some bi /\ b64 bi = true) ->
  row_stored m cb co knr kmr knr fc ->
  turns_tile_into (ppar_for 0 1 1 (fun _ => sp_kernel S al kmr knr (ab, ao) (bb, bo) (cb, co) mm n k nnz k_inds loc_m))
    m cb co knr kmr knr (fun r s => sparse_used S cols kind fb r s k (fc r s)).
Proof.
  intros Hal Hkm Hkn Hk HA HB Ha HC. apply one_thread.
  exact (sp_any_spec S al kmr knr ab bb cb ao bo co n k nnz k_inds loc_m cols kind fb fc m Hal Hkm Hkn Hk HA HB Ha HC mm).
Qed.

(** ** Where the kernel stops *)
Section Stop.

Context {V : Type}.
Variables (cols : Z -> list (Z * V)) (k : Z).
Hypothesis Hk : 0 <= k.

Lemma first_stop G : 0 <= G ->
  exists g, 0 <= g <= G /\ (forall h, 0 <= h < g -> cols (4 * h) <> []) /\ (g = G \/ cols (4 * g) = []).
Proof.
  intros H. pattern G. apply natlike_ind; [exists 0; split; [lia|split; [lia|auto]]| |exact H].
  intros x Hx (g & Hg & Hne & [->|He]).
  - destruct (cols (4 * x)) eqn:E.
    + exists x. split; [lia|]. auto.
    + exists (Z.succ x). split; [lia|]. split; [|auto]. intros h Hh. destruct (Z.eq_dec h x) as [->|]; [congruence|apply Hne; lia].
  - exists g. split; [lia|]. auto.
Qed.

End Stop.

Section Exact.

Variable S : scalar.
Notation T := (elt S).
Variables (cols : Z -> list (Z * T)) (k : Z).
Hypothesis Hk : 0 <= k.

Lemma widen_app l l' : widen S cols (l ++ l') = widen S cols l ++ widen S cols l'.
Proof. apply flat_map_app. Qed.

Lemma widen_empty ts : (forall u, In u ts -> cols u = []) -> widen S cols ts = [].
Proof.
  induction ts as [|t ts IH]; intros H; [reflexivity|]. unfold widen in *. cbn [flat_map].
  rewrite (H t) by now left. cbn [length repeat app]. apply IH. intros; apply H; now right.
Qed.

Lemma Hq4 : k = 4 * (k / 4) + k mod 4 /\ 0 <= k / 4 /\ 0 <= k mod 4 < 4.
Proof. pose proof (Z.div_mod k 4 ltac:(lia)). pose proof (Z.mod_pos_bound k 4 ltac:(lia)). pose proof (Z.div_pos k 4 ltac:(lia) ltac:(lia)). lia. Qed.

Lemma widen_all : none_skipped cols k -> widen S cols (columns_used cols k) = widen S cols (zrange 0 k).
Proof.
  intros HN. destruct Hq4 as (H1 & H2 & H3). destruct (first_stop cols (k / 4) H2) as (g & Hg & Hne & Hst).
  rewrite (used_range S k cols g) by assumption. rewrite widen_app.
  replace (zrange 0 k) with (zrange 0 (4 * g + (4 * (k / 4 - g) + k mod 4))) by (f_equal; lia).
  rewrite !zrange_app, !widen_app by lia. f_equal.
  replace (0 + 4 * g + 4 * (k / 4 - g)) with (4 * (k / 4)) by lia.
  destruct Hst as [->|Hst]; [rewrite Z.sub_diag; reflexivity|].
  rewrite (widen_empty (zrange (0 + 4 * g) (4 * (k / 4 - g)))); [reflexivity|].
  intros u Hu. apply in_zrange in Hu. destruct (Z.eq_dec g (k / 4)); [lia|]. apply (HN g); [lia|exact Hst|lia].
Qed.

Lemma widen_short g u : 0 <= g < k / 4 -> cols (4 * g) = [] -> 4 * g <= u < 4 * (k / 4) -> cols u <> [] ->
  (length (column_of_nonzero cols k) < length (nonzeros cols k))%nat.
Proof.
  intros Hg Hge Hu Hue. destruct Hq4 as (H1 & H2 & H3). destruct (first_stop cols g (proj1 Hg)) as (g0 & Hg0 & Hne & Hst).
  change (column_of_nonzero cols k) with (widen S cols (columns_used cols k)).
  rewrite (used_range S k cols g0) by (try assumption; try lia; right; destruct Hst as [->|]; assumption).
  unfold nonzeros. replace (zrange 0 k) with (zrange 0 (4 * g0 + ((u - 4 * g0) + (1 + ((4 * (k / 4) - u - 1) + k mod 4))))) by (f_equal; lia).
  rewrite !zrange_app, !flat_map_app by lia.
  replace (0 + 4 * g0 + (u - 4 * g0)) with u by lia. replace (u + 1 + (4 * (k / 4) - u - 1)) with (4 * (k / 4)) by lia.
  rewrite widen_length, flat_map_app, !app_length.
  assert (0 < length (flat_map cols (zrange u 1)))%nat; [|lia].
  change (zrange u 1) with [u]. cbn [flat_map]. rewrite app_nil_r. destruct (cols u); [congruence|cbn; lia].
Qed.

Lemma combine_app {A B} (l1 l2 : list A) (l1' l2' : list B) : length l1 = length l1' ->
  combine (l1 ++ l2) (l1' ++ l2') = combine l1 l1' ++ combine l2 l2'.
Proof. revert l1'; induction l1 as [|a l IH]; intros [|b l'] H; try discriminate; [reflexivity|]. cbn. f_equal. apply IH. now injection H. Qed.

Lemma sparse_used_all kind (B : Z -> Z -> T) r s acc : none_skipped cols k ->
  sparse_used S cols kind B r s k acc = sparse_dot S cols kind B r s (zrange 0 k) acc.
Proof.
  intros HN. unfold sparse_used, sparse_dot, nonzeros.
  change (column_of_nonzero cols k) with (widen S cols (columns_used cols k)). rewrite widen_all by exact HN.
  revert acc. induction (zrange 0 k) as [|t ts IH]; intros acc; [reflexivity|].
  unfold widen in *. cbn [flat_map fold_left]. rewrite combine_app by apply repeat_length.
  rewrite fold_left_app. rewrite IH. f_equal. clear IH. revert acc.
  induction (cols t) as [|e l IH]; intros acc; [reflexivity|]. cbn [length repeat combine fold_left fst snd]. apply IH.
Qed.

(** The last nonzero listed *)
Lemma last_nonzero K : 0 <= K -> nonzeros cols K <> [] ->
  exists t l e, 0 <= t < K /\ cols t = l ++ [e] /\ (forall u, t < u < K -> cols u = []).
Proof.
  intros H. pattern K. apply natlike_ind; [now intros []| |exact H]. intros x Hx IH. unfold Z.succ, nonzeros.
  rewrite zrange_snoc, flat_snoc', Z.add_0_l by lia. intros Hne. destruct (cols x) as [|e0 l0] eqn:E.
  - rewrite app_nil_r in Hne. destruct (IH Hne) as (t & l & e & Ht & He & Hu). exists t, l, e. split; [lia|]. split; [exact He|].
    intros u Hu'. destruct (Z.eq_dec u x) as [->|]; [exact E|apply Hu; lia].
  - destruct (exists_last (l := e0 :: l0)) as (l & e & El); [discriminate|]. exists x, l, e. split; [lia|].
    split; [now rewrite E|]. lia.
Qed.

End Exact.

(** ** A skipped column makes the product wrong *)

(** The same rows, the value [v] of the last nonzero of column tl and zero for all others *)
Definition only_last (cols : Z -> list (Z * Z)) (tl : Z) (t : Z) : list (Z * Z) :=
  if t =? tl then match rev (cols t) with [] => [] | e :: l => map (fun e => (fst e, 0)) (rev l) ++ [(fst e, 1)] end
  else map (fun e => (fst e, 0)) (cols t).

Lemma only_last_rows cols tl t : map fst (only_last cols tl t) = map fst (cols t).
Proof.
  unfold only_last. destruct (t =? tl).
  - rewrite <- (rev_involutive (cols t)) at 2. destruct (rev (cols t)) as [|e l]; [reflexivity|].
    cbn [rev]. rewrite !map_app, map_map. reflexivity.
  - now rewrite map_map.
Qed.

Lemma only_last_length cols tl t : length (only_last cols tl t) = length (cols t).
Proof. rewrite <- (map_length fst), only_last_rows. apply map_length. Qed.

Lemma only_last_nil cols tl t : only_last cols tl t = [] <-> cols t = [].
Proof. rewrite <- !length_zero_iff_nil, only_last_length. reflexivity. Qed.

Lemma flat_ext {A B} (f g : A -> list B) l : (forall x, In x l -> f x = g x) -> flat_map f l = flat_map g l.
Proof. induction l as [|a l IH]; intros H; [reflexivity|]. cbn. rewrite H by now left. f_equal. apply IH. intros; apply H; now right. Qed.

Lemma flat_map_map {A B C} (f : A -> list B) (g : B -> C) l : flat_map (fun x => map g (f x)) l = map g (flat_map f l).
Proof. induction l as [|a l IH]; [reflexivity|]. cbn. now rewrite map_app, IH. Qed.

Lemma only_last_nonzeros cols k tl l e : 0 <= tl < k -> cols tl = l ++ [e] -> (forall u, tl < u < k -> cols u = []) ->
  exists z, nonzeros cols k = z ++ [e] /\ nonzeros (only_last cols tl) k = map (fun e => (fst e, 0)) z ++ [(fst e, 1)].
Proof.
  intros Ht El Hu. exists (flat_map cols (zrange 0 tl) ++ l). unfold nonzeros.
  replace (zrange 0 k) with (zrange 0 (tl + (1 + (k - tl - 1)))) by (f_equal; lia).
  rewrite !zrange_app, !flat_map_app by lia. rewrite Z.add_0_l. change (zrange tl 1) with [tl]. cbn [flat_map].
  assert (E1 : forall f : Z -> list (Z * Z), (forall u, tl < u < k -> f u = []) -> flat_map f (zrange (tl + 1) (k - tl - 1)) = []).
  { intros f Hf. rewrite (flat_ext f (fun _ => [])). { now induction (zrange (tl + 1) (k - tl - 1)). }
    intros x Hx. apply in_zrange in Hx. apply Hf. lia. }
  rewrite !E1. 2:{ intros u H. apply only_last_nil. now apply Hu. } 2: exact Hu.
  rewrite !app_nil_r. split; [now rewrite El, app_assoc|].
  unfold only_last at 2. rewrite Z.eqb_refl, El, rev_app_distr. cbn [rev app]. rewrite rev_involutive, map_app, <- app_assoc.
  f_equal. rewrite <- flat_map_map. apply flat_ext. intros x Hx. apply in_zrange in Hx. unfold only_last.
  destruct (Z.eqb_spec x tl); [lia|reflexivity].
Qed.

Lemma combine_firstn' {A B} (l : list A) (l' : list B) : combine l l' = combine l (firstn (length l) l').
Proof. revert l'; induction l as [|a l IH]; intros [|b l']; cbn; try reflexivity. f_equal. apply IH. Qed.

Lemma fold_zero (kind : Z -> Z) (B : Z -> Z -> Z) (r s : Z) l : (forall te, In te l -> snd (snd te) = 0) ->
  fold_left (fun (acc : Z) (te : Z * (Z * Z)) => if fst (snd te) =? r then snd (snd te) * B (kind (fst te)) s + acc else acc) l 0 = 0.
Proof.
  induction l as [|[t e] l IH]; intros H; [reflexivity|]. cbn [fold_left fst snd]. pose proof (H (t, e) (or_introl eq_refl)) as E. cbn in E.
  rewrite E. replace (if fst e =? r then 0 * B (kind t) s + 0 else 0) with 0 by (now destruct (fst e =? r)). apply IH. intros; apply H; now right.
Qed.

Lemma sparse_dot_ones (cols : Z -> list (Z * Z)) kind r s ts acc :
  sparse_dot Zs cols kind (fun _ _ => 1) r s ts acc =
  fold_left (fun acc e => if fst e =? r then snd e * 1 + acc else acc) (flat_map cols ts) acc.
Proof.
  unfold sparse_dot. revert acc. induction ts as [|t ts IH]; intros acc; [reflexivity|]. cbn [fold_left flat_map].
  rewrite IH, fold_left_app. reflexivity.
Qed.

Lemma fold_zero' r l : fold_left (fun (acc : Z) (e : Z * Z) => if fst e =? r then snd e * 1 + acc else acc) (map (fun e : Z * Z => (fst e, 0)) l) 0 = 0.
Proof. induction l as [|e l IH]; [reflexivity|]. cbn [map fold_left fst snd]. replace (if fst e =? r then 0 * 1 + 0 else 0) with 0 by (now destruct (fst e =? r)). exact IH. Qed.

Lemma columns_used_ext {V W} (c1 : Z -> list (Z * V)) (c2 : Z -> list (Z * W)) k :
  (forall t, length (c1 t) = length (c2 t)) -> column_of_nonzero c1 k = column_of_nonzero c2 k.
Proof.
  intros H. unfold column_of_nonzero, columns_used.
  assert (E : forall l, while_nonempty c1 l = while_nonempty c2 l).
  { induction l as [|g l IH]; [reflexivity|]. cbn [while_nonempty]. pose proof (H (4 * g)) as E.
    destruct (c1 (4 * g)), (c2 (4 * g)); try discriminate; [reflexivity|]. now rewrite IH. }
  rewrite E. apply flat_ext. intros t _. now rewrite H.
Qed.

Lemma used_wrong (cols : Z -> list (Z * Z)) k g u kind rows :
  0 <= k -> 0 <= g < k / 4 -> cols (4 * g) = [] -> 4 * g <= u < 4 * (k / 4) -> cols u <> [] ->
  (forall t i v, 0 <= t < k -> In (i, v) (cols t) -> 0 <= i < rows) ->
  exists cols' r, (forall t, map fst (cols' t) = map fst (cols t)) /\ 0 <= r < rows /\
    forall s, sparse_used Zs cols' kind (fun _ _ => 1) r s k 0 = 0 /\
              sparse_dot Zs cols' kind (fun _ _ => 1) r s (zrange 0 k) 0 = 1.
Proof.
  intros Hk Hg Hge Hu Hue Hr. pose proof (widen_short Zs cols k Hk g u Hg Hge Hu Hue) as Hlt.
  change (length (column_of_nonzero cols k) < length (nonzeros cols k))%nat in Hlt.
  destruct (last_nonzero Zs cols k Hk) as (tl & l & e & Ht & El & Hl).
  { intros E. change (nonzeros cols k = []) in E. rewrite E in Hlt. cbn in Hlt. lia. }
  destruct (only_last_nonzeros cols k tl l e Ht El Hl) as (z & Ez & Ez').
  exists (only_last cols tl), (fst e). split; [intros; apply only_last_rows|]. split.
  { destruct e as [i v]. apply (Hr tl i v Ht). rewrite El. apply in_or_app. right. now left. }
  intros s. split.
  - change (fold_left (fun (acc : Z) (te : Z * (Z * Z)) => if fst (snd te) =? fst e then snd (snd te) * 1 + acc else acc)
      (combine (column_of_nonzero (only_last cols tl) k) (nonzeros (only_last cols tl) k)) 0 = 0). rewrite (columns_used_ext _ cols) by apply only_last_length.
    apply (fold_zero kind (fun _ _ => 1) (fst e) s). intros te Hin. rewrite combine_firstn', Ez' in Hin. rewrite firstn_app in Hin.
    rewrite Ez, app_length in Hlt. cbn in Hlt.
    rewrite map_length in Hin. replace (length (column_of_nonzero cols k) - length z)%nat with O in Hin by lia.
    rewrite firstn_O, app_nil_r in Hin.
    destruct te as [t e']. apply in_combine_r in Hin. rewrite firstn_map in Hin. apply in_map_iff in Hin.
    destruct Hin as (x & <- & _). reflexivity.
  - rewrite sparse_dot_ones. change (flat_map (only_last cols tl) (zrange 0 k)) with (nonzeros (only_last cols tl) k).
    rewrite Ez', fold_left_app, fold_zero'. cbn [fold_left fst snd]. now rewrite Z.eqb_refl.
Qed.

(** Other contents of the three objects *)
Lemma buf_eq_dec (x y : buf) : {x = y} + {x <> y}.
Proof. repeat decide equality. Defined.

Definition refill (m : mem Z) (a b c : buf) (ao : Z) (vals : list (Z * Z)) : mem Z :=
  Mem (live m) (fun x i =>
    if buf_eq_dec x a then match nth_error vals (Z.to_nat (i - ao)) with Some e => Some (snd e) | None => dat m x i end
    else if buf_eq_dec x b then Some 1 else if buf_eq_dec x c then Some 0 else dat m x i).

Lemma sparse_skipped al kmr knr (a b c : buf) ao bo co mm n k nnz k_inds loc_m (cols : Z -> list (Z * Z)) kind B C m g u :
  a <> b -> a <> c -> b <> c -> 0 < al -> 0 < kmr -> 0 < knr -> 0 <= k ->
  compressed m a ao nnz k_inds loc_m kmr k cols kind ->
  (forall t s, 0 <= t < k -> 0 <= s < knr -> cell m b (bo + n * kind t + s) (B (kind t) s)) ->
  al = 1 \/ bo mod al = 0 /\ n mod al = 0 /\ (exists bi, live m b = Some bi /\ b64 bi = true) ->
  row_stored m c co knr kmr knr C ->
  0 <= g < k / 4 -> cols (4 * g) = [] -> 4 * g <= u < 4 * (k / 4) -> cols u <> [] ->
  exists m' cols' B' C' r,
    live m' = live m /\ (forall x i, x <> a -> x <> b -> x <> c -> dat m' x i = dat m x i) /\
    (forall t, map fst (cols' t) = map fst (cols t)) /\
    compressed m' a ao nnz k_inds loc_m kmr k cols' kind /\
    (forall t s, 0 <= t < k -> 0 <= s < knr -> cell m' b (bo + n * kind t + s) (B' (kind t) s)) /\
    row_stored m' c co knr kmr knr C' /\ 0 <= r < kmr /\
    always (ppar_for 0 1 1 (fun _ => sp_kernel Zs al kmr knr (a, ao) (b, bo) (c, co) mm n k nnz k_inds loc_m)) m'
      (fun _ m'' => forall s, 0 <= s < knr ->
         dat m'' c (co + r * knr + s) <> Some (sparse_dot Zs cols' kind B' r s (zrange 0 k) (C' r s))).
Proof.
  intros Dab Dac Dbc Hal Hkm Hkn Hk HA HB Ha HC Hg Hge Hu Hue.
  destruct (used_wrong cols k g u kind kmr Hk Hg Hge Hu Hue (cp_row _ _ _ _ _ _ _ _ _ _ HA)) as (cols' & r & Hrows & Hr & Hw).
  set (m' := refill m a b c ao (nonzeros cols' k)).
  assert (Hlen : forall t, length (cols' t) = length (cols t)) by (intros t; rewrite <- (map_length fst), Hrows; apply map_length).
  assert (Hnz : map fst (nonzeros cols' k) = map fst (nonzeros cols k)).
  { unfold nonzeros. rewrite <- !flat_map_map. apply flat_ext. auto. }
  assert (HA' : compressed m' a ao nnz k_inds loc_m kmr k cols' kind).
  { destruct HA as [A1 A2 A3 A4]. split.
    - intros t Ht. rewrite Hlen. auto.
    - exact A2.
    - intros q i v E. assert (E' : nth_error (map fst (nonzeros cols k)) q = Some i) by (rewrite <- Hnz; apply (map_nth_error fst q _ E)).
      rewrite nth_error_map in E'. destruct (nth_error (nonzeros cols k) q) as [[i' v']|] eqn:E2; [|discriminate].
      cbn in E'. injection E' as ->. destruct (A3 q i v' E2) as (L & ba & La & A0 & _). split; [exact L|]. exists ba. split; [exact La|].
      split; [exact A0|]. cbn [dat m' refill]. destruct (buf_eq_dec a a); [|congruence].
      replace (Z.to_nat (ao + Z.of_nat q - ao)) with q by lia.
      match goal with |- context [@nth_error ?A ?x q] => assert (E3 : @nth_error A x q = Some (i, v)) by exact E; rewrite E3 end. reflexivity.
    - intros t i v Ht Hi. apply (in_map fst) in Hi. rewrite Hrows in Hi. apply in_map_iff in Hi. destruct Hi as ([i' v'] & Ei & Hi).
      cbn in Ei. subst i'. exact (A4 t i v' Ht Hi). }
  assert (HB' : forall t s, 0 <= t < k -> 0 <= s < knr -> cell m' b (bo + n * kind t + s) 1).
  { intros t s Ht Hs. destruct (HB t s Ht Hs) as (bi & L & B0 & _). exists bi. split; [exact L|]. split; [exact B0|].
    cbn [dat m' refill]. destruct (buf_eq_dec b a); [congruence|]. destruct (buf_eq_dec b b); congruence. }
  assert (HC' : row_stored m' c co knr kmr knr (fun _ _ => 0)).
  { intros i j Hi Hj. destruct (HC i j Hi Hj) as (bi & L & B0 & _). exists bi. split; [exact L|]. split; [exact B0|].
    cbn [dat m' refill]. destruct (buf_eq_dec c a); [congruence|]. destruct (buf_eq_dec c b); [congruence|]. destruct (buf_eq_dec c c); congruence. }
  exists m', cols', (fun _ _ => 1), (fun _ _ => 0), r. split; [reflexivity|]. split.
  { intros x i X1 X2 X3. cbn [dat m' refill]. destruct (buf_eq_dec x a); [congruence|]. destruct (buf_eq_dec x b); [congruence|].
    destruct (buf_eq_dec x c); congruence. }
  split; [exact Hrows|]. split; [exact HA'|]. split; [exact HB'|]. split; [exact HC'|]. split; [exact Hr|].
  destruct (sparse_any Zs al kmr knr a b c ao bo co mm n k nnz k_inds loc_m cols' kind (fun _ _ => 1) (fun _ _ => 0) m'
              Hal Hkm Hkn Hk HA' HB' Ha HC') as (Hc1 & Hc2).
  split; [exact Hc1|]. intros o Ho. destruct (Hc2 o Ho) as (v & m2 & -> & Hd & _). exists v, m2. split; [reflexivity|].
  intros s Hs. rewrite (Hd r s Hr Hs). destruct (Hw s) as (-> & ->). discriminate.
Qed.
