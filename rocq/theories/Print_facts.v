(** * Facts about the printing functions. *)

From Coq Require Import ZArith List Bool Ascii String Lia.
From Verif Require Import Lang Spec SpecSmall SpecConv SpecPrint ModelSizing ModelKernel ModelPrint Kernel_facts.
Import ListNotations.
Open Scope string_scope.
Open Scope list_scope.
Open Scope Z_scope.

Section Facts.

Context {V : Type}.
Implicit Types (m : mem V).

Lemma elem_cell m b o i v : cell m b (o + i) v -> elem m (b, o) i = CRet v.
Proof.
  intros (bi & Hl & Hi & Hd). unfold elem. cbn [fst snd]. rewrite Hl, Hd.
  replace (0 <=? o + i) with true by (symmetry; apply Z.leb_le; lia).
  replace (o + i <? blen bi) with true by (symmetry; apply Z.ltb_lt; lia). reflexivity.
Qed.

Lemma elem_not m b o i : unreadable m b (o + i) -> elem m (b, o) i = CUB.
Proof.
  intros H. unfold elem. cbn [fst snd]. destruct (live m b) as [bi|] eqn:El; [|reflexivity].
  destruct (Z.leb_spec 0 (o + i)); [|reflexivity]. destruct (Z.ltb_spec (o + i) (blen bi)); [|reflexivity]. cbn [andb].
  destruct (dat m b (o + i)) as [v|] eqn:Ed; [|reflexivity]. exfalso. apply (H v). exists bi. auto.
Qed.

Lemma elem_exit m p i : elem m p i <> CExit.
Proof. unfold elem. destruct (live _ _); [|discriminate]. destruct (_ && _); [|discriminate]. destruct (dat _ _ _); discriminate. Qed.

(** ** loops *)

Lemma out_iter_ok (body : Z -> comp (list (piece V))) g : forall n i,
  (forall j, i <= j < i + Z.of_nat n -> body j = CRet (g j)) -> out_iter n i body = CRet (flat_map g (zseq n i 1)).
Proof.
  induction n as [|n IH]; intros i H; [reflexivity|]. cbn [out_iter]. rewrite H by lia. cbn [cbind].
  rewrite IH by (intros j Hj; apply H; lia). reflexivity.
Qed.

Lemma out_for_ok n (body : Z -> comp (list (piece V))) g :
  (forall j, 0 <= j < n -> body j = CRet (g j)) -> out_for n body = CRet (flat_map g (zrange 0 n)).
Proof. intros H. unfold out_for, zrange. apply out_iter_ok. intros j Hj. apply H. lia. Qed.

Lemma bind_exit {A B} (c : comp A) (f : A -> comp B) : c <> CExit -> (forall a, f a <> CExit) -> cbind c f <> CExit.
Proof. intros H Hf. destruct c; cbn; auto. discriminate. Qed.

Lemma out_iter_exit (body : Z -> comp (list (piece V))) : (forall j, body j <> CExit) ->
  forall n i, out_iter n i body <> CExit.
Proof.
  intros H. induction n as [|n IH]; intros i; [discriminate|]. cbn [out_iter]. apply bind_exit; [apply H|]. intros a.
  apply bind_exit; [apply IH|discriminate].
Qed.

Lemma out_for_exit n (body : Z -> comp (list (piece V))) : (forall j, body j <> CExit) -> out_for n body <> CExit.
Proof. intros H. now apply out_iter_exit. Qed.

Lemma out_iter_ub (body : Z -> comp (list (piece V))) : (forall j, body j <> CExit) ->
  forall n i j, i <= j < i + Z.of_nat n -> body j = CUB -> out_iter n i body = CUB.
Proof.
  intros H. induction n as [|n IH]; intros i j Hj E; [lia|]. cbn [out_iter].
  destruct (body i) as [a| |] eqn:Ei; cbn [cbind]; [|reflexivity|now contradiction (H i)].
  destruct (Z.eq_dec i j) as [->|Hn]; [congruence|]. now rewrite (IH (i + 1) j) by (auto; lia).
Qed.

Lemma out_for_ub n (body : Z -> comp (list (piece V))) j : (forall j, body j <> CExit) ->
  0 <= j < n -> body j = CUB -> out_for n body = CUB.
Proof. intros H Hj. unfold out_for. apply out_iter_ub; auto. lia. Qed.

(** ** the functions *)

Lemma array_prints m b o len (f : Z -> V) : (forall i, 0 <= i < len -> cell m b (o + i) (f i)) ->
  print_array m (b, o) len = CRet (row_text " " len f ++ [Say nl2]).
Proof.
  intros H. unfold print_array. rewrite (out_for_ok _ _ (fun j => [Show (f j); Say " "])); [reflexivity|].
  intros j Hj. now rewrite (elem_cell _ _ _ _ _ (H j Hj)).
Qed.

Lemma array_undefined m b o len i : 0 <= i < len -> unreadable m b (o + i) -> print_array m (b, o) len = CUB.
Proof.
  intros Hi H. unfold print_array. rewrite (out_for_ub _ _ i); [reflexivity| |exact Hi|now rewrite (elem_not _ _ _ _ H)].
  intros j. apply bind_exit; [apply elem_exit|discriminate].
Qed.

Lemma mat_prints m b o r c (f : Z -> Z -> V) : (forall i j, 0 <= i < r -> 0 <= j < c -> cell m b (o + (i * c + j)) (f i j)) ->
  print_mat m (b, o) r c = CRet (lines_text r c f ++ [Say nl2]).
Proof.
  intros H. unfold print_mat. rewrite (out_for_ok _ _ (fun i => row_text " " c (f i) ++ [Say nl])); [reflexivity|].
  intros i Hi. rewrite (out_for_ok _ _ (fun j => [Show (f i j); Say " "])); [reflexivity|].
  intros j Hj. now rewrite (elem_cell _ _ _ _ _ (H i j Hi Hj)).
Qed.

Lemma mat_undefined m b o r c i : 0 < r -> 0 < c -> 0 <= i < r * c -> unreadable m b (o + i) ->
  print_mat m (b, o) r c = CUB.
Proof.
  intros Hr Hc Hi H. unfold print_mat.
  assert (E : forall i j, (do v <- elem m (b, o) (i * c + j); CRet [Show v; Say " "]) <> CExit).
  { intros. apply bind_exit; [apply elem_exit|discriminate]. }
  pose proof (Z.mod_pos_bound i c Hc). pose proof (Z.div_mod i c ltac:(lia)) as D.
  rewrite (out_for_ub _ _ (i / c)); [reflexivity| | |].
  - intros i'. apply bind_exit; [|discriminate]. apply out_for_exit. apply E.
  - split; [apply Z.div_pos; lia|]. apply Z.div_lt_upper_bound; lia.
  - rewrite (out_for_ub _ _ (i mod c)); [reflexivity|apply E|assumption|].
    replace (i / c * c + i mod c) with i by lia. now rewrite (elem_not _ _ _ _ H).
Qed.

Lemma map_prints m b n H W (f : Z -> Z -> Z -> V) : planes_stored m b n H W f ->
  print_feature_map m (b, 0) W H n = CRet (map_text n H W f).
Proof.
  intros Hs. unfold print_feature_map.
  rewrite (out_for_ok _ _ (fun c => [Say "channel "; Num c; Say nl] ++ lines_text H W (f c))); [reflexivity|].
  intros c Hc. rewrite (out_for_ok _ _ (fun i => row_text " " W (f c i) ++ [Say nl])); [reflexivity|].
  intros y Hy. rewrite (out_for_ok _ _ (fun j => [Show (f c y j); Say " "])); [reflexivity|].
  intros x Hx. rewrite (elem_cell m b 0 _ (f c y x)); [reflexivity|].
  replace (0 + (c * W * H + y * W + x)) with ((c * H + y) * W + x) by ring. now apply Hs.
Qed.

(** The element printed for row h, column w of plane c *)
Definition printed_at (Cin H W : Z) (F : Z -> Z -> Z -> Z -> V) (o c h w : Z) : V :=
  let q := (h * W + w) * Cin + c in F o (q / (H * W)) (q mod (H * W) / W) (q mod W).

Lemma filters_print m b n Cin H W (F : Z -> Z -> Z -> Z -> V) : filters_at m b n Cin H W F ->
  print_filters m (b, 0) W H Cin n = CRet (filters_text n Cin H W (printed_at Cin H W F)).
Proof.
  intros Hs. unfold print_filters. apply out_for_ok. intros o Ho.
  rewrite (out_for_ok _ _ (fun c =>
      [Say "channel "; Num c; Say nl] ++ flat_map (fun h => row_text ", " W (printed_at Cin H W F o c h)) (zrange 0 H) ++ [Say nl2]));
    [reflexivity|].
  intros c Hc. rewrite (out_for_ok _ _ (fun h => row_text ", " W (printed_at Cin H W F o c h))); [reflexivity|].
  intros h Hh. apply (out_for_ok _ _ (fun w => [Show (printed_at Cin H W F o c h w); Say ", "])).
  intros w Hw. rewrite (elem_cell m b 0 _ (printed_at Cin H W F o c h w)); [reflexivity|].
  unfold printed_at. set (q := (h * W + w) * Cin + c).
  assert (Hq : 0 <= q < Cin * (H * W)). { unfold q. assert (0 <= h * W + w < H * W) by nia. nia. }
  assert (HW : 0 < H * W) by nia.
  pose proof (Z.div_mod q (H * W) ltac:(lia)) as D1. pose proof (Z.mod_pos_bound q (H * W) HW) as B1.
  pose proof (Z.div_mod (q mod (H * W)) W ltac:(lia)) as D2.
  assert (E : (q mod (H * W)) mod W = q mod W).
  { transitivity ((q mod (H * W) + H * (q / (H * W)) * W) mod W); [|f_equal; lia]. symmetry. apply Z.mod_add. lia. }
  rewrite E in D2. pose proof (Z.mod_pos_bound q W ltac:(lia)) as B2.
  replace (0 + (o * Cin * W * H + (w + h * W) * Cin + c))
    with (((o * Cin + q / (H * W)) * H + q mod (H * W) / W) * W + q mod W).
  2:{ transitivity (o * Cin * W * H + q); [|unfold q; ring].
      transitivity (o * Cin * W * H + (H * W * (q / (H * W)) + (W * (q mod (H * W) / W) + q mod W))); [ring|lia]. }
  apply Hs; [exact Ho| | |lia].
  - split; [apply Z.div_pos; lia|apply Z.div_lt_upper_bound; lia].
  - split; [apply Z.div_pos; lia|apply Z.div_lt_upper_bound; lia].
Qed.

Lemma app_len_inj {A} (a b c d : list A) : List.length a = List.length c -> (a ++ b)%list = (c ++ d)%list -> a = c /\ b = d.
Proof.
  revert c; induction a as [|x a IH]; intros [|y c] H E; try discriminate H; [now split|].
  cbn in E. injection E as -> E. destruct (IH c) as (-> & ->); auto.
Qed.

Lemma flat_map_len {A B} (f g : A -> list B) l : (forall x, List.length (f x) = List.length (g x)) -> List.length (flat_map f l) = List.length (flat_map g l).
Proof. intros H. induction l as [|x l IH]; [reflexivity|]. cbn. rewrite !app_length, H. now rewrite IH. Qed.

Lemma flat_map_inj {A B} (f g : A -> list B) l : (forall x, List.length (f x) = List.length (g x)) ->
  flat_map f l = flat_map g l -> forall x, In x l -> f x = g x.
Proof.
  intros H. induction l as [|y l IH]; intros E x Hx; [contradiction|]. cbn in E.
  apply app_len_inj in E; [|apply H]. destruct Hx as [<-|Hx]; [tauto|apply IH; tauto].
Qed.

Lemma flat_map_same {A B} (f g : A -> list B) l : (forall x, In x l -> f x = g x) -> flat_map f l = flat_map g l.
Proof.
  induction l as [|x l IH]; intros H; [reflexivity|]. cbn. rewrite (H x) by now left. rewrite IH; auto. intros y Hy. apply H. now right.
Qed.

Lemma in_range0 n x : 0 <= x < n -> In x (zrange 0 n).
Proof. rewrite in_zrange. lia. Qed.

Lemma filters_text_inj n Cin H W (F G : Z -> Z -> Z -> Z -> V) : filters_text n Cin H W F = filters_text n Cin H W G <->
  forall o c h w, 0 <= o < n -> 0 <= c < Cin -> 0 <= h < H -> 0 <= w < W -> F o c h w = G o c h w.
Proof.
  unfold filters_text, row_text. split.
  - intros E o c h w Ho Hc Hh Hw.
    assert (L3 : forall o c h, List.length (flat_map (fun j => [Show (F o c h j); Say ", "]) (zrange 0 W)) =
                               List.length (flat_map (fun j => [Show (G o c h j); Say ", "]) (zrange 0 W))).
    { intros. now apply flat_map_len. }
    assert (L2 : forall o c, List.length (flat_map (fun h => flat_map (fun j => [Show (F o c h j); Say ", "]) (zrange 0 W)) (zrange 0 H)) =
                             List.length (flat_map (fun h => flat_map (fun j => [Show (G o c h j); Say ", "]) (zrange 0 W)) (zrange 0 H))).
    { intros. apply flat_map_len. intros. apply L3. }
    eapply flat_map_inj in E; [| |apply (in_range0 _ _ Ho)].
    2:{ intros o'. rewrite !app_length. do 2 f_equal. apply flat_map_len. intros c'. rewrite !app_length. do 2 f_equal. apply L2. }
    cbn beta in E. apply app_inv_head, app_inv_tail in E.
    eapply flat_map_inj in E; [| |apply (in_range0 _ _ Hc)].
    2:{ intros c'. rewrite !app_length. do 2 f_equal. apply L2. }
    cbn beta in E. apply app_inv_head, app_inv_tail in E.
    eapply flat_map_inj in E; [|intros; apply L3|apply (in_range0 _ _ Hh)].
    eapply flat_map_inj in E; [|reflexivity|apply (in_range0 _ _ Hw)]. cbn beta in E. congruence.
  - intros E. apply flat_map_same. intros o Ho. rewrite in_zrange in Ho. f_equal. f_equal. apply flat_map_same.
    intros c Hc. rewrite in_zrange in Hc. f_equal. f_equal. apply flat_map_same. intros h Hh. rewrite in_zrange in Hh.
    apply flat_map_same. intros w Hw. rewrite in_zrange in Hw. rewrite E; [reflexivity|lia..].
Qed.

Lemma filters_right_iff m b n Cin H W (F : Z -> Z -> Z -> Z -> V) : filters_at m b n Cin H W F ->
  print_filters m (b, 0) W H Cin n = CRet (filters_text n Cin H W F) <->
  forall o c h w, 0 <= o < n -> 0 <= c < Cin -> 0 <= h < H -> 0 <= w < W ->
    let q := (h * W + w) * Cin + c in F o (q / (H * W)) (q mod (H * W) / W) (q mod W) = F o c h w.
Proof.
  intros Hs. rewrite (filters_print _ _ _ _ _ _ _ Hs).
  pose proof (filters_text_inj n Cin H W (printed_at Cin H W F) F) as I. split.
  - intros E. injection E as E. exact (proj1 I E).
  - intros E. apply f_equal. exact (proj2 I E).
Qed.

Lemma filters_right m b n Cin H W (F : Z -> Z -> Z -> Z -> V) : filters_at m b n Cin H W F -> Cin = 1 \/ H = 1 /\ W = 1 ->
  print_filters m (b, 0) W H Cin n = CRet (filters_text n Cin H W F).
Proof.
  intros Hs Hc. apply (filters_right_iff _ _ _ _ _ _ _ Hs). intros o c h w Ho Hc' Hh Hw q.
  destruct Hc as [->|(-> & ->)].
  - assert (E : q = h * W + w) by (unfold q; lia). rewrite E. assert (0 <= h * W + w < H * W) by nia.
    rewrite (Z.div_small (h * W + w)), (Z.mod_small (h * W + w) (H * W)) by lia.
    rewrite Z.div_add_l, (Z.div_small w), (Z.add_comm (h * W) w), Z.mod_add, (Z.mod_small w W) by lia. f_equal; lia.
  - assert (h = 0) as -> by lia. assert (w = 0) as -> by lia. assert (E : q = c) by (unfold q; ring). rewrite E.
    change (1 * 1) with 1. now rewrite Z.div_1_r, Z.mod_1_r.
Qed.

(** With more, filters whose elements are all different are printed wrongly. *)
Lemma filters_wrong m b n Cin H W (F : Z -> Z -> Z -> Z -> V) : filters_at m b n Cin H W F ->
  0 < n -> 1 < Cin -> 0 < H -> 0 < W -> 1 < H * W ->
  (forall c h w c' h' w', 0 <= c < Cin -> 0 <= h < H -> 0 <= w < W -> 0 <= c' < Cin -> 0 <= h' < H -> 0 <= w' < W ->
    F 0 c h w = F 0 c' h' w' -> c = c' /\ h = h' /\ w = w') ->
  exists t, print_filters m (b, 0) W H Cin n = CRet t /\ t <> filters_text n Cin H W F.
Proof.
  intros Hs Hn Hc HH HW HHW Hi. eexists. split; [exact (filters_print _ _ _ _ _ _ _ Hs)|].
  intros E. pose proof (proj1 (filters_text_inj _ _ _ _ _ _) E 0) as G. unfold printed_at in G. cbv zeta in G.
  (* the first element printed for the second channel is the one at place 1, of the first channel *)
  specialize (G 1 0 0 ltac:(lia) ltac:(lia) ltac:(lia) ltac:(lia)).
  replace ((0 * W + 0) * Cin + 1) with 1 in G by ring.
  rewrite (Z.div_small 1), (Z.mod_small 1 (H * W)) in G by lia.
  apply Hi in G; try lia.
  - split; [apply Z.div_pos; lia|]. apply Z.div_lt_upper_bound; lia.
  - apply Z.mod_pos_bound. lia.
Qed.

Lemma map_undefined m b n H W c y x : 0 <= c < n -> 0 <= y < H -> 0 <= x < W ->
  unreadable m b ((c * H + y) * W + x) -> print_feature_map m (b, 0) W H n = CUB.
Proof.
  intros Hc Hy Hx Hu. unfold print_feature_map.
  assert (E : forall i, (do v <- elem m (b, 0) i; CRet [Show v; Say " "]) <> CExit).
  { intros. apply bind_exit; [apply elem_exit|discriminate]. }
  rewrite (out_for_ub _ _ c); [reflexivity| |exact Hc|].
  - intros c'. apply bind_exit; [|discriminate]. apply out_for_exit. intros y'. apply bind_exit; [|discriminate].
    apply out_for_exit. intros. apply E.
  - rewrite (out_for_ub _ _ y); [reflexivity| |exact Hy|].
    + intros y'. apply bind_exit; [|discriminate]. apply out_for_exit. intros. apply E.
    + rewrite (out_for_ub _ _ x); [reflexivity|intros; apply E|exact Hx|].
      rewrite elem_not; [reflexivity|]. replace (0 + (c * W * H + y * W + x)) with ((c * H + y) * W + x) by ring. exact Hu.
Qed.

Lemma filters_undefined m b n Cin H W o c h w : 0 <= o < n -> 0 <= c < Cin -> 0 <= h < H -> 0 <= w < W ->
  unreadable m b (((o * Cin + c) * H + h) * W + w) -> print_filters m (b, 0) W H Cin n = CUB.
Proof.
  intros Ho Hc Hh Hw Hu. unfold print_filters.
  assert (E : forall i, (do v <- elem m (b, 0) i; CRet [Show v; Say ", "]) <> CExit).
  { intros. apply bind_exit; [apply elem_exit|discriminate]. }
  set (r := (c * H + h) * W + w). set (q := r / Cin).
  assert (Hr : 0 <= r < H * W * Cin). { unfold r. assert (0 <= c * H + h < Cin * H) by nia. nia. }
  pose proof (Z.div_mod r Cin ltac:(lia)) as D1. pose proof (Z.mod_pos_bound r Cin ltac:(lia)) as B1.
  assert (Hq : 0 <= q < H * W). { split; [apply Z.div_pos; lia|apply Z.div_lt_upper_bound; lia]. }
  pose proof (Z.div_mod q W ltac:(lia)) as D2. pose proof (Z.mod_pos_bound q W ltac:(lia)) as B2.
  rewrite (out_for_ub _ _ o); [reflexivity| |exact Ho|].
  { intros o'. apply bind_exit; [|discriminate]. apply out_for_exit. intros c'. apply bind_exit; [|discriminate].
    apply out_for_exit. intros h'. apply out_for_exit. intros. apply E. }
  rewrite (out_for_ub _ _ (r mod Cin)); [reflexivity| |exact B1|].
  { intros c'. apply bind_exit; [|discriminate]. apply out_for_exit. intros h'. apply out_for_exit. intros. apply E. }
  rewrite (out_for_ub _ _ (q / W)); [reflexivity| | |].
  { intros h'. apply out_for_exit. intros. apply E. }
  { split; [apply Z.div_pos; lia|apply Z.div_lt_upper_bound; lia]. }
  apply (out_for_ub _ _ (q mod W)); [intros; apply E|exact B2|].
  rewrite elem_not; [reflexivity|].
  replace (0 + (o * Cin * W * H + (q mod W + q / W * W) * Cin + r mod Cin)) with (((o * Cin + c) * H + h) * W + w); [exact Hu|].
  replace (q mod W + q / W * W) with q by lia. fold q in D1. transitivity (o * Cin * W * H + r); [unfold r; ring|lia].
Qed.

End Facts.
