(** * Lemmas about the query of the hardware. *)

From Coq Require Import ZArith List Bool Ascii String DecimalString DecimalNat Decimal Lia.
From Verif Require Import ModelSizing ModelQuery SpecQuery.
Import ListNotations.
Open Scope string_scope.
Open Scope Z_scope.

(** ** Strings *)

Lemma app_nil_s (s : string) : s ++ "" = s.
Proof. induction s; cbn; congruence. Qed.

Lemma app_assoc_s (a b c : string) : (a ++ b) ++ c = a ++ b ++ c.
Proof. induction a; cbn; congruence. Qed.

Lemma length_app (a b : string) : String.length (a ++ b) = (String.length a + String.length b)%nat.
Proof. induction a; cbn; congruence. Qed.

Lemma every_app P a b : every P (a ++ b) <-> every P a /\ every P b.
Proof. induction a; cbn; tauto. Qed.

Lemma every_imp (P Q : ascii -> Prop) s : (forall c, P c -> Q c) -> every P s -> every Q s.
Proof. intros H; induction s; cbn; firstorder. Qed.

Lemma is_digit_spec c : is_digit c = true <-> a_digit c.
Proof.
  split.
  - unfold a_digit. destruct c as [[] [] [] [] [] [] [] []]; vm_compute; intros H; try discriminate H; auto 12.
  - intros H. cbn in H. decompose [or] H; subst; try reflexivity; contradiction.
Qed.

Lemma not_digit_spec c : is_digit c = false <-> ~ a_digit c.
Proof. rewrite <- is_digit_spec. destruct (is_digit c); intuition congruence. Qed.

(** ** grep *)

Lemma prefix_spec w s : prefix w s = true <-> exists b, s = w ++ b.
Proof.
  revert s; induction w as [|c w IH]; intros s.
  - cbn. split; [exists s; reflexivity|]. now destruct s.
  - destruct s as [|c' s]; cbn.
    + split; [discriminate|intros (b & E); discriminate E].
    + destruct (ascii_dec c c') as [->|E].
      * rewrite IH. split; intros (b & E); exists b; congruence.
      * split; [discriminate|intros (b & H); congruence].
Qed.

Lemma contains_spec w s : contains w s = true <-> mentions w s.
Proof.
  unfold mentions. induction s as [|c s IH]; cbn [contains].
  - rewrite orb_true_iff, prefix_spec. split.
    + intros [(b & E)|E]; [exists "", b; exact E|discriminate E].
    + intros (a & b & E). left. destruct a; [exists b; exact E|discriminate E].
  - rewrite orb_true_iff, prefix_spec, IH. split.
    + intros [(b & E)|(a & b & E)]; [exists "", b; exact E|exists (String c a), b; cbn; congruence].
    + intros (a & b & E). destruct a as [|c' a]; [left; exists b; exact E|right; exists a, b; cbn in E; congruence].
Qed.

Lemma contains_false w s : contains w s = false <-> ~ mentions w s.
Proof. rewrite <- contains_spec. destruct (contains w s); intuition congruence. Qed.

Lemma grep_app w a b : grep w (a ++ b)%list = (grep w a ++ grep w b)%list.
Proof. apply filter_app. Qed.

Lemma grep_none w ls : Forall (fun x => ~ mentions w x) ls -> grep w ls = [].
Proof.
  induction 1 as [|x l Hx Hl IH]; [reflexivity|]. cbn. apply contains_false in Hx. rewrite Hx. exact IH.
Qed.

Lemma grep_first w ls l : first_line w ls l -> head1 (grep w ls) = [l].
Proof.
  intros (b & a & -> & Hl & Hb). rewrite grep_app, (grep_none w b Hb). cbn. apply contains_spec in Hl. now rewrite Hl.
Qed.

Lemma grep_not_first w ls : (forall l, ~ first_line w ls l) -> grep w ls = [].
Proof.
  induction ls as [|x ls IH]; [reflexivity|]. intros H. cbn.
  destruct (contains w x) eqn:E.
  - exfalso. apply (H x). exists [], ls. split; [reflexivity|]. split; [now apply contains_spec|constructor].
  - apply IH. intros l (b & a & -> & Hl & Hb). apply (H l). exists (x :: b), a. split; [reflexivity|]. split; [exact Hl|].
    constructor; [now apply contains_false|exact Hb].
Qed.

Lemma first_line_unique w ls l l' : first_line w ls l -> first_line w ls l' -> l = l'.
Proof. intros H H'. apply grep_first in H. apply grep_first in H'. congruence. Qed.

(** ** digits *)

Lemma digits_keep s d : digits_in s d -> keep_digits s = d.
Proof.
  induction 1 as [|c s d Hc _ IH|c s d Hc _ IH]; [reflexivity| |]; cbn.
  - apply is_digit_spec in Hc. rewrite Hc. congruence.
  - apply not_digit_spec in Hc. now rewrite Hc.
Qed.

Lemma digits_exist s : digits_in s (keep_digits s).
Proof.
  induction s as [|c s IH]; [constructor|]. cbn. destruct (is_digit c) eqn:E.
  - apply di_digit; [now apply is_digit_spec|exact IH].
  - apply di_other; [now apply not_digit_spec|exact IH].
Qed.

Lemma digits_every s d : digits_in s d -> every a_digit d.
Proof. induction 1; cbn; auto. Qed.

Lemma keep_app a b : keep_digits (a ++ b) = keep_digits a ++ keep_digits b.
Proof. induction a as [|c a IH]; [reflexivity|]. cbn. destruct (is_digit c); cbn; congruence. Qed.

Lemma keep_line l : keep_digits (text [l]) = keep_digits l.
Proof. cbn. rewrite keep_app. cbn. apply app_nil_s. Qed.

(** ** fgets and atoi *)

Definition no_newline : string -> Prop := every (fun c => c <> newline).

Lemma take_sub n s : no_newline s -> take_line n s = substring 0 n s.
Proof.
  revert n; induction s as [|c s IH]; intros [|n] H; try reflexivity. cbn in *. destruct H as (Hc & H).
  destruct (Ascii.eqb_spec c newline) as [E|_]; [contradiction|]. now rewrite IH.
Qed.

Lemma fgets_some r s : no_newline s -> s <> "" -> fgets16 r s = (Some (substring 0 15 s), true).
Proof.
  intros H E. unfold fgets16. destruct s as [|c s]; [congruence|]. rewrite take_sub; auto.
Qed.

Lemma digit_newline s : every a_digit s -> no_newline s.
Proof. apply every_imp. intros c H ->. cbn in H. decompose [or] H; try discriminate; contradiction. Qed.

Lemma sub_all s n : (String.length s <= n)%nat -> substring 0 n s = s.
Proof.
  revert n; induction s as [|c s IH]; intros [|n] H; try reflexivity; cbn in *; [lia|]. rewrite IH; [reflexivity|lia].
Qed.

Lemma sub_every P s n : every P s -> every P (substring 0 n s).
Proof. revert n; induction s as [|c s IH]; intros [|n] H; cbn in *; intuition. Qed.

Lemma sub_ne s n : s <> "" -> substring 0 (S n) s <> "".
Proof. destruct s; cbn; congruence. Qed.

Lemma sub_length s n : (String.length (substring 0 n s) <= n)%nat.
Proof. revert n; induction s as [|c s IH]; intros [|n]; cbn; try lia. specialize (IH n). lia. Qed.

(** s does not begin with a digit *)
Definition stops (s : string) : Prop := match s with EmptyString => True | String c _ => ~ a_digit c end.

Lemma dec_value d r acc : every a_digit d -> stops r ->
  dec_loop acc (d ++ r) = acc * 10 ^ Z.of_nat (String.length d) + value d.
Proof.
  revert acc; induction d as [|c d IH]; intros acc H Hr.
  - cbn [append String.length value]. change (10 ^ Z.of_nat 0) with 1.
    destruct r as [|c r]; cbn; [lia|]. apply not_digit_spec in Hr. rewrite Hr. lia.
  - cbn [append dec_loop]. destruct H as (Hc & H). apply is_digit_spec in Hc. rewrite Hc, IH by assumption.
    cbn [String.length value]. rewrite Nat2Z.inj_succ, Z.pow_succ_r by lia. unfold digit.
    change (Z.of_nat (nat_of_ascii "0")) with 48. ring.
Qed.

Lemma value_nonneg d : every a_digit d -> 0 <= value d.
Proof.
  induction d as [|c d IH]; cbn [value every]; [lia|]. intros (Hc & H). specialize (IH H).
  apply is_digit_spec in Hc. unfold is_digit in Hc. apply andb_prop in Hc. destruct Hc as (H1 & _). apply Z.leb_le in H1.
  change (Z.of_nat (nat_of_ascii "0")) with 48.
  pose proof (Z.pow_nonneg 10 (Z.of_nat (String.length d)) ltac:(lia)). nia.
Qed.

Lemma atoi_number d r : number d -> stops r -> atoi (Some (d ++ r)) = to_int (value d).
Proof.
  intros (Hn & Hd) Hr. pose proof (dec_value d r 0 Hd Hr) as E. rewrite Z.mul_0_l, Z.add_0_l in E.
  unfold atoi. destruct d as [|c d]; [congruence|]. destruct Hd as (Hc & _).
  cbn [append] in *.
  assert (Es : is_space c = false).
  { cbn in Hc. decompose [or] Hc; subst; try reflexivity; contradiction. }
  cbn [skip_space]. rewrite Es.
  replace (match String c (d ++ r) with String "-" s' => to_int (- dec_loop 0 s') | String "+" s' => to_int (dec_loop 0 s')
           | s' => to_int (dec_loop 0 s') end) with (to_int (dec_loop 0 (String c (d ++ r)))).
  - now rewrite E.
  - cbn in Hc. decompose [or] Hc; subst; try reflexivity; contradiction.
Qed.

Lemma atoi_all d : number d -> atoi (Some d) = to_int (value d).
Proof. intros H. rewrite <- (app_nil_s d) at 1. apply atoi_number; [exact H|exact I]. Qed.

(** ** the sizes on a line *)

Definition plain (c : ascii) : Prop := ~ In c ["K"; "M"; "-"]%char.

Lemma span_digits a r : every a_digit a -> stops r -> span is_digit (a ++ r) = (a, r).
Proof.
  induction a as [|c a IH]; intros H Hr.
  - destruct r as [|c r]; [reflexivity|]. cbn in *. apply not_digit_spec in Hr. now rewrite Hr.
  - cbn in *. destruct H as (Hc & H). apply is_digit_spec in Hc. rewrite Hc, IH by assumption. reflexivity.
Qed.

(** the run of digits at the start of a string that ends with another character *)
Lemma span_inside pre r : every plain pre -> (exists a c, pre = a ++ String c "" /\ ~ a_digit c) ->
  exists d c t, span is_digit (pre ++ r) = (d, String c t) /\ plain c.
Proof.
  induction pre as [|c pre IH]; intros Hp (a & x & E & Hx); [destruct a; discriminate E|].
  cbn [append span]. destruct Hp as (Hc & Hp). destruct (is_digit c) eqn:Ed; [|exists "", c, (pre ++ r); auto].
  destruct a as [|c' a].
  - cbn in E. injection E as -> ->. apply is_digit_spec in Ed. contradiction.
  - cbn in E. injection E as -> ->. destruct (IH Hp) as (d & c & t & E & Hq); [eauto|].
    rewrite E. eauto.
Qed.

Lemma plain_neq c : plain c -> (c =? "M")%char = false /\ (c =? "K")%char = false /\ c <> "-"%char.
Proof.
  intros H. repeat split; [destruct (Ascii.eqb_spec c "M")|destruct (Ascii.eqb_spec c "K")|]; try reflexivity;
    [subst..|intros ->]; exfalso; apply H; cbn; auto.
Qed.

Lemma no_minus_none (s : string) (k : string -> option (string * string)) :
  match s with String _ (String c _) => c <> "-"%char | _ => True end ->
  match s with String "0" (String "-" t) => k t | _ => None end = None.
Proof.
  intros H. destruct s as [|c0 [|c1 s]]; [reflexivity|destruct c0 as [[] [] [] [] [] [] [] []]; reflexivity|].
  assert (G : match String c1 s with String "-" t => k t | _ => None end = None).
  { destruct c1 as [[] [] [] [] [] [] [] []]; try reflexivity. exfalso. now apply H. }
  destruct c0 as [[] [] [] [] [] [] [] []]; first [reflexivity|exact G].
Qed.

Lemma match_none_gen s : (match snd (span is_digit s) with String c _ => plain c | "" => True end) ->
  match s with String _ (String c _) => c <> "-"%char | _ => True end -> match_here s = None.
Proof.
  intros H1 H2. unfold match_here. destruct (span is_digit s) as (d, r). cbn [snd] in H1.
  destruct r as [|c r]; [reflexivity|]. destruct (plain_neq c H1) as (-> & -> & _). cbn [orb].
  apply no_minus_none. exact H2.
Qed.

Lemma second_plain pre r c0 : every plain pre -> pre <> "" ->
  match String c0 (pre ++ r) with String _ (String c _) => c <> "-"%char | _ => True end.
Proof. destruct pre as [|c pre]; [congruence|]. intros (H & _) _. cbn. now apply plain_neq. Qed.


(** the last match *)
Lemma match_size d u : number d -> match_here (d ++ letter u) = Some (d ++ letter u, "").
Proof.
  intros (_ & Hd). unfold match_here. rewrite span_digits; [|exact Hd|destruct u; cbn; intuition discriminate].
  destruct u; reflexivity.
Qed.

Lemma matches_row pre d u n : every plain pre -> (exists a c, pre = a ++ String c "" /\ ~ a_digit c) -> number d ->
  (String.length (pre ++ d ++ letter u) <= n)%nat -> matches n (pre ++ d ++ letter u) = [d ++ letter u].
Proof.
  intros Hp Hl Hd. assert (Hl' : pre = "" \/ exists a c, pre = a ++ String c "" /\ ~ a_digit c) by auto. clear Hl.
  revert n; induction pre as [|c pre IH]; intros n Hn.
  - cbn [append] in *. destruct (d ++ letter u) as [|x s] eqn:E; [destruct d; destruct u; discriminate E|].
    destruct n as [|n]; [cbn in Hn; lia|]. cbn [matches]. rewrite <- E, (match_size d u Hd). f_equal. now destruct n.
  - destruct n as [|n]; [cbn in Hn; lia|]. cbn [append matches].
    destruct Hl' as [Hl|Hl]; [discriminate Hl|].
    assert (M : match_here (String c (pre ++ d ++ letter u)) = None).
    { apply match_none_gen.
      - destruct (span_inside (String c pre) (d ++ letter u) Hp Hl) as (d' & x & t & E & Hx).
        cbn [append] in E. rewrite E. exact Hx.
      - destruct pre as [|c' pre].
        + destruct d as [|w d]; [destruct Hd; congruence|]. cbn. destruct Hd as (_ & Hw & _).
          intros ->. cbn in Hw. decompose [or] Hw; try discriminate; contradiction.
        + apply (second_plain (String c' pre) _ c); [exact (proj2 Hp)|discriminate]. }
    rewrite M. apply IH; [exact (proj2 Hp)| |cbn in Hn; lia].
    destruct pre as [|c' pre]; [now left|]. right. destruct Hl as (a & y & E & Hy).
    destruct a as [|x a]; [discriminate E|]. cbn in E. injection E as -> E. exists a, y. auto.
Qed.

Lemma matches_none s n : every plain s -> matches n s = [].
Proof.
  revert s; induction n as [|n IH]; intros s H; [reflexivity|]. destruct s as [|c s]; [reflexivity|].
  cbn [matches]. rewrite match_none_gen.
  - apply IH. exact (proj2 H).
  - clear IH. assert (G : forall t, every plain t -> match snd (span is_digit t) with String c _ => plain c | "" => True end).
    { induction t as [|x t IH]; [auto|]. intros (Hx & Ht). cbn [span]. destruct (is_digit x); [|exact Hx].
      specialize (IH Ht). destruct (span is_digit t). exact IH. }
    apply G. exact H.
  - destruct s as [|x s]; [exact I|]. destruct H as (_ & Hx & _). now apply plain_neq.
Qed.

Lemma level_name_str n : 1 <= n <= 3 -> level_name n = "L" ++ level_str n.
Proof. intros H. assert (E : n = 1 \/ n = 2 \/ n = 3) by lia. destruct E as [->|[->| ->]]; reflexivity. Qed.

Lemma level_str_cases n : level_str n = "1" \/ level_str n = "2" \/ level_str n = "3".
Proof. unfold level_str. destruct (n =? 1), (n =? 2); auto. Qed.

(** a row: everything before the size is plain and ends with a character that is not a digit *)
Definition row_like (lv : string) (d : string) (u : size_unit) (line : string) : Prop :=
  number d /\ mentions ("L" ++ lv) line /\
  exists pre, line = pre ++ d ++ letter u /\ every plain pre /\ exists a c, pre = a ++ String c "" /\ ~ a_digit c.

Lemma end_blank sp : sp <> "" -> every (fun c => c = " "%char) sp -> exists a, sp = a ++ " " /\ every (fun c => c = " "%char) a.
Proof.
  induction sp as [|c sp IH]; [congruence|]. intros _ (-> & H). destruct sp as [|c sp].
  - exists "". split; [reflexivity|exact I].
  - destruct IH as (a & -> & Ha); [discriminate|exact H|]. exists (String " " a). split; [reflexivity|]. cbn. auto.
Qed.

Lemma blank_plain s : every (fun c => c = " "%char) s -> every plain s.
Proof. apply every_imp. intros c ->. intros H. cbn in H. intuition discriminate. Qed.

Ltac plain_lit := cbn; repeat split; (let H := fresh in intros H; cbn in H; intuition discriminate).

Lemma name_plain n kind : In kind [""; "d"; "i"] -> every plain ("L" ++ level_str n ++ kind).
Proof.
  intros H. destruct (level_str_cases n) as [-> |[-> | ->]]; cbn in H; decompose [or] H; subst; try contradiction; plain_lit.
Qed.

Lemma line_row n d u line : number d -> cache_line (level_str n) (d ++ letter u) line -> row_like (level_str n) d u line.
Proof.
  intros Hd (kind & sp & Hk & Hs & Hb & ->). split; [exact Hd|]. split.
  - exists "", (kind ++ sp ++ d ++ letter u). cbn. reflexivity.
  - destruct (end_blank sp Hs Hb) as (a & -> & Ha). exists ("L" ++ level_str n ++ kind ++ a ++ " ").
    rewrite <- !app_assoc_s. split; [reflexivity|]. split.
    + rewrite every_app. split; [|plain_lit]. rewrite every_app. split; [|now apply blank_plain].
      rewrite app_assoc_s. now apply name_plain.
    + exists ((("L" ++ level_str n) ++ kind) ++ a), " "%char. split; [reflexivity|]. cbn. intuition discriminate.
Qed.

Inductive rows_like (lv : string) : list string -> list (string * size_unit) -> Prop :=
| rl_end : rows_like lv [] []
| rl_row line d u ls rs : row_like lv d u line -> rows_like lv ls rs -> rows_like lv (line :: ls) ((d, u) :: rs)
| rl_other line ls rs : ~ mentions ("L" ++ lv) line -> rows_like lv ls rs -> rows_like lv (line :: ls) rs.

Lemma sizes_rows n ls rs : cache_sizes (level_str n) ls rs -> rows_like (level_str n) ls rs.
Proof.
  induction 1; [constructor| |].
  - apply rl_row; [apply line_row; assumption|assumption].
  - apply rl_other; assumption.
Qed.

Definition show (r : string * size_unit) : string := fst r ++ letter (snd r).

Lemma grep_rows n ls rs : rows_like (level_str n) ls rs -> grep_sizes (grep ("L" ++ level_str n) ls) = map show rs.
Proof.
  induction 1 as [|line d u ls rs (Hd & Hm & pre & -> & Hp & Hl) _ IH|line ls rs Hm _ IH]; [reflexivity| |].
  - cbn [grep filter]. apply contains_spec in Hm. rewrite Hm. cbn [grep_sizes flat_map].
    rewrite (matches_row pre d u); auto. change (show (d, u) :: grep_sizes (grep ("L" ++ level_str n) ls) = show (d, u) :: map show rs). now rewrite IH.
  - cbn [grep filter]. apply contains_false in Hm. rewrite Hm. exact IH.
Qed.

Lemma grep_no_sizes lv ls : no_sizes lv ls -> grep_sizes (grep ("L" ++ lv) ls) = [].
Proof.
  induction 1 as [|l ls Hl _ IH]; [reflexivity|]. cbn [grep filter].
  destruct (contains ("L" ++ lv) l) eqn:E; [|exact IH]. cbn [grep_sizes flat_map].
  rewrite matches_none; [exact IH|]. apply Hl. now apply contains_spec.
Qed.

Definition joined (rs : list (string * size_unit)) : string := fold_right (fun r s => show r ++ s) "" rs.

Lemma drop_app a b : drop_newlines (a ++ b) = drop_newlines a ++ drop_newlines b.
Proof. induction a as [|c a IH]; [reflexivity|]. cbn. destruct (c =? newline)%char; cbn; congruence. Qed.

Lemma drop_id a : no_newline a -> drop_newlines a = a.
Proof.
  induction a as [|c a IH]; [reflexivity|]. intros (Hc & H). cbn. destruct (Ascii.eqb_spec c newline) as [E|_]; [contradiction|].
  now rewrite IH.
Qed.

Lemma show_no_newline r : every a_digit (fst r) -> no_newline (show r).
Proof.
  intros H. unfold show, no_newline. apply every_app. split; [now apply digit_newline|].
  destruct (snd r); cbn; (split; [discriminate|exact I]).
Qed.

Lemma drop_text rs : Forall (fun r => number (fst r)) rs -> drop_newlines (text (map show rs)) = joined rs.
Proof.
  induction 1 as [|r rs (_ & Hr) _ IH]; [reflexivity|]. cbn [map text fold_right joined].
  rewrite drop_app, drop_id by now apply show_no_newline. f_equal. exact IH.
Qed.

Lemma joined_no_newline rs : Forall (fun r => number (fst r)) rs -> no_newline (joined rs).
Proof.
  induction 1 as [|r rs (_ & Hr) _ IH]; [exact I|]. cbn. apply every_app. split; [now apply show_no_newline|exact IH].
Qed.

Lemma joined_length rs : Z.of_nat (String.length (joined rs)) = written rs.
Proof.
  induction rs as [|r rs IH]; [reflexivity|].
  change (Z.of_nat (String.length (show r ++ joined rs)) = Z.of_nat (String.length (fst r)) + 1 + written rs).
  rewrite length_app. unfold show. rewrite length_app, !Nat2Z.inj_add, IH. destruct (snd r); cbn [letter String.length]; lia.
Qed.

Lemma rows_numbers lv ls rs : rows_like lv ls rs -> Forall (fun r => number (fst r)) rs.
Proof. induction 1 as [|line d u ls rs (Hd & _) _ IH|]; [constructor|constructor; assumption|assumption]. Qed.

Lemma split_last_app s c : split_last (s ++ String c "") = Some (s, c).
Proof.
  induction s as [|x s IH]; [reflexivity|]. cbn [append split_last]. rewrite IH.
  destruct s; reflexivity.
Qed.

Definition letter_char (u : size_unit) : ascii := match u with KiB => "K" | MiB => "M" end.

Lemma joined_last d u rs : exists t, joined ((d, u) :: rs) = (d ++ t) ++ String (letter_char (snd (last rs (d, u)))) "" /\ stops t.
Proof.
  revert d u. induction rs as [|(d', u') rs IH]; intros d u.
  - exists "". split; [|exact I]. cbn. unfold show. cbn [fst snd]. rewrite !app_nil_s. destruct u; reflexivity.
  - destruct (IH d' u') as (t & E & _). exists (letter u ++ d' ++ t). split.
    + change (joined ((d, u) :: (d', u') :: rs)) with (show (d, u) ++ joined ((d', u') :: rs)). rewrite E.
      replace (last ((d', u') :: rs) (d, u)) with (last rs (d', u')).
      2:{ clear. destruct rs as [|r rs]; [reflexivity|]. cbn [last]. revert r; induction rs as [|r' rs IH]; intros r; [reflexivity|].
          cbn. apply IH. }
      unfold show. cbn [fst snd]. now rewrite !app_assoc_s.
    + destruct u; cbn; intuition discriminate.
Qed.

Lemma scale_joined d u rs : number d -> Forall (fun r => number (fst r)) rs ->
  scale (Some (joined ((d, u) :: rs))) =
  let size := value d * unit_bytes (snd (last rs (d, u))) in if size <? 2 ^ 31 then CRet size else CUB.
Proof.
  intros Hd _. destruct (joined_last d u rs) as (t & -> & Ht). unfold scale. rewrite split_last_app.
  rewrite (atoi_number d t Hd Ht). pose proof (value_nonneg d (proj2 Hd)) as Hv. unfold to_int.
  replace (- 2 ^ 31 <=? value d) with true by (symmetry; apply Z.leb_le; lia). cbn [andb]. cbv zeta.
  assert (G : forall k, 0 < k -> cbind (if value d <? 2 ^ 31 then CRet (value d) else CUB) (fun n => imul n k) =
              if value d * k <? 2 ^ 31 then CRet (value d * k) else CUB).
  { intros k Hk. destruct (Z.ltb_spec (value d) (2 ^ 31)); cbn [cbind].
    - unfold imul, to_int. replace (- 2 ^ 31 <=? value d * k) with true by (symmetry; apply Z.leb_le; nia). reflexivity.
    - destruct (Z.ltb_spec (value d * k) (2 ^ 31)); [nia|reflexivity]. }
  destruct (snd (last rs (d, u))); cbn [letter_char]; [exact (G 1024 eq_refl)|exact (G 1048576 eq_refl)].
Qed.

(** ** more sizes than the array holds *)

Lemma joined_listed rs : joined rs = listed rs.
Proof.
  induction rs as [|r rs IH]; [reflexivity|].
  change (show r ++ joined rs = fst r ++ letter (snd r) ++ listed rs). unfold show. now rewrite app_assoc_s, IH.
Qed.

Lemma sub_last n : forall s c, String.get n s = Some c -> substring 0 (S n) s = substring 0 n s ++ String c "".
Proof.
  induction n as [|n IH]; intros [|x s] c E; try discriminate E.
  - cbn in E. injection E as ->. destruct s; reflexivity.
  - cbn [String.get] in E. cbn [substring append]. f_equal. exact (IH s c E).
Qed.

Lemma sub_cut n : forall a t, (String.length a <= n)%nat -> substring 0 n (a ++ t) = a ++ substring 0 (n - String.length a) t.
Proof.
  induction n as [|n IH]; intros [|x a] t H; cbn in H; try lia; try reflexivity.
  cbn [append substring String.length Nat.sub]. f_equal. apply IH. lia.
Qed.

Lemma get_every P n : forall s c, every P s -> String.get n s = Some c -> P c.
Proof.
  induction n as [|n IH]; intros [|x s] c H E; try discriminate E; destruct H as (H1 & H2).
  - injection E as <-. exact H1.
  - exact (IH s c H2 E).
Qed.

Lemma get_before n : forall a t, (n < String.length a)%nat -> String.get n (a ++ t) = String.get n a.
Proof.
  induction n as [|n IH]; intros [|x a] t H; cbn in H; try lia; [reflexivity|]. cbn [append String.get]. apply IH. lia.
Qed.

Lemma scale_digit s c : String.get 14 s = Some c -> a_digit c -> scale (Some (substring 0 15 s)) = CRet 0.
Proof.
  intros E H. rewrite (sub_last 14 s c E). unfold scale. rewrite split_last_app.
  cbn in H. decompose [or] H; subst; try reflexivity; contradiction.
Qed.

Lemma scale_cut d u rs u' : number d -> String.get 14 (joined ((d, u) :: rs)) = Some (letter_char u') ->
  scale (Some (substring 0 15 (joined ((d, u) :: rs)))) =
  let size := value d * unit_bytes u' in if size <? 2 ^ 31 then CRet size else CUB.
Proof.
  intros Hd E. rewrite (sub_last 14 _ _ E). unfold scale. rewrite split_last_app.
  change (joined ((d, u) :: rs)) with (show (d, u) ++ joined rs) in *. unfold show in *. cbn [fst snd] in *.
  rewrite app_assoc_s in *.
  assert (Hl : (String.length d <= 14)%nat).
  { destruct (Nat.le_gt_cases (String.length d) 14) as [|G]; [assumption|exfalso].
    rewrite get_before in E by exact G. pose proof (get_every _ _ _ _ (proj2 Hd) E) as H. cbn in H.
    destruct u'; cbn in H; intuition discriminate. }
  rewrite (sub_cut 14 d _ Hl).
  set (t := substring 0 (14 - String.length d) (letter u ++ joined rs)).
  assert (Ht : stops t).
  { unfold t. destruct (14 - String.length d)%nat; destruct u; cbn; intuition discriminate. }
  rewrite (atoi_number d t Hd Ht). pose proof (value_nonneg d (proj2 Hd)) as Hv. unfold to_int.
  replace (- 2 ^ 31 <=? value d) with true by (symmetry; apply Z.leb_le; lia). cbn [andb]. cbv zeta.
  assert (G : forall k, 0 < k -> cbind (if value d <? 2 ^ 31 then CRet (value d) else CUB) (fun n => imul n k) =
              if value d * k <? 2 ^ 31 then CRet (value d * k) else CUB).
  { intros k Hk. destruct (Z.ltb_spec (value d) (2 ^ 31)); cbn [cbind].
    - unfold imul, to_int. replace (- 2 ^ 31 <=? value d * k) with true by (symmetry; apply Z.leb_le; nia). reflexivity.
    - destruct (Z.ltb_spec (value d * k) (2 ^ 31)); [nia|reflexivity]. }
  destruct u'; cbn [letter_char]; [exact (G 1024 eq_refl)|exact (G 1048576 eq_refl)].
Qed.

(** ** the model number *)

Lemma digit_sub_number e : every a_digit e -> e <> "" -> number (substring 0 15 e).
Proof. intros H Hn. split; [now apply sub_ne|now apply sub_every]. Qed.

Lemma model_read w h d : shows w (lscpu h) d ->
  number d /\ fgets16 None (keep_digits (text (head1 (grep w (lscpu h))))) = (Some d, true).
Proof.
  intros (l & e & Hl & He & Hn & ->). split; [apply digit_sub_number; [eapply digits_every; eauto|exact Hn]|].
  rewrite (grep_first _ _ _ Hl), keep_line, (digits_keep _ _ He).
  apply fgets_some; [apply digit_newline; eapply digits_every; eauto|exact Hn].
Qed.

Lemma no_model_read w h : (forall d, ~ shows w (lscpu h) d) ->
  fgets16 None (keep_digits (text (head1 (grep w (lscpu h))))) = (None, false).
Proof.
  intros H. destruct (head1 (grep w (lscpu h))) as [|l [|? ?]] eqn:E.
  - reflexivity.
  - rewrite keep_line. destruct (keep_digits l) as [|c s] eqn:Ek; [reflexivity|]. exfalso.
    apply (H (substring 0 15 (String c s))). exists l, (String c s). split; [|split; [|split]]; [| |discriminate|reflexivity].
    + destruct (grep w (lscpu h)) as [|x g] eqn:G; [discriminate E|]. cbn in E. injection E as ->.
      clear -G. revert G. generalize (lscpu h). intros ls. induction ls as [|y ls IH]; [discriminate|]. cbn.
      destruct (contains w y) eqn:C.
      * intros G. injection G as -> _. exists [], ls. split; [reflexivity|]. split; [now apply contains_spec|constructor].
      * intros G. destruct (IH G) as (b & a & -> & Hm & Hb). exists (y :: b), a. split; [reflexivity|]. split; [exact Hm|].
        constructor; [now apply contains_false|exact Hb].
    + rewrite <- Ek. apply digits_exist.
  - exfalso. unfold head1 in E. destruct (grep w (lscpu h)); discriminate E.
Qed.

(** ** get_cache_size *)

Definition the_listing (h : host) (n : Z) : list string := if n <? 3 then caches_one h else caches_all h.

Lemma known_table n m : 1 <= n <= 3 ->
  known n m = match find (fun e => fst e =? m) table with Some (_, t) => Some (level_of n t) | None => None end.
Proof.
  intros H. assert (E : n = 1 \/ n = 2 \/ n = 3) by lia.
  destruct (Z_le_gt_dec m 165) as [Hm|Hm]; [destruct (Z_le_gt_dec 0 m) as [H0|H0]|].
  - assert (G : forall k : nat, (k <= 165)%nat -> known n (Z.of_nat k) =
       match find (fun e => fst e =? Z.of_nat k) table with Some (_, t) => Some (level_of n t) | None => None end).
    { assert (F : forallb (fun k => forallb (fun n => match known n (Z.of_nat k), find (fun e => fst e =? Z.of_nat k) table with
         | Some a, Some (_, t) => a =? level_of n t | None, None => true | _, _ => false end) [1; 2; 3]) (seq 0 166) = true) by (vm_compute; reflexivity).
      intros k Hk. rewrite forallb_forall in F. specialize (F k). rewrite in_seq in F. specialize (F ltac:(lia)).
      rewrite forallb_forall in F. specialize (F n). specialize (F ltac:(destruct E as [->|[->| ->]]; cbn; auto)).
      destruct (known n (Z.of_nat k)), (find _ table) as [(?, ?)|]; try discriminate F; [|reflexivity].
      apply Z.eqb_eq in F. congruence. }
    specialize (G (Z.to_nat m) ltac:(lia)). rewrite Z2Nat.id in G by lia. exact G.
  - destruct m as [|q|q]; try lia. destruct E as [->|[->| ->]]; reflexivity.
  - replace (find (fun e => fst e =? m) table) with (@None (Z * (Z * Z * Z))).
    2:{ symmetry. unfold table. cbn [find fst].
        repeat match goal with |- context [?a =? m] => replace (a =? m) with false by (symmetry; apply Z.eqb_neq; lia) end. reflexivity. }
    assert (G : forall l : list Z, Forall (fun a => a < m) l -> ~ In m l).
    { intros l Hl Hi. rewrite Forall_forall in Hl. specialize (Hl m Hi). lia. }
    destruct m as [|q|q]; try lia. unfold known.
    destruct E as [->|[->| ->]]; cbn [Z.eqb Pos.eqb];
      do 9 (try (destruct q as [q|q|]; try lia)); try reflexivity; exfalso; lia.
Qed.

Lemma find_in m t : In (m, t) table -> find (fun e => fst e =? m) table = Some (m, t).
Proof. cbn [table In]. intros H. decompose [or] H; try contradiction; match goal with E : _ = _ |- _ => injection E as <- <- end; reflexivity. Qed.

Lemma find_not_in m : (forall t, ~ In (m, t) table) -> find (fun e => fst e =? m) table = None.
Proof.
  intros H. destruct (find _ table) as [(m', t)|] eqn:E; [|reflexivity]. apply find_some in E. cbn [fst] in E.
  destruct E as (E1 & E2). apply Z.eqb_eq in E2. subst m'. now destruct (H t).
Qed.

Lemma to_int_number d : number d -> to_int (value d) = if value d <? 2 ^ 31 then CRet (value d) else CUB.
Proof.
  intros H. pose proof (value_nonneg d (proj2 H)). unfold to_int.
  replace (- 2 ^ 31 <=? value d) with true by (symmetry; apply Z.leb_le; lia). reflexivity.
Qed.

Section Cache.
Variable h : host.
Variable n : Z.
Hypothesis Hs : shell h = true.
Hypothesis Hn : 1 <= n <= 3.

Lemma cache_unfold d : shows "Model" (lscpu h) d -> value d < 2 ^ 31 ->
  get_cache_size h n =
  match find (fun e => fst e =? value d) table with
  | Some (_, t) => CRet (level_of n t)
  | None =>
      let '(ret, got) := fgets16 (Some d) (drop_newlines (text (grep_sizes (grep ("L" ++ level_str n) (the_listing h n))))) in
      if negb got && (n =? 2) then CRet (32 * 2 ^ 10)
      else if negb got && (n =? 3) then CRet (512 * 2 ^ 10)
      else scale ret
  end.
Proof.
  intros Hd Hv. unfold get_cache_size. rewrite Hs. cbn [negb]. destruct (model_read _ h d Hd) as (H1 & ->).
  rewrite (atoi_all d H1), (to_int_number d H1). apply Z.ltb_lt in Hv. rewrite Hv. cbn [cbind].
  rewrite (known_table n _ Hn), (level_name_str n Hn). destruct (find _ table) as [(?, ?)|]; reflexivity.
Qed.

Lemma cache_table d t : shows "Model" (lscpu h) d -> In (value d, t) table -> get_cache_size h n = CRet (level_of n t).
Proof.
  intros Hd Ht. rewrite (cache_unfold d Hd); [now rewrite (find_in _ _ Ht)|].
  cbn [table In] in Ht. decompose [or] Ht; try contradiction; match goal with E : _ = _ |- _ => injection E as <- <- end; reflexivity.
Qed.

Lemma cache_rows d a u rs : shows "Model" (lscpu h) d -> value d < 2 ^ 31 -> (forall t, ~ In (value d, t) table) ->
  rows_like (level_str n) (the_listing h n) ((a, u) :: rs) -> written ((a, u) :: rs) <= 15 ->
  get_cache_size h n =
    let size := value a * unit_bytes (snd (last rs (a, u))) in if size <? 2 ^ 31 then CRet size else CUB.
Proof.
  intros Hd Hv Ht Hr Hw. rewrite (cache_unfold d Hd Hv), (find_not_in _ Ht), (grep_rows n _ _ Hr).
  pose proof (rows_numbers _ _ _ Hr) as Hnum. rewrite (drop_text _ Hnum).
  pose proof (Forall_inv Hnum) as Ha. cbn [fst] in Ha.
  rewrite fgets_some; [|now apply joined_no_newline|].
  2:{ cbn. unfold show. cbn [fst snd]. destruct a; [destruct Ha; congruence|]. discriminate. }
  cbn [negb andb]. rewrite sub_all by (pose proof (joined_length ((a, u) :: rs)); lia).
  apply scale_joined; [exact Ha|exact (Forall_inv_tail Hnum)].
Qed.

Lemma cache_cut d a u rs : shows "Model" (lscpu h) d -> value d < 2 ^ 31 -> (forall t, ~ In (value d, t) table) ->
  rows_like (level_str n) (the_listing h n) ((a, u) :: rs) ->
  number a /\ get_cache_size h n = scale (Some (substring 0 15 (joined ((a, u) :: rs)))).
Proof.
  intros Hd Hv Ht Hr. rewrite (cache_unfold d Hd Hv), (find_not_in _ Ht), (grep_rows n _ _ Hr).
  pose proof (rows_numbers _ _ _ Hr) as Hnum. rewrite (drop_text _ Hnum).
  pose proof (Forall_inv Hnum) as Ha. cbn [fst] in Ha. split; [exact Ha|].
  rewrite fgets_some; [reflexivity|now apply joined_no_newline|].
  cbn. unfold show. cbn [fst snd]. destruct a; [destruct Ha; congruence|]. discriminate.
Qed.

Lemma cache_long d a u rs c : shows "Model" (lscpu h) d -> value d < 2 ^ 31 -> (forall t, ~ In (value d, t) table) ->
  rows_like (level_str n) (the_listing h n) ((a, u) :: rs) -> String.get 14 (listed ((a, u) :: rs)) = Some c ->
  (a_digit c -> get_cache_size h n = CRet 0) /\
  (forall u', String c "" = letter u' ->
    get_cache_size h n = if value a * unit_bytes u' <? 2 ^ 31 then CRet (value a * unit_bytes u') else CUB).
Proof.
  intros Hd Hv Ht Hr E. destruct (cache_cut d a u rs Hd Hv Ht Hr) as (Ha & ->). rewrite <- joined_listed in E.
  split; [exact (scale_digit _ c E)|]. intros u' Eu. apply (scale_cut a u rs u' Ha). rewrite E.
  destruct u'; cbn in Eu; injection Eu as ->; reflexivity.
Qed.

Lemma cache_none d : shows "Model" (lscpu h) d -> value d < 2 ^ 31 -> (forall t, ~ In (value d, t) table) ->
  no_sizes (level_str n) (the_listing h n) ->
  get_cache_size h n = CRet (if n =? 1 then 0 else if n =? 2 then 32 * 1024 else 512 * 1024).
Proof.
  intros Hd Hv Ht Hr. rewrite (cache_unfold d Hd Hv), (find_not_in _ Ht), (grep_no_sizes _ _ Hr).
  cbn [text fold_right drop_newlines fgets16 negb].
  assert (E : n = 1 \/ n = 2 \/ n = 3) by lia. destruct E as [E|[E|E]]; rewrite E; cbn [Z.eqb Pos.eqb andb]; try reflexivity.
  (* level 1: the array still holds the model number *)
  destruct (model_read _ h d Hd) as ((Hne & Hdig) & _). unfold scale.
  assert (G : exists a c, split_last d = Some (a, c) /\ a_digit c).
  { clear -Hne Hdig. induction d as [|c d IH]; [congruence|]. destruct Hdig as (Hc & Hdig). cbn.
    destruct d as [|c' d]; [eauto|]. destruct IH as (a & x & E & Hx); [discriminate|exact Hdig|]. rewrite E. eauto. }
  destruct G as (a & c & -> & Hc).
  cbn in Hc. decompose [or] Hc; subst; try reflexivity; contradiction.
Qed.

Lemma cache_undefined : (forall d, ~ shows "Model" (lscpu h) d) \/ (exists d, shows "Model" (lscpu h) d /\ 2 ^ 31 <= value d) ->
  get_cache_size h n = CUB.
Proof.
  unfold get_cache_size. rewrite Hs. cbn [negb]. intros [H|(d & Hd & Hv)].
  - rewrite (no_model_read _ h H). reflexivity.
  - destruct (model_read _ h d Hd) as (H1 & ->). rewrite (atoi_all d H1), (to_int_number d H1).
    apply Z.ltb_ge in Hv. rewrite Hv. reflexivity.
Qed.
End Cache.

(** a size with a fraction *)
Lemma fraction_row n a b u line : number a -> number b -> cache_line (level_str n) (a ++ "." ++ b ++ letter u) line ->
  row_like (level_str n) b u line.
Proof.
  intros Ha Hb (kind & sp & Hk & Hs & Hbl & ->). split; [exact Hb|]. split.
  - exists "", (kind ++ sp ++ a ++ "." ++ b ++ letter u). reflexivity.
  - exists ((("L" ++ level_str n ++ kind) ++ sp ++ a) ++ "."). split; [now rewrite !app_assoc_s|]. split.
    + rewrite !every_app. split; [|plain_lit]. split; [|split].
      * pose proof (name_plain n kind Hk) as H. rewrite !every_app in H. exact H.
      * now apply blank_plain.
      * destruct Ha as (_ & Ha). revert Ha. apply every_imp. intros c Hc Hp. cbn in Hc, Hp.
        decompose [or] Hc; subst; try contradiction; intuition discriminate.
    + exists (("L" ++ level_str n ++ kind) ++ sp ++ a), "."%char. split; [reflexivity|]. cbn. intuition discriminate.
Qed.

(** ** get_num_physical_cores *)

Lemma count_spec w ls k : count_lines w ls k -> k = Z.of_nat (grep_count w ls).
Proof.
  unfold grep_count. induction 1 as [|a ls k _ IH|l ls k Hl _ IH]; [reflexivity| |]; cbn [filter].
  - assert (E : prefix w (w ++ a) = true) by (apply prefix_spec; eauto). rewrite E. cbn [List.length]. lia.
  - destruct (prefix w l) eqn:E; [|exact IH]. apply prefix_spec in E. destruct E as (b & E). now destruct (Hl b).
Qed.

Lemma string_of_uint_digits u : every a_digit (NilEmpty.string_of_uint u).
Proof. induction u; cbn [NilEmpty.string_of_uint every]; try exact I; (split; [cbn; auto 12|exact IHu]). Qed.

Lemma string_of_uint_value u acc : Z.of_nat (Nat.of_uint_acc u acc) = dec_loop (Z.of_nat acc) (NilEmpty.string_of_uint u).
Proof.
  revert acc; induction u; intros acc; cbn [Nat.of_uint_acc NilEmpty.string_of_uint]; [reflexivity|..];
    rewrite IHu; cbn [dec_loop]; change (is_digit _) with true; cbv iota; f_equal; rewrite Nat.tail_mul_spec;
    unfold digit; rewrite ?Nat2Z.inj_succ, Nat2Z.inj_mul;
    match goal with |- context [nat_of_ascii ?c] => let v := eval vm_compute in (nat_of_ascii c) in change (nat_of_ascii c) with v end; lia.
Qed.

Lemma render_number k : number (NilZero.string_of_uint (Nat.to_uint k)).
Proof.
  unfold NilZero.string_of_uint. pose proof (string_of_uint_digits (Nat.to_uint k)) as H.
  destruct (Nat.to_uint k) eqn:E; (split; [discriminate|]); try exact H. cbn. auto.
Qed.

Lemma render_value k : value (NilZero.string_of_uint (Nat.to_uint k)) = Z.of_nat k.
Proof.
  pose proof (render_number k) as Hn. pose proof (dec_value _ "" 0 (proj2 Hn) I) as E. rewrite Z.mul_0_l, Z.add_0_l, app_nil_s in E.
  rewrite <- E. pose proof (Unsigned.of_to k) as G. rewrite <- G at 2. unfold Nat.of_uint. rewrite string_of_uint_value.
  destruct (Nat.to_uint k); reflexivity.
Qed.

Lemma render_lead k : (0 < k)%nat ->
  10 ^ (Z.of_nat (String.length (NilZero.string_of_uint (Nat.to_uint k))) - 1) <= Z.of_nat k.
Proof.
  intros Hk. rewrite <- (render_value k). pose proof (render_number k) as (Hne & Hd).
  assert (Z0 : forall s, NilZero.string_of_uint (Nat.to_uint k) <> String "0" s).
  { intros s E. pose proof (Unsigned.to_of (Nat.to_uint k)) as G. rewrite Unsigned.of_to in G.
    unfold unorm in G. destruct (nzhead (Nat.to_uint k)) eqn:N; rewrite G in E; try discriminate E.
    - pose proof (Unsigned.of_to k) as F. rewrite G in F. cbn in F. lia.
    - now apply DecimalFacts.nzhead_nonzero in N. }
  destruct (NilZero.string_of_uint (Nat.to_uint k)) as [|c s]; [congruence|]. destruct Hd as (Hc & Hs).
  pose proof (value_nonneg s Hs) as Hv. cbn [value String.length]. rewrite Nat2Z.inj_succ. unfold Z.succ. rewrite Z.add_simpl_r.
  pose proof (Z.pow_pos_nonneg 10 (Z.of_nat (String.length s)) ltac:(lia) ltac:(lia)) as Hp.
  enough (1 <= Z.of_nat (nat_of_ascii c) - Z.of_nat (nat_of_ascii "0")) by nia.
  cbn in Hc. decompose [or] Hc; subst; try contradiction; try (vm_compute; discriminate). now destruct (Z0 s).
Qed.

Lemma render_length k : Z.of_nat k < 2 ^ 31 -> (String.length (NilZero.string_of_uint (Nat.to_uint k)) <= 14)%nat.
Proof.
  intros H. destruct k as [|k]; [vm_compute; lia|]. pose proof (render_lead (S k) ltac:(lia)) as G.
  set (L := String.length _) in *. destruct (Nat.le_gt_cases L 14) as [E|E]; [exact E|]. exfalso.
  pose proof (Z.pow_le_mono_r 10 14 (Z.of_nat L - 1) ltac:(lia) ltac:(lia)).
  change (10 ^ 14) with 100000000000000 in *. change (2 ^ 31) with 2147483648 in *. lia.
Qed.

Lemma take_newline n s : no_newline s -> (String.length s < n)%nat -> take_line n (s ++ String newline "") = s ++ String newline "".
Proof.
  revert n; induction s as [|c s IH]; intros [|n] H Hl; cbn in Hl; try lia; [reflexivity|].
  cbn [append take_line]. destruct H as (Hc & H). destruct (Ascii.eqb_spec c newline) as [E|_]; [contradiction|].
  rewrite IH; [reflexivity|exact H|lia].
Qed.

Lemma count_read k : Z.of_nat k < 2 ^ 31 ->
  exists r, fgets16 None (NilZero.string_of_uint (Nat.to_uint k) ++ String newline "") = (Some r, true) /\ atoi (Some r) = CRet (Z.of_nat k).
Proof.
  intros H. pose proof (render_number k) as Hn. exists (NilZero.string_of_uint (Nat.to_uint k) ++ String newline ""). split.
  - unfold fgets16. rewrite take_newline; [|apply digit_newline, Hn|pose proof (render_length k H); lia].
    destruct Hn as (Hn & _). destruct (NilZero.string_of_uint (Nat.to_uint k)); [congruence|reflexivity].
  - rewrite (atoi_number _ _ Hn), (to_int_number _ Hn), render_value.
    + apply Z.ltb_lt in H. now rewrite H.
    + cbn. intuition discriminate.
Qed.

Lemma cores_shown h ls k t s : shell h = true -> cpuinfo h = Some ls -> count_lines "processor" ls k -> k < 2 ^ 31 ->
  shows "Thread" (lscpu h) t -> shows "Socket" (lscpu h) s ->
  get_num_physical_cores h =
  if (value t <? 2 ^ 31) && (value s <? 2 ^ 31) && (0 <? value t * value s) && (value t * value s <? 2 ^ 31)
  then CRet (k / (value t * value s)) else CUB.
Proof.
  intros Hs Hc Hk Hb Ht Hso. unfold get_num_physical_cores. rewrite Hs, Hc. cbn [negb].
  apply count_spec in Hk. destruct (count_read (grep_count "processor" ls)) as (r & -> & Er); [lia|].
  destruct (model_read _ h t Ht) as (Nt & ->). destruct (model_read _ h s Hso) as (Ns & ->).
  rewrite Er. cbn [cbind]. rewrite (atoi_all t Nt), (atoi_all s Ns), (to_int_number t Nt), (to_int_number s Ns).
  pose proof (value_nonneg t (proj2 Nt)). pose proof (value_nonneg s (proj2 Ns)).
  destruct (value t <? 2 ^ 31); [|reflexivity]. cbn [cbind andb]. destruct (value s <? 2 ^ 31); [|reflexivity]. cbn [cbind andb].
  unfold imul, to_int. assert (P : 0 <= value t * value s) by nia. rewrite <- Hk. revert P. generalize (value t * value s). intros q P.
  replace (- 2 ^ 31 <=? q) with true by (symmetry; apply Z.leb_le; lia). cbn [andb].
  destruct (q <? 2 ^ 31); cbn [cbind].
  - unfold idiv. destruct (Z.eqb_spec q 0) as [->|E]; [reflexivity|].
    replace (0 <? q) with true by (symmetry; apply Z.ltb_lt; lia). cbn [andb]. rewrite Z.quot_div_nonneg; [reflexivity|lia|lia].
  - now rewrite andb_false_r.
Qed.

Lemma cores_undefined h : shell h = true ->
  cpuinfo h = None \/ (forall t, ~ shows "Thread" (lscpu h) t) \/ (forall s, ~ shows "Socket" (lscpu h) s) ->
  get_num_physical_cores h = CUB.
Proof.
  intros Hs H. unfold get_num_physical_cores. rewrite Hs. cbn [negb].
  assert (G : forall o, (exists z, atoi o = CRet z) \/ atoi o = CUB).
  { intros o. assert (T : forall z, (exists z', to_int z = CRet z') \/ to_int z = CUB).
    { intros z. unfold to_int. destruct (_ && _); eauto. }
    unfold atoi. destruct o as [s|]; [|auto]. destruct (skip_space s) as [|c t]; [apply T|].
    destruct c as [[] [] [] [] [] [] [] []]; apply T. }
  destruct H as [H|[H|H]].
  - rewrite H. cbn [fgets16]. destruct (fgets16 None (keep_digits (text (head1 (grep "Thread" (lscpu h)))))).
    destruct (fgets16 None (keep_digits (text (head1 (grep "Socket" (lscpu h)))))). reflexivity.
  - rewrite (no_model_read _ h H). destruct (fgets16 None (match cpuinfo h with Some _ => _ | None => _ end)) as (r, ?).
    destruct (fgets16 None (keep_digits (text (head1 (grep "Socket" (lscpu h)))))).
    destruct (G r) as [(z & ->)| ->]; reflexivity.
  - rewrite (no_model_read _ h H). destruct (fgets16 None (match cpuinfo h with Some _ => _ | None => _ end)) as (r, ?).
    destruct (fgets16 None (keep_digits (text (head1 (grep "Thread" (lscpu h)))))) as (r2, ?).
    destruct (G r) as [(z & ->)| ->]; [|reflexivity]. cbn [cbind]. destruct (G r2) as [(z2 & ->)| ->]; reflexivity.
Qed.

Lemma cores_per_socket h ls t s c : shell h = true -> cpuinfo h = Some ls -> count_lines "processor" ls (value s * c * value t) ->
  value s * c * value t < 2 ^ 31 -> 0 < c -> 0 < value t -> 0 < value s -> value t * value s < 2 ^ 31 ->
  shows "Thread" (lscpu h) t -> shows "Socket" (lscpu h) s ->
  get_num_physical_cores h = CRet c /\ (c = value s * c <-> value s = 1).
Proof.
  intros Hs Hc Hk Hb Hp H1 H2 Hm Ht Hso. split; [|nia].
  rewrite (cores_shown h ls _ t s Hs Hc Hk Hb Ht Hso).
  replace (value t <? 2 ^ 31) with true by (symmetry; apply Z.ltb_lt; nia).
  replace (value s <? 2 ^ 31) with true by (symmetry; apply Z.ltb_lt; nia).
  replace (0 <? value t * value s) with true by (symmetry; apply Z.ltb_lt; nia).
  replace (value t * value s <? 2 ^ 31) with true by (symmetry; apply Z.ltb_lt; nia).
  cbn [andb]. replace (value s * c * value t) with (c * (value t * value s)) by ring. rewrite Z.div_mul by nia. reflexivity.
Qed.

Lemma rows_one lv pre line post d u : row_like lv d u line -> Forall (fun l => ~ mentions ("L" ++ lv) l) (pre ++ post) ->
  rows_like lv (pre ++ line :: post) [(d, u)].
Proof.
  intros Hr Hf. induction pre as [|x pre IH].
  - cbn in *. apply rl_row; [exact Hr|]. induction Hf; [constructor|now apply rl_other].
  - cbn in *. inversion Hf; subst. apply rl_other; auto.
Qed.

Lemma fraction_wrong h n : shell h = true -> 1 <= n <= 3 ->
  forall d a b u pre line post, shows "Model" (lscpu h) d -> value d < 2 ^ 31 -> (forall t, ~ In (value d, t) table) ->
  number a -> a_digit b -> 0 < value a -> cache_line (level_str n) (a ++ "." ++ String b "" ++ letter u) line ->
  (if n <? 3 then caches_one h else caches_all h) = (pre ++ line :: post)%list ->
  Forall (fun l => ~ mentions ("L" ++ level_str n) l) (pre ++ post) ->
  get_cache_size h n = CRet (value (String b "") * unit_bytes u) /\
  10 * (value (String b "") * unit_bytes u) <> (10 * value a + value (String b "")) * unit_bytes u.
Proof.
  intros Hs Hn d a b u pre line post Hd Hv Ht Ha Hb Hpos Hl Hli Hf.
  assert (Nb : number (String b "")) by (split; [discriminate|cbn; auto]).
  assert (Vb : 0 <= value (String b "") <= 9).
  { cbn in Hb. decompose [or] Hb; subst; try contradiction; vm_compute; split; congruence. }
  assert (R : rows_like (level_str n) (the_listing h n) [(String b "", u)]).
  { unfold the_listing. rewrite Hli. apply rows_one; [apply (fraction_row n a _ u line Ha Nb Hl)|exact Hf]. }
  split.
  - rewrite (cache_rows h n Hs Hn d _ u [] Hd Hv Ht R) by (vm_compute; discriminate). cbv zeta. cbn [last snd].
    replace (_ <? 2 ^ 31) with true; [reflexivity|]. symmetry. apply Z.ltb_lt. destruct u; cbn [unit_bytes]; lia.
  - destruct u; cbn [unit_bytes]; lia.
Qed.
