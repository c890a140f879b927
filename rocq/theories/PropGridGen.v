(** * C68: the table of core grids written at installation. *)

From Coq Require Import ZArith List Bool Lia.
From Verif Require Import Lang ModelSizing ModelGen ModelGridGen GridGen_facts.
Import ListNotations.
Open Scope Z_scope.

(** C68.  python/grid_gen.py, run on a machine with p cores, writes without error a table with one
    row for every number of cores from p down to a tenth of p (rounded, at least one) and p
    columns; the entry for n cores and f columns of cores is 1 exactly when f divides n.
    [r] is p/10 rounded to a nearest integer, either way at ties; int(n**0.5) may be any number
    not below the integer square root. *)
Theorem C68_table :
  forall isq p r,
  0 < p -> -5 <= 10 * r - p <= 5 -> (forall n, 0 < n <= p -> Z.sqrt n <= isq n) ->
  exists g, gen_factor_table isq p r = Some g /\
    (forall n f, Z.max 1 r <= n <= p -> 1 <= f <= p ->
       array_at g (p - n) (f - 1) = Some 1 /\ (f | n) \/ array_at g (p - n) (f - 1) = Some 0 /\ ~ (f | n)) /\
    (forall n f, ~ (Z.max 1 r <= n <= p /\ 1 <= f <= p) -> array_at g (p - n) (f - 1) = None).
Proof.
  intros isq p r Hp Hr Hs. destruct (table_ok isq p r) as (g & E & R & C & N); [lia|lia|auto|].
  exists g. split; [exact E|]. split; intros n f Hn; [intros Hf|]; rewrite N, R.
  - replace ((0 <=? p - n) && (p - n <? p - Z.max 1 r + 1) && (0 <=? f - 1) && (f - 1 <? p)) with true
      by (symmetry; rewrite !andb_true_iff, !Z.leb_le, !Z.ltb_lt; lia).
    replace (p - (p - n)) with n by lia. replace (f - 1 + 1) with f by lia.
    destruct (Z.eqb_spec (n mod f) 0) as [D|D]; [left|right]; (split; [reflexivity|]).
    + apply Z.mod_divide; [lia|auto].
    + intros H. apply D, Z.mod_divide; [lia|auto].
  - replace ((0 <=? p - n) && (p - n <? p - Z.max 1 r + 1) && (0 <=? f - 1) && (f - 1 <? p)) with false; [reflexivity|].
    symmetry. rewrite <- not_true_iff_false, !andb_true_iff, !Z.leb_le, !Z.ltb_lt. lia.
Qed.
Print Assumptions C68_table.

(** It is the table the theorems about cake_sgemm_2d and cake_sgemm_2d_small assume, including where
    it ends. *)
Theorem C68_library_table :
  forall isq p r,
  0 < p -> -5 <= 10 * r - p <= 5 -> (forall n, 0 < n <= p -> Z.sqrt n <= isq n) ->
  exists g, gen_factor_table isq p r = Some g /\ t_rows g = p - Z.max 1 r + 1 /\
    forall n j, grid_tab p (t_rows g) n j =
      match array_at g (p - n) j with Some v => CRet (v =? 1) | None => CUB end.
Proof.
  intros isq p r Hp Hr Hs. destruct (table_ok isq p r) as (g & E & R & C & N); [lia|lia|auto|].
  exists g. split; [exact E|]. split; [exact R|]. intros n j. unfold grid_tab. rewrite N.
  destruct ((0 <=? p - n) && (p - n <? t_rows g) && (0 <=? j) && (j <? p)) eqn:B; [|reflexivity].
  rewrite !andb_true_iff, !Z.leb_le, !Z.ltb_lt in B. rewrite R in B. replace (p - (p - n)) with n by lia. f_equal.
  rewrite Z.rem_mod_nonneg by lia. destruct (Z.ltb_spec j n) as [L|L]; cbn [andb].
  - now destruct (n mod (j + 1) =? 0).
  - rewrite Z.mod_small by lia. now replace (n =? 0) with false by (symmetry; apply Z.eqb_neq; lia).
Qed.
Print Assumptions C68_library_table.

(** Twenty cores: the table has rows for 20 down to 2 cores, the one for 12 cores is row 8. *)
Example C68_applies :
  -5 <= 10 * 2 - 20 <= 5 /\ (forall n, 0 < n <= 20 -> Z.sqrt n <= Z.sqrt n) /\
  (exists g, gen_factor_table Z.sqrt 20 2 = Some g /\ t_rows g = 19 /\
     nth_error (t_tab g) 8 = Some [1;1;1;1;0;1;0;0;0;0;0;1;0;0;0;0;0;0;0;0] /\
     array_at g (20 - 12) (6 - 1) = Some 1 /\ array_at g (20 - 12) (5 - 1) = Some 0 /\ array_at g (20 - 1) 0 = None).
Proof. split; [lia|]. split; [lia|]. eexists. split; [vm_compute; reflexivity|]. repeat split; reflexivity. Qed.
