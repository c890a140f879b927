(** * Properties of any of the multiplication functions (SpecAny.v): empty dimensions, tests. *)

From Coq Require Import ZArith Reals List Bool Lia.
From Flocq Require Import Core BinarySingleNaN.
From Verif Require Import Lang Spec SpecTop SpecOnline SpecSingle SpecTouch SpecAny SpecTests ModelSizing ModelIEEE ModelSingle ModelTop ModelUtil ModelTests
     Exec Witness Witness_facts Online_facts Grid_call_facts WitnessSingle WitnessAny EmptyAny_facts NoColumns_facts EmptySmall_facts PropTests.
Import ListNotations.
Open Scope Z_scope.

(** C37.  With an empty inner dimension every function leaves zeros in C, and nothing else
    changes; *)
Theorem C37_empty_sum_any_function :
  forall S F ar q (nz : elt S -> bool) M N K c x A B m0,
  allowed S F ar nz M N K c x -> caller m0 M N K A B -> room S M N K m0 c x -> K = 0 ->
  always (run S F ar q nz M N K c x) m0 (fun _ m' => holds m' BufC M N (fun _ _ => zero S) /\ only_C_changed m0 m' M N).
Proof. exact any_empty_K. Qed.
Print Assumptions C37_empty_sum_any_function.

(** with an empty result cake_sgemm and cake_sgemm_online return and change nothing, *)
Theorem C37_empty_result_any_function :
  forall S F ar q (nz : elt S -> bool) M N K c x A B m0,
  allowed S F ar nz M N K c x -> caller m0 M N K A B -> room S M N K m0 c x -> M = 0 \/ N = 0 ->
  always (run S F ar q nz M N K c x) m0
    (fun _ m' => (forall b, live m' b = live m0 b) /\ forall b i, live m0 b <> None -> dat m' b i = dat m0 b i).
Proof. exact any_empty_MN. Qed.
Print Assumptions C37_empty_result_any_function.

(** but "every function returns" does not hold: the two-dimensional ones are undefined without
    rows, whatever the other arguments (the aspect ratio N/M is infinite or not a number, and is
    made an integer), *)
Theorem C37_no_rows_2d_undefined :
  forall S F ar q rows N K p oc mcu kcu ncu m0,
  always_undefined (cake_sgemm_2d S F ar q rows 0 N K p oc mcu kcu ncu) m0 /\
  always_undefined (cake_sgemm_2d_small S F ar q rows 0 N K p oc) m0.
Proof. intros. split; [now apply no_rows_2d|now apply no_rows_small]. Qed.
Print Assumptions C37_no_rows_2d_undefined.

(** and cake_sgemm_2d is undefined without columns (the grid is reduced to no core column, and N
    divided by it). *)
Theorem C37_no_columns_2d_undefined :
  forall S F ar q rows M K p c mcu kcu ncu m0,
  arch_ok ar -> ctx_min ar c -> 0 < M -> 0 < p -> 0 <= fp_pn F p 0 M -> tiles_2d F c mcu kcu ncu ->
  always_undefined (cake_sgemm_2d S F ar q rows M 0 K p (Some c) mcu kcu ncu) m0.
Proof. intros. now apply no_columns_2d. Qed.
Print Assumptions C37_no_columns_2d_undefined.

(** So is cake_sgemm_2d_small without columns, when there is something to sum: every core still
    gets one register tile of columns, and the packed B it reads has no element. *)
Theorem C37_no_columns_2d_small_undefined :
  forall S F ar q rows M K p c m0,
  arch_ok ar -> ctx_min ar c -> 0 < M -> 0 < K -> 0 < p -> 0 <= fp_pn F p 0 M -> 0 < fp_kcmax F (L1 c) (mr c) (nr c) ->
  always_undefined (cake_sgemm_2d_small S F ar q rows M 0 K p (Some c)) m0.
Proof. exact no_columns_small. Qed.
Print Assumptions C37_no_columns_2d_small_undefined.

(** Without columns and with nothing to sum it returns and changes nothing. *)
Theorem C37_neither_columns_nor_sum_2d_small :
  forall S F ar q rows M p c A B (m0 : mem (elt S)),
  arch_ok ar -> ctx_min ar c -> 0 < M -> 0 < p -> grid_exists F M 0 p (ncores c) rows -> 0 < fp_kcmax F (L1 c) (mr c) (nr c) ->
  caller m0 M 0 0 A B ->
  always (cake_sgemm_2d_small S F ar q rows M 0 0 p (Some c)) m0
    (fun _ m' => (forall b, live m' b = live m0 b) /\ forall b i, live m0 b <> None -> dat m' b i = dat m0 b i).
Proof. exact none_at_all_small. Qed.
Print Assumptions C37_neither_columns_nor_sum_2d_small.

Definition no_end {V R} (o : outcome V R) : bool := match o with Undef => true | _ => false end.

Example C37_any_applies :
  let A := fun i k => wA (i * 0 + k) in let B := fun k j => wB (k * 48 + j) in
  Forall (allowed Zs wFr haswell Znz 18 48 0 wctx) (every_call (S := Zs) 1 0) /\ caller (wmem 18 48 0) 18 48 0 A B /\
  Forall (room Zs 18 48 0 (wmem 18 48 0) wctx) (every_call (S := Zs) 1 0) /\
  outC (pseqexec (runs Zs wFr haswell wctx Znz 18 48 0 wctx (every_call (S := Zs) 1 0)) (wmem 18 48 0)) (17 * 48 + 47) = Some 0 /\
  allowed Zs wFr haswell Znz 18 0 5 wctx (By_online false 2 6 2 16) /\ room Zs 18 0 5 (wmem 18 0 5) wctx (By_online false 2 6 2 16) /\
  arch_ok haswell /\ ctx_min haswell wctx /\ 0 <= fp_pn wFr 4 0 18 /\ tiles_2d wFr wctx 6 2 16 /\
  no_end (pseqexec (cake_sgemm_2d Zs wFr haswell wctx 4 18 0 5 4 (Some wctx) 6 2 16) (wmem 18 0 5)) = true /\
  0 < fp_kcmax wFr (L1 wctx) (mr wctx) (nr wctx) /\
  (exists x, init_block_dims_2d_small wFr 18 0 5 4 4 wctx KMN = CRet x) /\
  no_end (pseqexec (cake_sgemm_2d_small Zs wFr haswell wctx 4 18 0 5 4 (Some wctx)) (wmem 18 0 5)) = true /\
  grid_exists wFr 18 0 4 (ncores wctx) 4 /\ caller (wmem 18 0 0) 18 0 0 A B /\
  no_end (pseqexec (cake_sgemm_2d_small Zs wFr haswell wctx 4 18 0 0 4 (Some wctx)) (wmem 18 0 0)) = false.
Proof.
  intros A B. split; [now apply every_allowed_K|]. split; [apply w_caller|]. split; [apply every_room_K|].
  split; [vm_compute; reflexivity|]. split.
  { split; [|discriminate]. split; [exact w_arch|]. split; [repeat split; reflexivity || discriminate|].
    do 3 (split; [discriminate|]). split; [reflexivity|]. left. split; [reflexivity|split; [reflexivity|split; [reflexivity|]]].
    split; [exists 1; reflexivity|exists 1; reflexivity]. }
  split; [split; [apply A_rim_vacuous; [reflexivity|exists 3; reflexivity]|apply w_rim; [reflexivity|exists 0; reflexivity]]|].
  split; [exact w_arch|]. split; [split; reflexivity|]. split; [vm_compute; discriminate|].
  split; [left; split; [reflexivity|split; [reflexivity|split; [discriminate|exists 1; reflexivity]]]|].
  split; [vm_compute; reflexivity|]. split; [vm_compute; reflexivity|].
  split; [eexists; vm_compute; reflexivity|]. split; [vm_compute; reflexivity|].
  split; [apply grid_defined; [reflexivity|reflexivity|vm_compute; discriminate|eexists; vm_compute; reflexivity]|].
  split; [|vm_compute; reflexivity].
  split; [eexists; split; [reflexivity|vm_compute; discriminate]|]. split; [intros i k Hi Hk; lia|].
  split; [eexists; split; [reflexivity|vm_compute; discriminate]|]. split; [intros i k Hi Hk; lia|].
  split; [eexists; split; [reflexivity|vm_compute; discriminate]|]. intros b Hb. destruct b; try reflexivity; destruct Hb.
Qed.

(** C62.  A test of any of the functions, or of several after one another, that never leaves its
    operands, with inner dimension at most 91, ends with the checker accepting and all its memory
    released, whatever rand() returns. *)
Theorem C62_test_accepts_any_function :
  forall F ar q (nz : single -> bool) M N K c l ok bad rndA rndB m0,
  l <> [] -> Forall (allowed Single F ar nz M N K c) l ->
  Forall (fun x => match x with By_sgemm _ _ _ s _ _ _ => s = KMN \/ (nr c | N) | _ => (mr c | M) /\ (nr c | N) end) l ->
  nothing_yet m0 -> at_least m0 retb 1 ->
  (forall x, 0 <= rndA x <= RAND_MAX) -> (forall x, 0 <= rndB x <= RAND_MAX) -> K <= 91 ->
  always (one_test Single rand_elem (runs Single F ar q nz M N K c l)
      (cake_sgemm_checker Single_mul_add far_single ok bad (BufA, 0) (BufB, 0) (BufC, 0)) rndA rndB M N K) m0
    (fun _ m' => (forall b, live m' b = live m0 b) /\ dat m' retb 0 = Some ok).
Proof. intros. apply any_test_accepts; auto. now apply (inside_room F ar nz). Qed.
Print Assumptions C62_test_accepts_any_function.

(** Two functions after one another on 18 x 48 x 5 random elements *)
Example C62_any_applies :
  let l := [By_2d 4 4 6 2 16; By_2d_small 4 4] in
  Forall (allowed Single wFr haswell is1 18 48 5 wctx) l /\ (mr wctx | 18) /\ (nr wctx | 48) /\
  Forall (allowed Single wFr haswell is1 18 48 5 wctx) (every_call (S := Single) (single_of_int 1) sok) /\
  nothing_yet tmem /\ at_least tmem retb 1.
Proof.
  intros l. split; [exact (Forall_tail 4 (every_allowed Single is1 (single_of_int 1) sok eq_refl))|].
  split; [exists 3; reflexivity|]. split; [exists 3; reflexivity|]. split; [apply every_allowed; reflexivity|].
  split; [apply t_nothing|]. exists (BInfo 1 false); split; [reflexivity|cbn; lia].
Qed.
