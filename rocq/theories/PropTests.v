(** * Random matrices and the library's own tests. *)

From Coq Require Import ZArith Reals List Bool Lia Lra.
From Flocq Require Import BinarySingleNaN.
From Verif Require Import Lang Spec SpecTop SpecOnline SpecSingle SpecTouch SpecTile SpecTests ModelSizing ModelKernel ModelTop ModelUtil
     ModelDouble ModelIEEE ModelSingle ModelTests Exec Witness Witness_facts WitnessSingle Grid_call_facts Tests_facts.
Open Scope Z_scope.

(** ** Random matrices *)

(** C60.  rand_init sets exactly the r*c elements, element i to the value made of the i-th result
    of rand(). *)
Theorem C60_rand_init :
  forall S elem b rnd r c m, 0 <= r * c -> at_least m b (r * c) ->
  always (pseq (rand_init S elem (b, 0) rnd r c)) m (fun _ m' => fills elem m m' b (r * c) rnd).
Proof. intros. apply Mult_facts.pok_always. now apply rand_init_ok. Qed.
Print Assumptions C60_rand_init.

(** Every value is a number from -1 to 1, whatever rand() returns. *)
Theorem C60_rand_init_range :
  forall r, 0 <= r <= RAND_MAX -> finite (rand_elem r) /\ (-1 <= val (rand_elem r) <= 1)%R.
Proof. exact rand_elem_range. Qed.
Print Assumptions C60_rand_init_range.

(** rand_gen, whose logarithm normalRandom takes, is positive and at most 1. *)
Theorem C60_rand_gen_range :
  forall r, 0 <= r <= RAND_MAX -> finite (rand_gen r) /\ (0 < val (rand_gen r) <= 1)%R.
Proof. exact rand_gen_range. Qed.
Print Assumptions C60_rand_gen_range.

(** Both ends are reached: rand() = 0 gives -1, RAND_MAX and also RAND_MAX-63 give 1. *)
Example C60_ends :
  B2SF (rand_elem 0) = B2SF (single_of_int (-1)) /\ B2SF (rand_elem RAND_MAX) = B2SF (single_of_int 1) /\
  B2SF (rand_elem (RAND_MAX - 63)) = B2SF (single_of_int 1) /\ B2SF (rand_elem (RAND_MAX - 64)) <> B2SF (single_of_int 1) /\
  B2SF (rand_gen RAND_MAX) = B2SF (single_of_int 1) /\ B2SF (rand_elem (2 ^ 30)) = B2SF (single_of_int 0).
Proof. vm_compute. repeat split; discriminate. Qed.

Example C60_applies : at_least (smem 2 3 4 (fun _ => 0) (fun _ => 0)) BufA (2 * 4).
Proof. eexists. split; [reflexivity|cbn; lia]. Qed.

(** ** run_tests *)

(** C61.  On a machine with two or more cores every execution of run_tests is undefined, whatever
    rand() returns: the first test calls cake_sgemm_2d with 1 x 1 operands of one element, and it
    reads m_r rows of A. *)
Theorem C61_run_tests_undefined :
  forall S elem F ar (nz : elt S -> bool) one rows check rnd c m0,
  2 <= ncores c -> 1 < mr c -> legal_2d F ar rows c 1 1 1 2 0 0 0 -> nothing_yet m0 ->
  always_undefined (run_tests S elem F ar nz one rows check rnd c) m0.
Proof. exact run_tests_undefined. Qed.
Print Assumptions C61_run_tests_undefined.

(** The same with the tile sizes computed in double arithmetic, for all caches that hold a register
    tile, and whether or not the divisor table has a row for 2 cores. *)
Theorem C61_run_tests_undefined_ieee :
  forall S elem ar (nz : elt S -> bool) one rows check rnd c m0,
  arch_ok ar -> ctx_min ar c -> machine c -> 2 <= ncores c -> 1 < mr c ->
  bytes (mr c) 1 (nr c) <= L1 c -> 4 * (mr c * mr c + mr c * nr c + mr c * mr c) <= L2 c -> nothing_yet m0 ->
  always_undefined (run_tests S elem ieee ar nz one rows check rnd c) m0.
Proof. exact run_tests_undefined_ieee. Qed.
Print Assumptions C61_run_tests_undefined_ieee.

(** On one core it tests nothing. *)
Theorem C61_one_core :
  forall S elem F ar (nz : elt S -> bool) one rows check rnd c m0, ncores c <= 1 ->
  always (run_tests S elem F ar nz one rows check rnd c) m0 (fun r m' => r = c /\ m' = m0).
Proof. exact run_tests_one_core. Qed.
Print Assumptions C61_one_core.

(** The same holds of every single test of cake_sgemm_2d and cake_sgemm_online whose operands are not
    whole register tiles. *)
Theorem C61_grid_test_undefined :
  forall S elem F ar q rows check rndA rndB M N K p c mcu kcu ncu m0,
  legal_2d F ar rows c M N K p mcu kcu ncu -> 0 < K -> ~ ((mr c | M) /\ (nr c | N)) -> nothing_yet m0 ->
  always_undefined (one_test S elem (cake_sgemm_2d S F ar q rows M N K p (Some c) mcu kcu ncu) check rndA rndB M N K) m0.
Proof. exact test_2d_undefined. Qed.
Print Assumptions C61_grid_test_undefined.

Theorem C61_online_test_undefined :
  forall S elem so F ar q check rndA rndB M N K p c mcu kcu ncu m0,
  legal F ar KMN c M N K p mcu kcu ncu -> 0 < M -> 0 < N -> 0 < K -> ~ ((mr c | M) /\ (nr c | N)) -> nothing_yet m0 ->
  always_undefined (one_test S elem (cake_sgemm_online S so F ar q M N K p (Some c) mcu kcu ncu) check rndA rndB M N K) m0.
Proof. exact test_online_undefined. Qed.
Print Assumptions C61_online_test_undefined.

(** Only the element for the checker's result exists *)
Definition tmem : mem single := Mem (fun b => match b with BufX 3 => Some (BInfo 1 false) | _ => None end) (fun _ _ => None).

Lemma t_nothing : nothing_yet tmem.
Proof.
  unfold nothing_yet. repeat split. intros b Hb. destruct b as [ | | |z| |z|z]; cbn in Hb; try (contradiction || reflexivity).
  assert (z = 0 \/ z = 1 \/ z = 2) as [-> | [-> | ->]] by lia; reflexivity.
Qed.

Example C61_applies :
  machine wctx /\ ctx_min haswell wctx /\ 2 <= ncores wctx /\ 1 < mr wctx /\
  bytes (mr wctx) 1 (nr wctx) <= L1 wctx /\ 4 * (mr wctx * mr wctx + mr wctx * nr wctx + mr wctx * mr wctx) <= L2 wctx /\
  nothing_yet tmem /\ legal wF haswell KMN wctx 96 111 10 2 0 0 0 /\ ~ ((mr wctx | 96) /\ (nr wctx | 111)).
Proof.
  split; [unfold machine; cbn; lia|]. split; [repeat split|]. do 4 (split; [cbn; lia|]). split; [apply t_nothing|].
  split; [apply w_legal_auto; lia|]. intros (_ & x & H). cbn in H. lia.
Qed.

(** ** What the tests report *)

(** C62.  A test of cake_sgemm that never leaves its operands (K-first, or N a multiple of n_r), with
    inner dimension at most 91, ends with the checker accepting and all its memory released, whatever
    rand() returns. *)
Theorem C62_test_accepts :
  forall F ar q (nz : single -> bool) M N K p c alpha beta s mcu kcu ncu ok bad rndA rndB m0,
  legal F ar s c M N K p mcu kcu ncu -> s = KMN \/ nz beta = false -> s = KMN \/ (nr c | N) ->
  nothing_yet m0 -> at_least m0 retb 1 ->
  (forall x, 0 <= rndA x <= RAND_MAX) -> (forall x, 0 <= rndB x <= RAND_MAX) -> K <= 91 ->
  always (one_test Single rand_elem
      (cake_sgemm Single F ar q nz M N K p (Some c) false false alpha beta s mcu kcu ncu)
      (cake_sgemm_checker Single_mul_add far_single ok bad (BufA, 0) (BufB, 0) (BufC, 0)) rndA rndB M N K) m0
    (fun _ m' => (forall b, live m' b = live m0 b) /\ dat m' retb 0 = Some ok).
Proof. intros. eapply test_accepts; eauto. Qed.
Print Assumptions C62_test_accepts.

(** Refuted for K = 960, one of the sizes tested: if rand() returns 2147434496 each time, which makes
    every element 8388224/2^23, the checker rejects the result of every such test, whose error is within
    the bound of C53: it rounds each product, and the kernels do not. *)
Theorem C62_large_refuted :
  exists r, 0 <= r <= RAND_MAX /\
  forall F ar q (nz : single -> bool) M N p c alpha beta s mcu kcu ncu ok bad m0,
  legal F ar s c M N 960 p mcu kcu ncu -> s = KMN \/ nz beta = false -> s = KMN \/ (nr c | N) ->
  nothing_yet m0 -> at_least m0 retb 1 -> 0 < M -> 0 < N ->
  always (one_test Single rand_elem
      (cake_sgemm Single F ar q nz M N 960 p (Some c) false false alpha beta s mcu kcu ncu)
      (cake_sgemm_checker Single_mul_add far_single ok bad (BufA, 0) (BufB, 0) (BufC, 0)) (fun _ => r) (fun _ => r) M N 960) m0
    (fun _ m' => (forall b, live m' b = live m0 b) /\ dat m' retb 0 = Some bad).
Proof.
  exists 2147434496. split; [unfold RAND_MAX; lia|].
  assert (E : far_single (times Single_mul_add (rand_elem 2147434496) (Z.to_nat 960)) (times Single (rand_elem 2147434496) (Z.to_nat 960)) = true)
    by (vm_compute; reflexivity).
  intros. eapply (test_rejects _ _ _ _ _ _ 960); eauto.
Qed.
Print Assumptions C62_large_refuted.

Example C62_applies :
  legal wF haswell KMN wctx 13 33 10 2 0 0 0 /\ legal wF haswell KMN wctx 1 1 960 2 0 0 0 /\ legal wF haswell MKN wctx 10 96 10 2 0 0 0 /\
  (nr wctx | 96) /\ is1 sok = false /\ nothing_yet tmem /\ at_least tmem retb 1 /\ test_size 4 = 960 /\ test_size 1 = 10 /\
  sout (pseqexec (one_test Single rand_elem (srun 2 3 4 2 KMN 0 0 0)
         (cake_sgemm_checker Single_mul_add far_single sok sbad (BufA, 0) (BufB, 0) (BufC, 0)) (fun x => x * 100000007) (fun x => 2 ^ 31 - 1 - x) 2 3 4) tmem) retb 0
    = Some (B2SF sok).
Proof.
  do 3 (split; [apply w_legal_auto; lia|]). split; [exists 6; reflexivity|]. split; [reflexivity|]. split; [apply t_nothing|].
  split; [exists (BInfo 1 false); split; [reflexivity|cbn; lia]|]. split; [reflexivity|]. split; [reflexivity|]. vm_compute. reflexivity.
Qed.
