(** * The example program (examples/cake_sgemm_test.cpp). *)

From Coq Require Import ZArith List Bool Lia.
From Flocq Require Import BinarySingleNaN.
From Verif Require Import Lang Spec SpecTop SpecSmall SpecTouch SpecQuery SpecTests ModelSizing ModelKernel ModelTop ModelUtil
     ModelSingle ModelTests ModelIEEE ModelQuery ModelExample Exec Witness WitnessSingle PropQuery PropTests Tests_facts Example_facts.
Open Scope Z_scope.

(** C72.  Without its cache flush, built for ARM (whose smallest kernel is the 8 x 12 one it asks
    for), given all five arguments, at least one trial and an inner dimension of at most 91: on every
    machine of usual size, whatever rand() returns, the program ends with the checker accepting and
    everything it allocated released. *)
Theorem C72_armv8 :
  forall h c q (nz : single -> bool) one add num ok bad rndA rndB argc M K N p ntrials m0,
  query_cntx armv8 h = CRet c -> usual c ->
  0 <= M -> 0 <= N -> 0 <= K <= 91 -> 0 < p -> M + 8 * p < 2 ^ 24 -> 6 <= argc -> 0 < ntrials ->
  nothing_yet m0 -> live m0 tttmp = None -> live m0 ressss = None -> at_least m0 retb 1 ->
  (forall x, 0 <= rndA x <= RAND_MAX) -> (forall x, 0 <= rndB x <= RAND_MAX) ->
  always (example_main Single rand_elem add num ieee armv8 q nz one
      (cake_sgemm_checker Single_mul_add far_single ok bad (BufA, 0) (BufB, 0) (BufC, 0))
      None rndA rndB argc M K N p ntrials c) m0
    (fun _ m' => (forall b, live m' b = live m0 b) /\ dat m' retb 0 = Some ok).
Proof. intros. eapply main_accepts; eauto; [eapply tile_legal; eauto; lia|lia]. Qed.
Print Assumptions C72_armv8.

(** Refuted when built for Haswell, the default on x86: the program sets a register tile of 8 x 12
    and asks for kernel_map[0][0], which is the 6 x 16 one, so even without the flush every execution
    is undefined, for all sizes. *)
Theorem C72_haswell_refuted :
  forall h c q S elem add num (nz : elt S -> bool) one check rndA rndB argc M K N p ntrials m0,
  query_cntx haswell h = CRet c -> usual c ->
  0 < M -> 0 < N -> 0 < K -> 0 < p -> M + 8 * p < 2 ^ 24 -> 6 <= argc -> 0 < ntrials ->
  nothing_yet m0 -> live m0 tttmp = None -> live m0 ressss = None ->
  always_undefined (example_main S elem add num ieee haswell q nz one check None rndA rndB argc M K N p ntrials c) m0.
Proof.
  intros. eapply main_haswell; eauto. eapply (tile_legal haswell h c M N K p); eauto; lia.
Qed.
Print Assumptions C72_haswell_refuted.

(** Refuted with the flush, for every build, size and number of trials: it adds to elements of an
    array fresh from malloc, so every execution is undefined. *)
Theorem C72_flush_refuted :
  forall S elem add num F ar q (nz : elt S -> bool) one check rndA rndB argc M K N p ntrials c m0 flushsz,
  6 <= argc -> 0 < ntrials -> 0 <= M -> 0 <= N -> 0 <= K -> 0 < flushsz ->
  nothing_yet m0 -> live m0 tttmp = None -> live m0 ressss = None -> live m0 dirty = None ->
  always_undefined (example_main S elem add num F ar q nz one check (Some flushsz) rndA rndB argc M K N p ntrials c) m0.
Proof. intros. now apply main_flush. Qed.
Print Assumptions C72_flush_refuted.

(** Initialising the two arrays would not be enough: 18 iterations apart, two threads add to the same
    element of tttmp, and some execution of the loop has a data race. *)
Theorem C72_flush_race_refuted :
  forall S add num flushsz m, 19 <= flushsz ->
  (forall i, 0 <= i < flushsz -> exists v, cell m dirty i v) -> (forall i, 0 <= i < 18 -> exists v, cell m tttmp i v) ->
  pexec (flush_loop S add num flushsz) m Undef.
Proof. exact flush_race. Qed.
Print Assumptions C72_flush_race_refuted.

(** With at most 18 elements and both arrays initialised the loop would be defined, and would add
    the index to each element of dirty and the result to tttmp.  (The remainders by 100 and 18 are the
    index.) *)
Theorem C72_flush_loop :
  forall S add num flushsz m (d t : Z -> elt S), 0 <= flushsz <= 18 ->
  (forall i, 0 <= i < flushsz -> cell m dirty i (d i)) -> (forall i, 0 <= i < flushsz -> cell m tttmp i (t i)) ->
  always (flush_loop S add num flushsz) m (fun _ m' =>
    (forall b, live m' b = live m b) /\
    (forall i, 0 <= i < flushsz ->
       dat m' dirty i = Some (add (d i) (num i)) /\ dat m' tttmp i = Some (add (t i) (add (d i) (num i)))) /\
    (forall b i, ~ ((b = dirty \/ b = tttmp) /\ 0 <= i < flushsz) -> dat m' b i = dat m b i)).
Proof. intros. apply Mult_facts.pok_always. now apply flush_loop_ok. Qed.
Print Assumptions C72_flush_loop.

(** The loop after it adds the 18 elements of tttmp to ressss, in order, if they are initialised. *)
Theorem C72_flush_sum :
  forall S add m (t : Z -> elt S) r, (forall i, 0 <= i < 18 -> cell m tttmp i (t i)) -> cell m ressss 0 r ->
  always (pseq (flush_sum S add)) m (fun _ m' =>
    (forall b, live m' b = live m b) /\
    dat m' ressss 0 = Some (List.fold_left (fun s i => add s (t i)) (zrange 0 18) r) /\
    (forall b i, ~ (b = ressss /\ i = 0) -> dat m' b i = dat m b i)).
Proof. intros. apply Mult_facts.pok_always. now apply flush_sum_ok. Qed.
Print Assumptions C72_flush_sum.

(** The sum of 1, ..., 18 added to 1000. *)
Definition smem18 : mem Z :=
  Mem (fun b => match b with BufX 4 | BufX 5 => Some (BInfo 18 false) | BufX 6 => Some (BInfo 1 false) | _ => None end)
      (fun b i => match b with BufX 6 => Some 1000 | _ => Some (i + 1) end).

Example C72_flush_applies :
  (forall i, 0 <= i < 18 -> cell smem18 dirty i (i + 1) /\ cell smem18 tttmp i (i + 1)) /\ cell smem18 ressss 0 1000 /\
  match pseqexec (flush_loop Zs Z.add (fun i => i) 18) smem18 with
  | Done _ m' => dat m' dirty 17 = Some 35 /\ dat m' tttmp 17 = Some 53 | _ => False end /\
  match pseqexec (pseq (flush_sum Zs Z.add)) smem18 with Done _ m' => dat m' ressss 0 = Some 1171 | _ => False end.
Proof.
  split; [|split; [|vm_compute; auto]].
  - intros i Hi. split; (exists (BInfo 18 false); split; [reflexivity|split; [cbn; lia|reflexivity]]).
  - exists (BInfo 1 false). split; [reflexivity|split; [cbn; lia|reflexivity]].
Qed.

(** Refuted with two, three or four arguments: the program asks for at least two but reads five. *)
Theorem C72_few_arguments_refuted :
  forall S elem add num F ar q (nz : elt S -> bool) one check fl rndA rndB argc M K N p ntrials c m0, 3 <= argc < 6 ->
  always_undefined (example_main S elem add num F ar q nz one check fl rndA rndB argc M K N p ntrials c) m0.
Proof. intros. now apply main_few. Qed.
Print Assumptions C72_few_arguments_refuted.

(** A machine both builds accept, a run of the ARM one with two trials, and memory that
    meets the hypotheses of the race. *)
Definition xmem : mem Z :=
  Mem (fun b => match b with BufX 4 => Some (BInfo 19 false) | BufX 5 => Some (BInfo 18 false) | _ => None end)
      (fun _ _ => Some 0).

Example C72_applies :
  (exists c, query_cntx armv8 i9 = CRet c /\ usual c) /\ (exists c, query_cntx haswell i9 = CRet c /\ usual c) /\
  nothing_yet tmem /\ live tmem tttmp = None /\ live tmem ressss = None /\ live tmem dirty = None /\ at_least tmem retb 1 /\
  (forall i, 0 <= i < 19 -> exists v, cell xmem dirty i v) /\ (forall i, 0 <= i < 18 -> exists v, cell xmem tttmp i v) /\
  (exists c, query_cntx armv8 i9 = CRet c /\
    sout (pseqexec (example_main Single rand_elem (fun x _ => x) single_of_int ieee armv8 c is1 (single_of_int 1)
         (cake_sgemm_checker Single_mul_add far_single sok sbad (BufA, 0) (BufB, 0) (BufC, 0))
         None (fun x => x * 100000007) (fun x => 2 ^ 31 - 1 - x) 6 3 4 2 2 2 c) tmem) retb 0 = Some (B2SF sok)).
Proof.
  split; [eexists; split; [vm_compute; reflexivity|vm_compute; repeat split; congruence]|].
  split; [eexists; split; [vm_compute; reflexivity|vm_compute; repeat split; congruence]|].
  split; [apply t_nothing|]. do 3 (split; [reflexivity|]).
  split; [exists (BInfo 1 false); split; [reflexivity|cbn; lia]|].
  split; [intros i Hi; exists 0, (BInfo 19 false); auto|]. split; [intros i Hi; exists 0, (BInfo 18 false); auto|].
  eexists. split; [vm_compute; reflexivity|]. vm_compute. reflexivity.
Qed.
