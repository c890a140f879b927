(** * Properties of cake_sgemm on the library's own numbers, binary32 floats. *)

From Coq Require Import ZArith Reals List Bool Lia Lra.
From Flocq Require Import Core BinarySingleNaN.
From Verif Require Import Lang Spec SpecTop SpecSingle ModelSizing ModelIEEE ModelSingle ModelTop ModelUtil
     Exec Exec_facts Witness Witness_facts Single_facts SingleTop_facts WitnessSingle.
Open Scope Z_scope.

(** C53.  Every element of C has the classical error bound of a sum of K products, for every
    schedule, tile size, thread count and interleaving: the difference to the exact product is at
    most ((1+2^-24)^K - 1) times the sum of the absolute values of the terms, plus the
    underflow.  Nothing overflows if the absolute values cannot sum up to 2^128. *)
Theorem C53_accuracy :
  forall F ar q (nz : single -> bool) M N K p c alpha beta s mcu kcu ncu t A B m0,
  legal F ar s c M N K p mcu kcu ncu -> s = KMN \/ nz beta = false -> tail_ok c K p mcu kcu ncu t ->
  caller m0 M N K A B -> (s <> KMN -> B_rim m0 N K (nr c) t) -> all_finite M K A -> all_finite K N B ->
  (forall i j, 0 <= i < M -> 0 <= j < N -> no_overflow K (mass A B K i j)) ->
  always (cake_sgemm Single F ar q nz M N K p (Some c) false false alpha beta s mcu kcu ncu) m0 (fun _ m' =>
    exists C, holds m' BufC M N C /\ forall i j, 0 <= i < M -> 0 <= j < N ->
      finite (C i j) /\ accurate K (C i j) (exact A B K i j) (mass A B K i j)).
Proof. intros; eapply sgemm_accurate; eauto. Qed.
Print Assumptions C53_accuracy.

(** The factor is at most 2K/2^24 for K up to 2^23. *)
Theorem C53_factor : forall K, 0 <= K <= 2 ^ 23 -> (grow K - 1 <= 2 * IZR K * / 2 ^ 24)%R.
Proof. exact grow_small. Qed.
Print Assumptions C53_factor.

Example C53_applies :
  let A := fun i k => i * 5 + k + 1 in let B := fun k j => 2 * (k * 32 + j) - 3 in
  let Af := fun i k => single_of_int (A i k) in let Bf := fun k j => single_of_int (B k j) in
  legal wF haswell MKN wctx 13 32 5 2 6 2 16 /\ is1 sok = false /\ tail_ok wctx 5 2 6 2 16 0 /\
  caller (smem 13 32 5 wA wB) 13 32 5 Af Bf /\ B_rim (smem 13 32 5 wA wB) 32 5 16 0 /\
  all_finite 13 5 Af /\ all_finite 5 32 Bf /\
  (forall i j, 0 <= i < 13 -> 0 <= j < 32 -> no_overflow 5 (mass Af Bf 5 i j)) /\
  sout (pseqexec (srun 13 32 5 2 MKN 6 2 16) (smem 13 32 5 wA wB)) BufC (12 * 32 + 31) = Some (B2SF (single_of_int 59545)).
Proof.
  intros A B Af Bf.
  split; [apply w_legal; reflexivity || discriminate|]. split; [reflexivity|]. split; [left; reflexivity|].
  split; [apply s_caller|]. split; [apply w_rim; [reflexivity|exists 2; reflexivity]|].
  split; [intros i k Hi Hk; apply s_finite; unfold A; lia|]. split; [intros k j Hk Hj; apply s_finite; unfold B; lia|].
  split.
  - intros i j Hi Hj. apply s_no_overflow; [lia|]. apply s_mass; [lia|]. intros k Hk. unfold A, B. lia.
  - vm_compute. reflexivity.
Qed.

(** C54.  On integers, if the absolute values of the terms of each element sum up to at most 2^24,
    C is exact, and hence the same for every schedule, tile size and thread count. *)
Theorem C54_exact_integers :
  forall F ar q (nz : single -> bool) M N K p c alpha beta s mcu kcu ncu t A B a b m0,
  legal F ar s c M N K p mcu kcu ncu -> s = KMN \/ nz beta = false -> tail_ok c K p mcu kcu ncu t ->
  caller m0 M N K A B -> (s <> KMN -> B_rim m0 N K (nr c) t) ->
  (forall i k, 0 <= i < M -> 0 <= k < K -> is_int (A i k) (a i k)) ->
  (forall k j, 0 <= k < K -> 0 <= j < N -> is_int (B k j) (b k j)) ->
  (forall i j, 0 <= i < M -> 0 <= j < N -> massZ a b K i j <= 2 ^ 24) ->
  always (cake_sgemm Single F ar q nz M N K p (Some c) false false alpha beta s mcu kcu ncu) m0 (fun _ m' =>
    exists C, holds m' BufC M N C /\ forall i j, 0 <= i < M -> 0 <= j < N -> is_int (C i j) (exactZ a b K i j)).
Proof. intros; eapply sgemm_int; eauto. Qed.
Print Assumptions C54_exact_integers.

Example C54_applies :
  let a := fun i k => i * 5 + k + 1 in let b := fun k j => 2 * (k * 32 + j) - 3 in
  (forall i k, 0 <= i < 13 -> 0 <= k < 5 -> is_int (single_of_int (a i k)) (a i k)) /\
  (forall k j, 0 <= k < 5 -> 0 <= j < 32 -> is_int (single_of_int (b k j)) (b k j)) /\
  (forall i j, 0 <= i < 13 -> 0 <= j < 32 -> massZ a b 5 i j <= 2 ^ 24) /\ exactZ a b 5 12 31 = 59545.
Proof.
  intros a b. split; [intros i k Hi Hk; apply s_int; unfold a; lia|]. split; [intros k j Hk Hj; apply s_int; unfold b; lia|].
  split; [|reflexivity]. intros i j Hi Hj. unfold massZ. change (zrange 0 5) with (0 :: 1 :: 2 :: 3 :: 4 :: nil)%list.
  cbn [fold_right]. unfold a, b. nia.
Qed.

(** With terms just above, the tile sizes change the result: rows 2^24, 1, -2^24 times ones. *)
Definition bigA (i : Z) : Z := match i mod 3 with 0 => 2 ^ 24 | 1 => 1 | _ => - 2 ^ 24 end.

Theorem C54_larger_integers_refuted :
  exists M N K A B m0 o1 o2, legal wF haswell KMN wctx M N K 1 6 1 16 /\ legal wF haswell KMN wctx M N K 1 0 0 0 /\
    caller m0 M N K A B /\
    (forall i k, 0 <= i < M -> 0 <= k < K -> exists n, is_int (A i k) n /\ Z.abs n <= 2 ^ 24) /\
    (forall k j, 0 <= k < K -> 0 <= j < N -> is_int (B k j) 1) /\
    pexec (srun M N K 1 KMN 6 1 16) m0 o1 /\ pexec (srun M N K 1 KMN 0 0 0) m0 o2 /\
    sout o1 BufC (6 * N) = Some (B2SF (single_of_int 1)) /\ sout o2 BufC (6 * N) = Some (B2SF (single_of_int 0)).
Proof.
  exists 12, 16, 3, (fun i k => single_of_int (bigA (i * 3 + k))), (fun k j => single_of_int 1), (smem 12 16 3 bigA (fun _ => 1)).
  exists (pseqexec (srun 12 16 3 1 KMN 6 1 16) (smem 12 16 3 bigA (fun _ => 1))),
         (pseqexec (srun 12 16 3 1 KMN 0 0 0) (smem 12 16 3 bigA (fun _ => 1))).
  split; [apply w_legal; reflexivity || discriminate|]. split; [apply w_legal_auto; reflexivity || discriminate|].
  split; [exact (s_caller 12 16 3 bigA (fun _ => 1))|]. split.
  { intros i k Hi Hk. exists (bigA (i * 3 + k)). assert (Z.abs (bigA (i * 3 + k)) <= 2 ^ 24).
    { unfold bigA. destruct ((i * 3 + k) mod 3) as [|[ | |]|]; lia. } split; [now apply s_int|auto]. }
  split; [intros; apply s_int; lia|]. split; [apply pseqexec_sound|split; [apply pseqexec_sound|]].
  split; vm_compute; reflexivity.
Qed.
Print Assumptions C54_larger_integers_refuted.

(** C29 in binary32: cake_sgemm_checker returns 0 exactly when the binary32 difference between
    each element of C and of the reference product is at most the tolerance, or is not a number. *)
Theorem C29_checker_binary32 :
  forall ok bad M N K (A B C : Z -> Z -> single) m,
  0 <= M -> 0 <= N -> 0 <= K -> ok <> bad ->
  at_least m BufA (M * K) -> holds m BufA M K A ->
  at_least m BufB (K * N) -> holds m BufB K N B ->
  at_least m BufC (M * N) -> holds m BufC M N C ->
  at_least m retb 1 -> live m ckbuf = None ->
  always (cake_sgemm_checker Single_mul_add far_single ok bad (BufA, 0) (BufB, 0) (BufC, 0) N M K) m (fun _ m' =>
    dat m' retb 0 = Some ok <->
    forall i j, 0 <= i < M -> 0 <= j < N ->
      let d := ssub (product Single_mul_add A B (fun _ _ => zrange 0 K) i j) (C i j) in
      is_nan d = true \/ (finite d /\ (Rabs (val d) <= val eps_single)%R)).
Proof. exact checker_single. Qed.
Print Assumptions C29_checker_binary32.

Example C29_binary32_applies :
  let m := smem 13 33 5 (fun _ => 3) (fun _ => 5) in
  sok <> sbad /\ at_least m BufA (13 * 5) /\ at_least m BufB (5 * 33) /\ at_least m BufC (13 * 33) /\ at_least m retb 1 /\
  live m ckbuf = None.
Proof.
  split; [discriminate|]. repeat split; try (eexists; split; [reflexivity|cbn; lia]).
Qed.

(** C55.  The library's checker accepts what cake_sgemm computes, if the error bounds of the two
    summations together are below 1/1000.  (The checker rounds products and sums separately.) *)
Theorem C55_checker_accepts :
  forall F ar q (nz : single -> bool) M N K p c alpha beta s mcu kcu ncu t ok bad A B m0,
  legal F ar s c M N K p mcu kcu ncu -> s = KMN \/ nz beta = false -> tail_ok c K p mcu kcu ncu t ->
  caller m0 M N K A B -> (s <> KMN -> B_rim m0 N K (nr c) t) -> all_finite M K A -> all_finite K N B ->
  at_least m0 retb 1 ->
  (forall i j, 0 <= i < M -> 0 <= j < N ->
    ((2 * grow (K + 1) - 2) * mass A B K i j + 3 * IZR K * grow (K + 1) * / 2 ^ 150 <= 1 / 1000)%R /\
    (grow (K + 1) * mass A B K i j + 2 * IZR K * grow (K + 1) * / 2 ^ 150 < 2 ^ 128)%R) ->
  always (pbind (cake_sgemm Single F ar q nz M N K p (Some c) false false alpha beta s mcu kcu ncu)
                (fun _ => cake_sgemm_checker Single_mul_add far_single ok bad (BufA, 0) (BufB, 0) (BufC, 0) N M K)) m0
    (fun _ m' => (forall b, live m' b = live m0 b) /\ dat m' retb 0 = Some ok).
Proof. intros; eapply sgemm_then_check; eauto. Qed.
Print Assumptions C55_checker_accepts.

(** Refuted for larger entries: 4097*4097 - 4097*4097 is reported as wrong, although it
    has the accuracy of C53. *)
Definition pmA (i : Z) : Z := if Z.even i then 4097 else -4097.

Theorem C55_checker_rejects_refuted :
  exists M N K A B m0 o, legal wF haswell KMN wctx M N K 1 6 2 16 /\ caller m0 M N K A B /\ at_least m0 retb 1 /\
    all_finite M K A /\ all_finite K N B /\
    (forall i j, 0 <= i < M -> 0 <= j < N -> no_overflow K (mass A B K i j)) /\
    pexec (scheck M N K 1 KMN 6 2 16) m0 o /\ sout o retb 0 = Some (B2SF sbad).
Proof.
  exists 1, 1, 2, (fun i k => single_of_int (pmA (i * 2 + k))), (fun k j => single_of_int 4097), (smem 1 1 2 pmA (fun _ => 4097)).
  exists (pseqexec (scheck 1 1 2 1 KMN 6 2 16) (smem 1 1 2 pmA (fun _ => 4097))).
  split; [apply w_legal; reflexivity || discriminate|].
  split; [exact (s_caller 1 1 2 pmA (fun _ => 4097))|]. split; [exists (BInfo 1 false); split; [reflexivity|cbn; lia]|].
  assert (P : forall x, Z.abs (pmA x) <= 4097) by (intros x; unfold pmA; destruct (Z.even x); lia).
  split; [intros i k Hi Hk; apply s_finite; specialize (P (i * 2 + k)); lia|].
  split; [intros i k Hi Hk; apply s_finite; lia|]. split; [|split; [apply pseqexec_sound|vm_compute; reflexivity]].
  intros i j Hi Hj. apply s_no_overflow; [lia|].
  apply (s_mass (fun i k => pmA (i * 2 + k)) (fun _ _ => 4097)); [lia|]. intros k Hk. specialize (P (i * 2 + k)). lia.
Qed.
Print Assumptions C55_checker_rejects_refuted.

Example C55_applies :
  let A := fun i k : Z => single_of_int 3 in let B := fun k j : Z => single_of_int 5 in
  caller (smem 13 33 5 (fun _ => 3) (fun _ => 5)) 13 33 5 A B /\ at_least (smem 13 33 5 (fun _ => 3) (fun _ => 5)) retb 1 /\
  (forall i j, ((2 * grow (5 + 1) - 2) * mass A B 5 i j + 3 * IZR 5 * grow (5 + 1) * / 2 ^ 150 <= 1 / 1000)%R /\
    (grow (5 + 1) * mass A B 5 i j + 2 * IZR 5 * grow (5 + 1) * / 2 ^ 150 < 2 ^ 128)%R) /\
  sout (pseqexec (scheck 13 33 5 2 KMN 6 2 16) (smem 13 33 5 (fun _ => 3) (fun _ => 5))) retb 0 = Some (B2SF sok).
Proof.
  intros A B. split; [apply s_caller|]. split; [exists (BInfo 1 false); split; [reflexivity|cbn; lia]|].
  split; [|vm_compute; reflexivity]. intros i j.
  assert (E : mass A B 5 i j = 75%R).
  { unfold mass, sumR. change (zrange 0 5) with (0 :: 1 :: 2 :: 3 :: 4 :: nil)%list. cbn [fold_right]. unfold A, B.
    destruct (s_int 3 ltac:(lia)) as (_ & ->). destruct (s_int 5 ltac:(lia)) as (_ & ->). rewrite Rabs_pos_eq; lra. }
  rewrite E. pose proof (grow_small 6 ltac:(lia)) as G. pose proof (gg_ge1 6) as G1.
  change (grow (5 + 1)) with (grow 6) in *. rewrite uu_val in G. pose proof eta_tiny. pose proof eta_pos. pose proof big128.
  assert (2 ^ 40 = 1099511627776)%R as E40 by (cbn; lra). rewrite E40 in *.
  change (1 <= grow 6)%R in G1. generalize dependent (grow 6). intros g. intros.
  assert (g * / 2 ^ 150 <= 2 * / 1000000)%R by (apply Rmult_le_compat; lra).
  split; lra.
Qed.
