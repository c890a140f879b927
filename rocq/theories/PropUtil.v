(** * Properties of the utilities: transposition, the checkers, clamping, the autotuner's
    candidates, and the context made for PyTorch. *)

From Coq Require Import ZArith List Bool Lia Znumtheory SpecFloat.
From Verif Require Import Lang Spec SpecTop ModelSizing ModelKernel ModelPack ModelSched ModelTop ModelTrans ModelUtil
     Exec Exec_facts Witness Witness_facts Mult_facts Refute_facts Trans_facts Util_facts Torch_facts BadMap_facts TorchExact_facts SpecLinear SpecTouch.
Import ListNotations.
Open Scope Z_scope.

(** C27.  transpose_mat(A, At, K, N, Kt, Nt) leaves the transpose of the K x N matrix A in At,
    touches nothing else and is never undefined, in every interleaving, if K is a
    multiple of 8, or the N columns fit in one tile (8 columns, or Nt rounded down to a
    multiple of 8).  The tile arguments may be anything above -8.  [C27_transpose_mat_refuted] shows that
    in every other case the threads race. *)
Theorem C27_transpose_mat :
  forall S K N Kt Nt (f : Z -> Z -> elt S) m,
  0 <= K -> 0 <= N -> -8 < Kt -> -8 < Nt ->
  at_least m BufA (K * N) -> holds m BufA K N f -> at_least m BufB (N * K) ->
  (8 | K) \/ N <= 8 \/ N <= 8 * (Nt / 8) ->
  always (transpose_mat S (BufA, 0) (BufB, 0) K N Kt Nt) m (fun _ m' =>
    holds m' BufB N K (fun n k => f k n) /\
    (forall b, live m' b = live m b) /\
    (forall b i, ~ (b = BufB /\ 0 <= i < N * K) -> dat m' b i = dat m b i)).
Proof.
  intros S K N Kt Nt f m HK HN H1 H2 HA HH HB H3.
  exact (transpose_mat_ok S K N Kt Nt f m HK HN HA HH HB H1 H2 H3).
Qed.
Print Assumptions C27_transpose_mat.

(** In all the other cases two threads write the same element of At: some execution is
    undefined. *)
Theorem C27_transpose_mat_refuted :
  forall S K N Kt Nt (f : Z -> Z -> elt S) m,
  0 <= K -> 0 <= N -> -8 < Kt -> -8 < Nt ->
  at_least m BufA (K * N) -> holds m BufA K N f -> at_least m BufB (N * K) ->
  ~ ((8 | K) \/ N <= 8 \/ N <= 8 * (Nt / 8)) ->
  pexec (transpose_mat S (BufA, 0) (BufB, 0) K N Kt Nt) m Undef.
Proof.
  intros S K N Kt Nt f m HK HN H1 H2 HA HH HB H3.
  apply (transpose_mat_race S K N Kt Nt f m HK HN HA HH HB H1 H2); [tauto|lia|lia].
Qed.
Print Assumptions C27_transpose_mat_refuted.

(** Both together: exactly when it is safe. *)
Theorem C27_transpose_mat_iff :
  forall S K N Kt Nt (f : Z -> Z -> elt S) m,
  0 <= K -> 0 <= N -> -8 < Kt -> -8 < Nt ->
  at_least m BufA (K * N) -> holds m BufA K N f -> at_least m BufB (N * K) ->
  (~ pexec (transpose_mat S (BufA, 0) (BufB, 0) K N Kt Nt) m Undef <-> (8 | K) \/ N <= 8 \/ N <= 8 * (Nt / 8)).
Proof.
  intros S K N Kt Nt f m HK HN H1 H2 HA HH HB. split.
  - intros Hn. destruct (Zdivide_dec 8 K); [auto|]. destruct (Z_le_gt_dec N 8); [auto|].
    destruct (Z_le_gt_dec N (8 * (Nt / 8))); [auto|]. exfalso. apply Hn.
    apply (C27_transpose_mat_refuted S K N Kt Nt f m); auto. intros [?|[?|?]]; [auto|lia|lia].
  - intros Hc. eapply always_no_undef. apply (C27_transpose_mat S K N Kt Nt f m); auto.
Qed.
Print Assumptions C27_transpose_mat_iff.

(** With a single OpenMP thread the iterations follow one another and the result is right for
    every size. *)
Theorem C27_one_thread :
  forall S K N Kt Nt (f : Z -> Z -> elt S) m,
  0 <= K -> 0 <= N -> -8 < Kt -> -8 < Nt ->
  at_least m BufA (K * N) -> holds m BufA K N f -> at_least m BufB (N * K) ->
  always (transpose_mat_1thread S (BufA, 0) (BufB, 0) K N Kt Nt) m (fun _ m' =>
    holds m' BufB N K (fun n k => f k n) /\
    (forall b, live m' b = live m b) /\
    (forall b i, ~ (b = BufB /\ 0 <= i < N * K) -> dat m' b i = dat m b i)).
Proof.
  intros S K N Kt Nt f m HK HN H1 H2 HA HH HB.
  exact (transpose_mat_1thread_ok S K N Kt Nt f m HK HN HA HH HB H1 H2).
Qed.
Print Assumptions C27_one_thread.

(** transpose(At, A, M, K) of src/util.cpp. *)
Theorem C27_transpose :
  forall S M K (f : Z -> Z -> elt S) m,
  0 <= M -> 0 <= K -> at_least m BufA (M * K) -> holds m BufA M K f -> at_least m BufB (K * M) ->
  always (transpose S (BufB, 0) (BufA, 0) M K) m (fun _ m' =>
    holds m' BufB K M (fun k i => f i k) /\
    (forall b, live m' b = live m b) /\
    (forall b i, ~ (b = BufB /\ 0 <= i < K * M) -> dat m' b i = dat m b i)).
Proof. exact transpose_ok. Qed.
Print Assumptions C27_transpose.

(** a 16 x 11 matrix of integers and room for its transpose *)
Definition tmem (K N : Z) : mem Z := mem3 (K * N) (N * K) 0 (fun i => Some (wA i)) (fun _ => None) (fun _ => None).

Example C27_applies :
  (at_least (tmem 16 11) BufA (16 * 11) /\ holds (tmem 16 11) BufA 16 11 (fun k n => wA (k * 11 + n)) /\
   at_least (tmem 16 11) BufB (11 * 16) /\ (8 | 16)) /\
  match pseqexec (transpose_mat Zs (BufA, 0) (BufB, 0) 16 11 8 8) (tmem 16 11) with
  | Done _ m' => dat m' BufB (10 * 16 + 15) = Some (15 * 11 + 10 + 1) | _ => False end.
Proof.
  split.
  - split; [exists (BInfo 176 false); split; [reflexivity|cbn; lia]|].
    split; [intros i j _ _; reflexivity|].
    split; [exists (BInfo 176 false); split; [reflexivity|cbn; lia]|exists 2; reflexivity].
  - vm_compute. reflexivity.
Qed.

Example C27_refuted_applies : ~ ((8 | 1) \/ 16 <= 8 \/ 16 <= 8 * (8 / 8)).
Proof. intros [(x & E)|[H|H]]; [lia|lia|]. change (8 * (8 / 8)) with 8 in H. lia. Qed.

(** C28.  transpose_8x8 stores the transpose of the 8 x 8 tile, for arbitrary elements of any
    type and any leading dimensions, and changes nothing else. *)
Theorem C28_transpose_8x8 :
  forall S lda ldb oa ob (f : Z -> Z -> elt S) m,
  0 <= oa -> 0 <= ob -> 0 <= lda -> 8 <= ldb ->
  at_least m BufA (oa + 7 * lda + 8) -> at_least m BufB (ob + 7 * ldb + 8) ->
  (forall i j, 0 <= i < 8 -> 0 <= j < 8 -> dat m BufA (oa + i * lda + j) = Some (f i j)) ->
  always (pseq (transpose_8x8 S (BufA, oa) (BufB, ob) lda ldb)) m (fun _ m' =>
    (forall i j, 0 <= i < 8 -> 0 <= j < 8 -> dat m' BufB (ob + i * ldb + j) = Some (f j i)) /\
    (forall b, live m' b = live m b) /\
    (forall b x, ~ (b = BufB /\ exists i j, 0 <= i < 8 /\ 0 <= j < 8 /\ x = ob + i * ldb + j) ->
       dat m' b x = dat m b x)).
Proof. exact transpose_8x8_ok. Qed.
Print Assumptions C28_transpose_8x8.

Example C28_applies :
  at_least (tmem 16 11) BufA (22 + 7 * 11 + 8) /\ at_least (tmem 16 11) BufB (3 + 7 * 16 + 8) /\
  match pseqexec (pseq (transpose_8x8 Zs (BufA, 22) (BufB, 3) 11 16)) (tmem 16 11) with
  | Done _ m' => dat m' BufB (3 + 5 * 16 + 6) = Some (22 + 6 * 11 + 5 + 1) /\ dat m' BufB 2 = None | _ => False end.
Proof.
  split; [exists (BInfo 176 false); split; [reflexivity|cbn; lia]|].
  split; [exists (BInfo 176 false); split; [reflexivity|cbn; lia]|].
  vm_compute. split; reflexivity.
Qed.

(** C29.  cake_sgemm_checker returns 0 (coded [ok]) exactly when no element of C is farther than
    the tolerance from the reference product, whose elements are summed from 0 in the order
    k = 0 .. K-1; it changes no object but the result.  [far a b] is the comparison
    fabs(a - b) > eps. *)
Theorem C29_checker :
  forall (S : scalar) (far : S -> S -> bool) ok bad M N K (A B C : Z -> Z -> elt S) m,
  0 <= M -> 0 <= N -> 0 <= K ->
  at_least m BufA (M * K) -> holds m BufA M K A ->
  at_least m BufB (K * N) -> holds m BufB K N B ->
  at_least m BufC (M * N) -> holds m BufC M N C ->
  at_least m retb 1 -> live m ckbuf = None ->
  always (cake_sgemm_checker S far ok bad (BufA, 0) (BufB, 0) (BufC, 0) N M K) m (fun _ m' =>
    (forall b, live m' b = live m b) /\
    (forall b x, live m b <> None -> ~ (b = retb /\ x = 0) -> dat m' b x = dat m b x) /\
    exists r : bool, dat m' retb 0 = Some (if r then ok else bad) /\
      (r = true <-> forall i j, 0 <= i < M -> 0 <= j < N ->
         far (product S A B (fun _ _ => zrange 0 K) i j) (C i j) = false)).
Proof. exact checker_ok. Qed.
Print Assumptions C29_checker.

(** For binary32 numbers [far] does not mean "differs by more than the tolerance": a C full of
    NaN is reported correct, whatever the matrices. *)
Theorem C29_nan_refuted :
  forall ok bad M N K (A B : Z -> Z -> elt F32) m,
  0 <= M -> 0 <= N -> 0 <= K ->
  at_least m BufA (M * K) -> holds m BufA M K A ->
  at_least m BufB (K * N) -> holds m BufB K N B ->
  at_least m BufC (M * N) -> holds m BufC M N (fun _ _ => S754_nan) ->
  at_least m retb 1 -> live m ckbuf = None ->
  always (cake_sgemm_checker F32 far32 ok bad (BufA, 0) (BufB, 0) (BufC, 0) N M K) m (fun _ m' =>
    dat m' retb 0 = Some ok).
Proof.
  intros ok bad M N K A B m HM HN HK H1 H2 H3 H4 H5 H6 H7 H8.
  eapply always_mono; [exact (checker_ok F32 far32 ok bad M N K A B _ m HM HN HK H1 H2 H3 H4 H5 H6 H7 H8)|].
  cbv beta. intros _ m' (_ & _ & r & Hr1 & Hr2). rewrite Hr1.
  assert (r = true) as ->; [|reflexivity]. apply Hr2. intros i j _ _. apply far_nan.
Qed.
Print Assumptions C29_nan_refuted.

(** A = 2x2, B = 2x2, C = their product or not; the result's object is there *)
Definition ckmem (d : Z) : mem Z :=
  Mem (fun b => match b with BufA | BufB | BufC => Some (BInfo 4 false) | BufX 3 => Some (BInfo 1 false) | _ => None end)
      (fun b i => match b with
                  | BufA | BufB => Some (i + 1)
                  | BufC => Some (match i with 0 => 7 | 1 => 10 | 2 => 15 | _ => 22 + d end)
                  | _ => None end).

Example C29_applies :
  let far := fun a b => 1 <? Z.abs (a - b) in
  let res := fun o => match o with Done _ m => dat m retb 0 | _ => None end in
  (at_least (ckmem 0) BufA 4 /\ at_least (ckmem 0) BufC 4 /\ at_least (ckmem 0) retb 1 /\ live (ckmem 0) ckbuf = None /\
   holds (ckmem 0) BufA 2 2 (fun i j => i * 2 + j + 1)) /\
  res (pseqexec (cake_sgemm_checker Zs far 0 1 (BufA, 0) (BufB, 0) (BufC, 0) 2 2 2) (ckmem 0)) = Some 0 /\
  res (pseqexec (cake_sgemm_checker Zs far 0 1 (BufA, 0) (BufB, 0) (BufC, 0) 2 2 2) (ckmem 1)) = Some 0 /\
  res (pseqexec (cake_sgemm_checker Zs far 0 1 (BufA, 0) (BufB, 0) (BufC, 0) 2 2 2) (ckmem 2)) = Some 1 /\
  (* the distance that is far and the one that is not, in binary32: 1 and 1.0005, 1.002 *)
  far32 (S754_finite false 8388608 (-23)) (S754_finite false 8392802 (-23)) = false /\
  far32 (S754_finite false 8388608 (-23)) (S754_finite false 8405385 (-23)) = true.
Proof.
  cbv zeta. split.
  - split; [exists (BInfo 4 false); split; [reflexivity|cbn; lia]|].
    split; [exists (BInfo 4 false); split; [reflexivity|cbn; lia]|].
    split; [exists (BInfo 1 false); split; [reflexivity|cbn; lia]|].
    split; [reflexivity|]. intros i j _ _. reflexivity.
  - vm_compute. repeat (split; [reflexivity|]). reflexivity.
Qed.

(** C42.  add_checker returns 0 exactly when no element of C is farther than the tolerance from
    the sum, from 0 in order, of the elements of the p arrays. *)
Theorem C42_add_checker :
  forall (S : scalar) (far : S -> S -> bool) (add : S -> S -> S) ok bad M N p (g : Z -> Z -> elt S) (C : Z -> elt S) m,
  0 <= M -> 0 <= N -> 0 <= p ->
  (forall c, 0 <= c < p -> at_least m (BufCp c) (M * N)) ->
  (forall c i, 0 <= c < p -> 0 <= i < M * N -> dat m (BufCp c) i = Some (g c i)) ->
  at_least m BufC (M * N) -> (forall i, 0 <= i < M * N -> dat m BufC i = Some (C i)) ->
  at_least m retb 1 -> live m ckbuf = None ->
  always (add_checker S far add ok bad (fun c => (BufCp c, 0)) (BufC, 0) M N p) m (fun _ m' =>
    (forall b, live m' b = live m b) /\
    (forall b x, live m b <> None -> ~ (b = retb /\ x = 0) -> dat m' b x = dat m b x) /\
    exists r : bool, dat m' retb 0 = Some (if r then ok else bad) /\
      (r = true <-> forall i, 0 <= i < M * N ->
         far (fold_left (fun s c => add s (g c i)) (zrange 0 p) (zero S)) (C i) = false)).
Proof. exact add_checker_ok. Qed.
Print Assumptions C42_add_checker.

(** three arrays of 4 elements *)
Definition admem (d : Z) : mem Z :=
  Mem (fun b => match b with BufCp _ | BufC => Some (BInfo 4 false) | BufX 3 => Some (BInfo 1 false) | _ => None end)
      (fun b i => match b with BufCp c => Some (10 * c + i) | BufC => Some (30 + 3 * i + d) | _ => None end).

Example C42_applies :
  let far := fun a b => 1 <? Z.abs (a - b) in
  let res := fun o => match o with Done _ m => dat m retb 0 | _ => None end in
  res (pseqexec (add_checker Zs far Z.add 0 1 (fun c => (BufCp c, 0)) (BufC, 0) 2 2 3) (admem 1)) = Some 0 /\
  res (pseqexec (add_checker Zs far Z.add 0 1 (fun c => (BufCp c, 0)) (BufC, 0) 2 2 3) (admem 2)) = Some 1.
Proof. vm_compute. split; reflexivity. Qed.

(** C31.  clamp_val(d, min, max) with min <= max lies between them and is d if d does, for all
    doubles but NaN. *)
Theorem C31_clamp :
  forall d mn mx : spec_float, d <> S754_nan -> SFleb mn mx = true ->
  SFleb mn (clamp_val d mn mx) = true /\ SFleb (clamp_val d mn mx) mx = true /\
  (SFleb mn d = true -> SFleb d mx = true -> clamp_val d mn mx = d).
Proof. exact clamp_spec. Qed.
Print Assumptions C31_clamp.

(** NaN is passed through, whatever the bounds. *)
Theorem C31_clamp_nan : forall mn mx, clamp_val S754_nan mn mx = S754_nan.
Proof. intros mn mx. unfold clamp_val. destruct mn; cbn; destruct mx; reflexivity. Qed.
Print Assumptions C31_clamp_nan.

Example C31_applies :
  (* clamping 3 to [1, 2] *)
  SFleb (S754_finite false 4503599627370496 (-52)) (S754_finite false 4503599627370496 (-51)) = true /\
  clamp_val (S754_finite false 6755399441055744 (-51)) (S754_finite false 4503599627370496 (-52))
    (S754_finite false 4503599627370496 (-51)) = S754_finite false 4503599627370496 (-51).
Proof. split; reflexivity. Qed.

(** The same for the integer version of the autotuner. *)
Theorem C31_clamp_int :
  forall d mn mx, mn <= mx ->
  mn <= clamp_val_int d mn mx <= mx /\ (mn <= d <= mx -> clamp_val_int d mn mx = d).
Proof.
  intros d mn mx H. unfold clamp_val_int.
  destruct (Z.ltb_spec d mn); [destruct (Z.ltb_spec mx mn)|destruct (Z.ltb_spec mx d)]; lia.
Qed.
Print Assumptions C31_clamp_int.

Example C31_int_applies : clamp_val_int 7 20 100 = 20 /\ clamp_val_int 120 20 100 = 100 /\ clamp_val_int 50 20 100 = 50.
Proof. split; [|split]; reflexivity. Qed.

(** C43.  The sizes the autotuner proposes are positive and no larger than a core's padded share
    of the matrix (whether they are multiples of the register tile, as the multiplication
    requires: C43_candidates_legal in PropTile.v). *)
Theorem C43_candidates_range :
  forall M K N pm pn c m_c k_c n_c dm dk dn,
  0 <= M -> 0 < K -> 0 <= N -> 0 < pm -> 0 < pn -> 0 < mr c -> 0 < nr c ->
  let '(mcu, kcu, ncu) := get_candidate M K N pm pn c m_c k_c n_c dm dk dn in
  mr c <= mcu <= M / pm + mr c /\ 0 < kcu <= K /\ nr c <= ncu <= N / pn + nr c.
Proof. exact candidate_range. Qed.
Print Assumptions C43_candidates_range.

(** A proposal reachable from legal sizes that is not legal. *)
Theorem C43_candidates_refuted :
  exists M K N p c m_c k_c n_c dm dk dn,
  user_tiles c m_c k_c n_c /\
  (let '(mcu, kcu, ncu) := get_candidate M K N p 1 c m_c k_c n_c dm dk dn in
   ~ (mr c | mcu) /\ ~ user_tiles c mcu kcu ncu).
Proof. exact candidate_illegal. Qed.
Print Assumptions C43_candidates_refuted.

(** C35.  A context from cake_query_cntx_torch can be passed to cake_sgemm whatever garbage its
    uninitialised fields hold, with every schedule and tile sizes given or computed, unless the
    library works K-first; then the garbage must name the 6x16 kernel.  [sch x] is the schedule the
    library works with: the one asked for, or the one it chooses. *)
Theorem C35_torch_context :
  forall S F q (nz : elt S -> bool) M N K p junk l2 l3 alpha beta s mcu kcu ncu x c',
  tiles_ok F M p (cake_query_cntx_torch junk l2 l3) mcu kcu ncu ->
  init_block_dims F M N K p (cake_query_cntx_torch junk l2 l3) s mcu kcu ncu = CRet (x, c') ->
  0 <= M -> 0 <= N -> 0 <= K -> 0 < p -> nz beta = false -> (sch x = KMN -> lucky junk) ->
  exists ord, orders K ord /\
    forall A B m0, caller m0 M N K A B -> (sch x <> KMN -> B_rim m0 N K 16 0) ->
      always (cake_sgemm S F haswell q nz M N K p (Some (cake_query_cntx_torch junk l2 l3)) false false alpha beta s mcu kcu ncu) m0
        (fun _ m' => holds m' BufC M N (product S A B ord) /\ only_C_changed m0 m' M N).
Proof. exact torch_fine. Qed.
Print Assumptions C35_torch_context.

(** K-first with any other garbage: every execution of every call with work to do is undefined. *)
Theorem C35_otherwise_undefined :
  forall S F q (nz : elt S -> bool) M N K p junk l2 l3 alpha beta s mcu kcu ncu x c',
  tiles_ok F M p (cake_query_cntx_torch junk l2 l3) mcu kcu ncu ->
  init_block_dims F M N K p (cake_query_cntx_torch junk l2 l3) s mcu kcu ncu = CRet (x, c') ->
  0 < M -> 0 < N -> 0 < K -> 0 < p -> sch x = KMN -> ~ lucky junk ->
  forall A B m0, caller m0 M N K A B ->
  always_undefined (cake_sgemm S F haswell q nz M N K p (Some (cake_query_cntx_torch junk l2 l3)) false false alpha beta s mcu kcu ncu) m0.
Proof. exact torch_bad. Qed.
Print Assumptions C35_otherwise_undefined.

(** The same for any context: one that does not name a kernel of the table, or names one larger
    than its own register tile. *)
Theorem C35_wrong_kernel_undefined :
  forall S F ar q (nz : elt S -> bool) M N K p c alpha beta s mcu kcu ncu x c' m0,
  0 < M -> 0 < N -> 0 < K -> 0 < p -> 0 < mr c -> 0 < nr c -> tiles_ok F M p c mcu kcu ncu ->
  init_block_dims F M N K p c s mcu kcu ncu = CRet (x, c') -> sch x = KMN ->
  live m0 (BufAp 0) = None -> live m0 BufBp = None ->
  ~ (0 <= m_map c < MR_CNT ar /\ 0 <= n_map c < NR_CNT ar) \/
  (0 < MR_MIN ar + m_map c * MR_FACT ar /\ 0 < NR_MIN ar + n_map c * NR_FACT ar /\
   (mr c < MR_MIN ar + m_map c * MR_FACT ar \/ nr c < NR_MIN ar + n_map c * NR_FACT ar)) ->
  always_undefined (cake_sgemm S F ar q nz M N K p (Some c) false false alpha beta s mcu kcu ncu) m0.
Proof. exact bad_kernel. Qed.
Print Assumptions C35_wrong_kernel_undefined.

(** Both cases occur: a call that works K-first, with garbage 0 and with garbage 1, which names an
    existing kernel of 8 rows. *)
Example C35_applies :
  let good := Cntx (0, 0) 0 0 0 0 0 0 0 0 in let bad := Cntx (0, 0) 0 0 1 0 0 0 0 0 in
  tiles_ok wF 7 2 (cake_query_cntx_torch good 262144 8388608) 6 2 16 /\
  (exists x c', init_block_dims wF 7 17 3 2 (cake_query_cntx_torch good 262144 8388608) KMN 6 2 16 = CRet (x, c') /\ sch x = KMN) /\
  lucky good /\ ~ lucky bad /\
  tiles_ok wF 7 2 (cake_query_cntx_torch bad 262144 8388608) 6 2 16 /\
  (exists x c', init_block_dims wF 7 17 3 2 (cake_query_cntx_torch bad 262144 8388608) KMN 6 2 16 = CRet (x, c') /\ sch x = KMN) /\
  caller (wmem 7 17 3) 7 17 3 (fun i k => wA (i * 3 + k)) (fun k j => wB (k * 17 + j)).
Proof.
  cbv zeta.
  assert (T : forall j, tiles_ok wF 7 2 (cake_query_cntx_torch j 262144 8388608) 6 2 16).
  { intros j. left. unfold user_tiles. cbn. repeat split; try lia; exists 1; reflexivity. }
  split; [apply T|]. split; [do 2 eexists; split; [vm_compute; reflexivity|reflexivity]|].
  split; [split; reflexivity|]. split; [intros (E & _); discriminate E|]. split; [apply T|].
  split; [do 2 eexists; split; [vm_compute; reflexivity|reflexivity]|apply w_caller].
Qed.

(** With the K-first schedule, or when the library chooses, there is garbage that makes the call
    undefined: it indexes the table of kernels. *)
Theorem C35_torch_context_refuted :
  forall s, s = KMN \/ s = NA ->
  exists junk l2 l3 M N K p A B m0 tm tk tn, caller m0 M N K A B /\
    pexec (cake_sgemm Zs wF haswell wctx Znz M N K p (Some (cake_query_cntx_torch junk l2 l3)) false false 1 0 s tm tk tn) m0 Undef.
Proof. exact torch_undef. Qed.
Print Assumptions C35_torch_context_refuted.
