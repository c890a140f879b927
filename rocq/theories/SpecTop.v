(** * What a caller of the multiplication functions must provide.

    Specification only: these are the preconditions of the theorems about the public
    functions, in terms of what the caller sees. *)

From Coq Require Import ZArith List Bool Permutation.
From Verif Require Import Lang Spec ModelSizing.
Open Scope Z_scope.

(** Kernel tables as python/kernel_gen.py makes them: the width of every kernel is a
    multiple of the vector width its loads of B need. *)
Definition arch_ok (ar : arch) : Prop :=
  0 < MR_MIN ar /\ 0 < NR_MIN ar /\ 0 < MR_FACT ar /\ 0 < NR_FACT ar /\
  0 < lanes ar /\ (lanes ar | NR_MIN ar) /\ (lanes ar | NR_FACT ar).

(** The context names a kernel that exists, and m_r, n_r are that kernel's size. *)
Definition ctx_ok (ar : arch) (c : cntx) : Prop :=
  0 <= m_map c < MR_CNT ar /\ 0 <= n_map c < NR_CNT ar /\
  mr c = MR_MIN ar + m_map c * MR_FACT ar /\
  nr c = NR_MIN ar + n_map c * NR_FACT ar.

(** The context names the smallest kernel, the one cake_query_cntx selects. *)
Definition ctx_min (ar : arch) (c : cntx) : Prop := mr c = MR_MIN ar /\ nr c = NR_MIN ar.

(** What schedule [s] needs of the context: the K-first schedule runs the kernel the
    context names, the others always run the smallest; NA lets the library choose. *)
Definition ctx_for (ar : arch) (s : sched) (c : cntx) : Prop :=
  match s with
  | KMN => ctx_ok ar c
  | NA => ctx_ok ar c /\ ctx_min ar c
  | _ => ctx_min ar c
  end.

(** What the call leaves in the context: only alpha_n changes. *)
Definition same_ctx (c c' : cntx) : Prop :=
  mr c' = mr c /\ nr c' = nr c /\ m_map c' = m_map c /\ n_map c' = n_map c /\
  L1 c' = L1 c /\ L2 c' = L2 c /\ L3 c' = L3 c /\ ncores c' = ncores c.

(** Tile sizes given by the caller: all three non-zero, and multiples of the register
    tile. *)
Definition user_tiles (c : cntx) (mcu kcu ncu : Z) : Prop :=
  0 < mcu /\ 0 < kcu /\ 0 < ncu /\ (mr c | mcu) /\ (nr c | ncu).

(** The ratio alpha_n of the L3 and L2 tile sizes, both rounded down to a multiple of
    m_r, as a fraction. *)
Definition alpha_of (F : fpenv) (c : cntx) : Z * Z :=
  let m3 := fp_mcL3 F (L3 c) (ncores c) in
  let m2 := fp_mcL2 F (nr c) (L2 c) in
  (m3 - Z.rem m3 (mr c), m2 - Z.rem m2 (mr c)).

(** Automatic tile sizes: the L2 cache holds at least one register tile, and the
    products alpha_n * q * x the sizing code casts to int are non-negative and fit. *)
Definition auto_tiles (F : fpenv) (M p : Z) (c : cntx) (mcu kcu ncu : Z) : Prop :=
  (mcu = 0 \/ kcu = 0 \/ ncu = 0) /\
  mr c <= fp_mcL2 F (nr c) (L2 c) /\
  (forall q x, 0 < q <= p -> 0 < x -> q * x <= M + p * mr c ->
     exists v, fp_mul F (alpha_of F c) q x = Some v /\ 0 <= v).

Definition tiles_ok (F : fpenv) (M p : Z) (c : cntx) (mcu kcu ncu : Z) : Prop :=
  user_tiles c mcu kcu ncu \/ auto_tiles F M p c mcu kcu ncu.

(** The object [b] is live and has at least [n] elements. *)
Definition at_least {V} (m : mem V) (b : buf) (n : Z) : Prop :=
  exists bi, live m b = Some bi /\ n <= blen bi.

(** Names of the objects the library allocates itself. *)
Definition own (b : buf) : Prop :=
  match b with BufA | BufB | BufC => False | BufX i => 0 <= i < 3 | _ => True end.

(** The caller's memory: A is an M x K, B a K x N row-major matrix, C has room for
    M x N elements of any content, and no object of the library exists yet. *)
Definition caller {V} (m : mem V) (M N K : Z) (A B : Z -> Z -> V) : Prop :=
  at_least m BufA (M * K) /\ holds m BufA M K A /\
  at_least m BufB (K * N) /\ holds m BufB K N B /\
  at_least m BufC (M * N) /\
  (forall b, own b -> live m b = None).

(** After a call: exactly the same objects are live as before, and of their contents
    nothing changed but elements 0 .. M*N-1 of C. *)
Definition only_C_changed {V} (m m' : mem V) (M N : Z) : Prop :=
  (forall b, live m' b = live m b) /\
  (forall b i, live m b <> None -> ~ (b = BufC /\ 0 <= i < M * N) -> dat m' b i = dat m b i).

(** Every execution of [P] from [m] ends normally in a state satisfying [Q], and there
    is one.  In particular no execution is undefined (out of bounds, uninitialised
    read, misaligned vector load, data race, double free, ...). *)
Definition always {V R} (P : prog V R) (m : mem V) (Q : R -> mem V -> Prop) : Prop :=
  (exists o, pexec P m o) /\
  (forall o, pexec P m o -> exists r m', o = Done r m' /\ Q r m').

(** [ord i j] is the order in which the K products of element (i,j) are added. *)
Definition orders (K : Z) (ord : Z -> Z -> list Z) : Prop :=
  forall i j, Permutation (ord i j) (zrange 0 K).

(** C = A*B, each element summed from 0 in the given order. *)
Definition product (S : scalar) (A B : Z -> Z -> S) (ord : Z -> Z -> list Z) (i j : Z) : S :=
  dot S (A i) (fun k => B k j) (ord i j) (zero S).

(** C0 + A*B, each element summed in the given order starting from C0's element. *)
Definition product_plus (S : scalar) (A B C0 : Z -> Z -> S) (ord : Z -> Z -> list Z) (i j : Z) : S :=
  dot S (A i) (fun k => B k j) (ord i j) (C0 i j).

(** a/b rounded up, and a rounded up to a multiple of b *)
Definition ceil_div (a b : Z) : Z := (a + b - 1) / b.
Definition round_up (a b : Z) : Z := ceil_div a b * b.

(** The M-first and N-first schedules copy B in whole register tiles of n_r columns.
    [B_rim m N K nr t]: the elements k*N+j of B the copy touches beyond column N of
    rows 0 .. K-t-1 (that is, the start of the next rows, and for the last rows what
    follows the matrix) exist and have a value. *)
Definition B_rim {V} (m : mem V) (N K nr t : Z) : Prop :=
  forall k j, 0 <= k < K - t -> N <= j < round_up N nr ->
    exists bi v, live m BufB = Some bi /\ k * N + j < blen bi /\ dat m BufB (k * N + j) = Some v.

(** Rows of B in the share of the last core of the last, partial, block of p*kc rows
    (0 if there is no partial block). *)
Definition k_tail (K p kc : Z) : Z :=
  let r := K mod (p * kc) in
  let w := ceil_div r p in
  if r =? 0 then 0 else r - w * (ceil_div r w - 1).

(** When the N-first schedule finds the elements of C where pack_C put them, for a C padded to
    M' x N' and blocks of t x nc: there is one column of blocks; or there are only whole blocks;
    or there is one row of two blocks and t * (N' - nc) = M' * nc. *)
Definition C_fits (M' N' t nc : Z) : Prop :=
  N' <= nc \/ ((t | M') /\ (nc | N')) \/ (M' <= t /\ N' <= 2 * nc /\ t * (N' - nc) = M' * nc).
Definition n_first_C_fits (M N p m_r n_r mcu ncu : Z) : Prop :=
  C_fits (round_up M m_r) (round_up N n_r) (p * mcu) ncu.

(** The arguments of a multiplication call are legal. *)
Definition legal (F : fpenv) (ar : arch) (s : sched) (c : cntx) (M N K p mcu kcu ncu : Z) : Prop :=
  arch_ok ar /\ ctx_for ar s c /\ 0 <= M /\ 0 <= N /\ 0 <= K /\ 0 < p /\
  tiles_ok F M p c mcu kcu ncu.

(** How many of the last rows of B the M-first and N-first schedules are known not to
    read beyond column N: none, or with caller-given tiles the share of the last core. *)
Definition tail_ok (c : cntx) (K p mcu kcu ncu t : Z) : Prop :=
  t = 0 \/ (user_tiles c mcu kcu ncu /\ t = k_tail K p kcu).

(** Arithmetic in which sums can be reordered. *)
Definition sums (S : scalar) (add mul : S -> S -> S) : Prop :=
  (forall a b c, fma S a b c = add (mul a b) c) /\
  (forall a b, add a b = add b a) /\ (forall a b c, add a (add b c) = add (add a b) c).

(** sum over k < K of A[i][k] * B[k][j] *)
Definition matmul (S : scalar) (add mul : S -> S -> S) (A B : Z -> Z -> S) (K i j : Z) : S :=
  fold_right (fun k acc => add (mul (A i k) (B k j)) acc) (zero S) (zrange 0 K).

(** Two memories no program can tell apart *)
Definition same_mem {V} (m m' : mem V) : Prop :=
  (forall b, live m b = live m' b) /\ (forall b i, dat m b i = dat m' b i).

(** Contexts a context can turn into by the calls made with it, whatever the calls *)
Inductive later_ctx (F : fpenv) : cntx -> cntx -> Prop :=
| later_refl c : later_ctx F c c
| later_call c c1 c2 M N K p s mcu kcu ncu x :
    later_ctx F c c1 ->
    init_block_dims F M N K p c1 s mcu kcu ncu = CRet (x, c2) ->
    later_ctx F c c2.
