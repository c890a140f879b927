(** * What callers of cake_sgemm_online and cake_sgemm_2d must provide.  Specification only. *)

From Coq Require Import ZArith List Bool.
From Verif Require Import Lang Spec SpecTop ModelSizing.
Open Scope Z_scope.

(** These functions copy A in whole register tiles of m_r rows without looking at M.
    [A_rim m M K mr]: the elements of the rows M, M+1, ... up to the next multiple of
    m_r, which follow the matrix in memory, exist and have a value. *)
Definition A_rim {V} (m : mem V) (M K mr : Z) : Prop :=
  forall i k, M <= i < round_up M mr -> 0 <= k < K ->
    exists bi v, live m BufA = Some bi /\ i * K + k < blen bi /\ dat m BufA (i * K + k) = Some v.

(** At most one of the p threads has work: there is one, or the rows of A fit one register
    tile, or there is nothing to multiply. *)
Definition one_thread (M N K p mr : Z) : Prop := p = 1 \/ M <= mr \/ N = 0 \/ K = 0.

(** ** The two-dimensional grid of cores *)

(** The number of core columns aimed for: round(sqrt(p*N/M)), brought into 1 .. p. *)
Definition aim (F : fpenv) (M N p : Z) : Z := Z.max 1 (Z.min p (fp_pn F p N M)).

(** The table of divisors, built for [cores] cores, has a row for p, and p has a divisor
    the search for a grid finds: the width aimed for or one below it, other than 1. *)
Definition grid_exists (F : fpenv) (M N p cores rows : Z) : Prop :=
  p <= cores < p + rows /\ 0 <= fp_pn F p N M /\
  ((aim F M N p | p) \/ exists d, 2 <= d < aim F M N p /\ (d | p)).

(** Tile sizes for the grid: m_c and k_c given by the caller (n_c must be given too, and is
    ignored), or computed, from caches that hold at least a register tile. *)
Definition tiles_2d (F : fpenv) (c : cntx) (mcu kcu ncu : Z) : Prop :=
  (0 < mcu /\ 0 < kcu /\ ncu <> 0 /\ (mr c | mcu)) \/
  ((mcu = 0 \/ kcu = 0 \/ ncu = 0) /\
   mr c <= fp_mc2d F (nr c) (L2 c) /\ 0 < fp_kcmax F (L1 c) (mr c) (nr c)).

(** The arguments of a call of cake_sgemm_2d are legal.  It always runs the smallest kernel. *)
Definition legal_2d (F : fpenv) (ar : arch) (rows : Z) (c : cntx) (M N K p mcu kcu ncu : Z) : Prop :=
  arch_ok ar /\ ctx_min ar c /\ 0 < M /\ 0 < N /\ 0 <= K /\ 0 < p /\
  grid_exists F M N p (ncores c) rows /\ tiles_2d F c mcu kcu ncu.

(** ** The grid of cake_sgemm_2d_small *)

(** A dimension of size D, padded to a multiple of r, is cut between g cores into pieces of
    [small_tile D g r]: the g-th part, raised to the next larger multiple of r. *)
Definition small_tile (D g r : Z) : Z := (round_up D r / g / r + 1) * r.

(** All pieces lie inside the padded dimension.  The library shortens the last one, to what
    is left, unless the size of the pieces divides D; what is left may be nothing. *)
Definition small_fits (D g r : Z) : Prop :=
  ~ (small_tile D g r | D) /\ (g - 1) * small_tile D g r <= round_up D r.

(** The arguments of a call of cake_sgemm_2d_small that works: [pn] is the number of core columns
    the library picks. *)
Definition legal_small (F : fpenv) (ar : arch) (rows : Z) (c : cntx) (M N K p pn : Z) : Prop :=
  arch_ok ar /\ ctx_min ar c /\ 0 < M /\ 0 < N /\ 0 <= K /\ 0 < p /\
  0 <= fp_pn F p N M /\ grid_dims_2d F M N p (ncores c) rows = CRet pn /\
  small_fits M (p / pn) (mr c) /\ small_fits N pn (nr c) /\ 0 < fp_kcmax F (L1 c) (mr c) (nr c).
