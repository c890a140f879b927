(** * Caches, working sets and the choice of a schedule.  Specification only. *)

From Coq Require Import ZArith Bool.
From Verif Require Import ModelSizing.
Open Scope Z_scope.

(** A machine and register tile of realistic size: cache sizes in bytes that an int can hold, at
    most 1024 cores. *)
Definition machine (c : cntx) : Prop :=
  0 < mr c /\ 0 < nr c <= 2 ^ 14 /\ 0 < ncores c <= 2 ^ 10 /\
  0 <= L1 c < 2 ^ 24 /\ 0 <= L2 c < 2 ^ 31 /\ 0 <= L3 c < 2 ^ 31.

(** Bytes of the parts of A, B and C, as 4-byte floats, that a product of an m x k by a k x n
    matrix touches. *)
Definition bytes (m k n : Z) : Z := 4 * (m * k + k * n + m * n).

(** [greatest P n]: n is the largest non-negative number for which P holds; P is downward closed
    in the uses below. *)
Definition greatest (P : Z -> Prop) (n : Z) : Prop := 0 <= n /\ P n /\ ~ P (n + 1).

(** The side of the L2 tile: the largest n such that an n x n block of A with n x n_r panels of B
    and C fills at most half of L2; then rounded down to a multiple of m_r. *)
Definition L2_side (c : cntx) (n : Z) : Prop := greatest (fun n => 2 * bytes n n (nr c) <= L2 c) n.

(** The side of the L3 tile: the largest n such that, with t cores, a tn x n block of A, an n x tn
    block of B and a tn x tn block of C fill at most half of L3; then rounded down. *)
Definition L3_side (c : cntx) (n : Z) : Prop :=
  greatest (fun n => 2 * bytes (ncores c * n) n (ncores c * n) <= L3 c) n.

(** x rounded down to a multiple of r *)
Definition round_down (x r : Z) : Z := x / r * r.

(** The L2 tile for M rows on p cores: smaller when there are fewer than p tiles of rows. *)
Definition tile_for (M p mr m : Z) : Z :=
  if M <? p * mr then mr else if M <? p * m then (M / p / mr + 1) * mr else m.

(** The rule for the schedule, with k the depth p*m_c of a block: M-first if N <= M and
    K <= 2Mk/(M+k), else N-first if M <= N and K <= 2Nk/(N+k), else K-first. *)
Definition choice (M N K k : Z) : sched :=
  if (N <=? M) && (K * (M + k) <=? 2 * M * k) then MKN
  else if (M <=? N) && (K * (N + k) <=? 2 * N * k) then NKM
  else KMN.

(** n is the integer nearest to sqrt(a/b), the larger one in case of a tie *)
Definition nearest_root (a b n : Z) : Prop :=
  0 <= n /\ 4 * a < (2 * n + 1) * (2 * n + 1) * b /\ (0 < n -> (2 * n - 1) * (2 * n - 1) * b <= 4 * a).

(** Sizes for M rows on p cores stay in the range of int: the scaled tile is below 2^31.  With
    caches where the L3 tile is not larger than the L2 tile the second part follows from the
    first. *)
Definition fits_int (c : cntx) (M p : Z) : Prop :=
  M + p * mr c < 2 ^ 31 /\
  forall n2 n3, L2_side c n2 -> L3_side c n3 -> round_down n3 (mr c) * (M + p * mr c) < round_down n2 (mr c) * 2 ^ 31.
