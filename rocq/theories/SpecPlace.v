(** * Matrices anywhere in the caller's memory: specification. *)

From Coq Require Import ZArith Bool.
From Verif Require Import Lang Spec SpecTop ModelKernel ModelPlace.
Open Scope Z_scope.

(** The objects of the caller *)
Definition callers (b : buf) : bool := match b with BufA | BufB | BufC => true | _ => false end.

(** A pointer into an object of the caller *)
Definition argument (p : ptr) : Prop := callers (fst p) = true /\ 0 <= snd p.

(** The memory as it looks through three pointers: three arrays, each beginning at its pointer
    and as long as the rest of the object.  They may show the same cells. *)
Definition seen {V} (pA pB pC : ptr) (m : mem V) : mem V :=
  Mem (fun b => match live m (fst (arg pA pB pC b)) with
                | Some bi => Some (BInfo (blen bi - snd (arg pA pB pC b)) (b64 bi && (snd (arg pA pB pC b) mod 16 =? 0)))
                | None => None
                end)
      (fun b i => dat m (fst (arg pA pB pC b)) (snd (arg pA pB pC b) + i)).

(** Nothing changed but the M x N elements at pC. *)
Definition only_changed_at {V} (pC : ptr) (m m' : mem V) (M N : Z) : Prop :=
  (forall b, live m' b = live m b) /\
  (forall b i, live m b <> None -> ~ (b = fst pC /\ snd pC <= i < snd pC + M * N) -> dat m' b i = dat m b i).

(** At p there is an R x W row-major matrix f. *)
Definition matrix_at {V} (m : mem V) (p : ptr) (R W : Z) (f : Z -> Z -> V) : Prop :=
  exists bi, live m (fst p) = Some bi /\ snd p + R * W <= blen bi /\
    forall i j, 0 <= i < R -> 0 <= j < W -> dat m (fst p) (snd p + (i * W + j)) = Some (f i j).

(** What the caller must provide: A is an M x K matrix at pA, B a K x N matrix at pB, there is
    room for M x N elements at pC, and no object of the library exists yet.  Nothing is said
    about overlaps. *)
Definition caller_at {V} (m : mem V) (pA pB pC : ptr) (M N K : Z) (A B : Z -> Z -> V) : Prop :=
  argument pA /\ argument pB /\ argument pC /\
  matrix_at m pA M K A /\ matrix_at m pB K N B /\
  (exists bi, live m (fst pC) = Some bi /\ snd pC + M * N <= blen bi) /\
  (forall b, own b -> live m b = None).

(** As SpecTop.B_rim and SpecOnline.A_rim, of the matrices at p: the elements beyond column N of
    B, or beyond row M of A, that the copies touch exist and have a value. *)
Definition B_rim_at {V} (m : mem V) (p : ptr) (N K nr t : Z) : Prop :=
  forall k j, 0 <= k < K - t -> N <= j < round_up N nr ->
    exists bi v, live m (fst p) = Some bi /\ snd p + (k * N + j) < blen bi /\
      dat m (fst p) (snd p + (k * N + j)) = Some v.
Definition A_rim_at {V} (m : mem V) (p : ptr) (M K mr : Z) : Prop :=
  forall i k, M <= i < round_up M mr -> 0 <= k < K ->
    exists bi v, live m (fst p) = Some bi /\ snd p + (i * K + k) < blen bi /\
      dat m (fst p) (snd p + (i * K + k)) = Some v.

(** How far the copies of cake_sgemm_online and cake_sgemm_2d read: A up to the number of rows
    rounded up to a multiple of m_r, B up to the number of columns rounded up to a multiple of n_r. *)
Definition reach_A (M K mr : Z) : Z := round_up M mr * K.
Definition reach_B (N K nr : Z) : Z := if K =? 0 then 0 else (K - 1) * N + round_up N nr.

(** The n elements at p and the l elements at q are different elements. *)
Definition disjoint (p : ptr) (n : Z) (q : ptr) (l : Z) : Prop :=
  fst p <> fst q \/ snd p + n <= snd q \/ snd q + l <= snd p.

(** C does not overlap what is read of A and of B.  A and B may overlap. *)
Definition C_clear (pA pB pC : ptr) (M N K mr nr : Z) : Prop :=
  disjoint pC (M * N) pA (reach_A M K mr) /\ disjoint pC (M * N) pB (reach_B N K nr).
