(** * Sizes for which 32-bit ints suffice.

    Specification only: the limits below are preconditions of the theorems about signed overflow.
    The packed copies of A, B and C have ceil(M/m_r)*m_r x K, K x ceil(N/n_r)*n_r and
    ceil(M/m_r)*m_r x ceil(N/n_r)*n_r elements. *)

From Coq Require Import ZArith.
From Verif Require Import Lang Spec SpecTop ModelSizing.
Open Scope Z_scope.

(** representable as a 32-bit int *)
Definition in32 (z : Z) : Prop := - 2 ^ 31 <= z < 2 ^ 31.

(** The padded sizes and the number of cores are ints, ... *)
Definition dims32 (c : cntx) (M N K p : Z) : Prop :=
  round_up M (mr c) < 2 ^ 31 /\ round_up N (nr c) < 2 ^ 31 /\ K < 2 ^ 31 /\ p < 2 ^ 31.

(** ... and so are the sizes of the packed copies. *)
Definition sizes32 (c : cntx) (M N K p : Z) : Prop :=
  dims32 c M N K p /\
  round_up M (mr c) * K < 2 ^ 31 /\ K * round_up N (nr c) < 2 ^ 31 /\
  round_up M (mr c) * round_up N (nr c) < 2 ^ 31.

(** What the sizing code casts from double to int, and the block of all p cores, are ints. *)
Record sizing32 (F : fpenv) (c : cntx) (p : Z) : Prop := Sizing32 {
  s32_L2 : in32 (fp_mcL2 F (nr c) (L2 c));
  s32_L3 : in32 (fp_mcL3 F (L3 c) (ncores c));
  s32_mul : forall al q x v, fp_mul F al q x = Some v -> in32 v;
  s32_p : in32 (p * (fp_mcL2 F (nr c) (L2 c) - Z.rem (fp_mcL2 F (nr c) (L2 c)) (mr c)));
  s32_pm : p * mr c < 2 ^ 31;
  s32_nr : 2 * nr c * (2 * nr c) < 2 ^ 31 }.

(** The tiles and the products of tile sizes a schedule forms are ints. *)
Definition tiles32 (s : sched) (p mc kc nc : Z) : Prop :=
  mc < 2 ^ 31 /\ kc < 2 ^ 31 /\ nc < 2 ^ 31 /\
  match s with
  | KMN => p * mc < 2 ^ 31 /\ mc * nc < 2 ^ 31
  | MKN => p * kc < 2 ^ 31
  | NKM => p * mc < 2 ^ 31 /\ p * kc < 2 ^ 31
  | NA => p * mc < 2 ^ 31 /\ p * kc < 2 ^ 31 /\ mc * nc < 2 ^ 31
  end.

(** Packing C for the N-first schedule (beta not 0) computes an offset beyond the packed copy. *)
Definition beta32 (s : sched) (c : cntx) (M N p mc : Z) : Prop :=
  s = NKM -> round_up M (mr c) * round_up N (nr c) + p * mc * round_up N (nr c) < 2 ^ 31.
