(** * Sizes for which 32-bit ints suffice: cake_sgemm_online, cake_sgemm_2d, cake_sgemm_2d_small.

    Specification only, like SpecInt.v. *)

From Coq Require Import ZArith.
From Verif Require Import Lang Spec SpecTop SpecTile SpecOnline SpecInt ModelSizing.
Open Scope Z_scope.

(** Packing while multiplying allocates one tile of each operand per core. *)
Definition online32 (p mc kc nc : Z) : Prop :=
  tiles32 KMN p mc kc nc /\ mc * kc < 2 ^ 31 /\ kc * nc < 2 ^ 31.

(** The grids: besides the padded C, one more row of it is addressed. *)
Definition grid_sizes32 (c : cntx) (M N K p : Z) : Prop :=
  sizes32 c M N K p /\ ncores c < 2 ^ 31 /\ (round_up M (mr c) + 1) * round_up N (nr c) < 2 ^ 31.

(** A tile of m rows and depth k, and as many columns as rows, rounded up to n_r; and the tiles of
    a row or column of the grid. *)
Definition grid_tile32 (c : cntx) (p m k : Z) : Prop :=
  m * (m + nr c) < 2 ^ 31 /\ p * (m + nr c) * k < 2 ^ 31.

Definition grid32 (F : fpenv) (c : cntx) (M N K p mcu kcu ncu : Z) : Prop :=
  grid_sizes32 c M N K p /\
  (mcu <> 0 /\ kcu <> 0 /\ ncu <> 0 -> grid_tile32 c p mcu kcu) /\
  (mcu = 0 \/ kcu = 0 \/ ncu = 0 ->
   grid_tile32 c p (round_down (fp_mc2d F (nr c) (L2 c)) (mr c)) (fp_kcmax F (L1 c) (mr c) (nr c))).

Definition small32 (F : fpenv) (c : cntx) (M N K p pn : Z) : Prop :=
  grid_sizes32 c M N K p /\ mr c + nr c < 2 ^ 31 /\
  let mc := small_tile M (p / pn) (mr c) in let nc := small_tile N pn (nr c) in
  let kc := Z.min (fp_kcmax F (L1 c) (mr c) (nr c)) mc in
  mc * nc < 2 ^ 31 /\ round_up M (mr c) * kc < 2 ^ 31 /\ kc * round_up N (nr c) < 2 ^ 31.
