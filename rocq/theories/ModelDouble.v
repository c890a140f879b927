(** * The double-precision arithmetic of the sizing code.

    Definitions only.  Doubles are Flocq's binary64 numbers with a single NaN; all operations
    round to nearest, ties to even. *)

From Coq Require Import ZArith Bool.
From Flocq Require Import Core BinarySingleNaN.
Open Scope Z_scope.

Definition double : Set := binary_float 53 1024.

Definition prec53 : Prec_gt_0 53 := eq_refl.
Definition emax1024 : Prec_lt_emax 53 1024 := eq_refl.

(** (double) n for an int n *)
Definition of_int (n : Z) : double := binary_normalize 53 1024 prec53 emax1024 mode_NE n 0 false.

(** x + y, x * y, x / y, sqrt(x), ceil(x) *)
Definition dadd (x y : double) : double := @Bplus 53 1024 prec53 emax1024 mode_NE x y.
Definition dmul (x y : double) : double := @Bmult 53 1024 prec53 emax1024 mode_NE x y.
Definition ddiv (x y : double) : double := @Bdiv 53 1024 prec53 emax1024 mode_NE x y.
Definition dsqrt (x : double) : double := @Bsqrt 53 1024 prec53 emax1024 mode_NE x.
Definition dceil (x : double) : double := @Bnearbyint 53 1024 emax1024 mode_UP x.

(** (int) x; [None] for a NaN, an infinity, or a value whose integer part is outside the range
    of int: the conversion is undefined *)
Definition to_int (x : double) : option Z :=
  if is_finite x then
    let v := Btrunc x in
    if (- 2 ^ 31 <=? v) && (v <? 2 ^ 31) then Some v else None
  else None.

(** (int) ceil(((double) a) / b): src/block_sizing.cpp:488-572, 731-750 and
    src/pack_helper.cpp:12-82, wherever two ints are divided this way *)
Definition ceil_double (a b : Z) : option Z := to_int (dceil (ddiv (of_int a) (of_int b))).
