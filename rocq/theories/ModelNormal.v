(** * The normally distributed numbers: normalRandom, rand_gaussian (src/util.cpp) and
    get_random_step (src/autotune_sa.cpp).

    Definitions only.  The functions cos and log of the C library are arguments, functions on the
    real numbers (for log also the overload for float may be meant).  The other operations are
    exact ones followed by a rounding to double or float; sqrt of a negative number is NaN, here
    [None].  All numbers are far from overflow if cos is between -1 and 1. *)

From Coq Require Import ZArith Reals List.
From Flocq Require Import Core BinarySingleNaN.
From Verif Require Import Lang ModelSizing ModelKernel ModelPack ModelDouble ModelIEEE ModelSingle ModelTests.
Open Scope Z_scope.

(** rounding to the nearest double and to the nearest float, ties to even, no overflow *)
Definition to_double (x : R) : R := round radix2 (SpecFloat.fexp 53 1024) ZnearestE x.
Definition to_single (x : R) : R := round radix2 (SpecFloat.fexp 24 128) ZnearestE x.

(** M_PI of math.h, the double nearest to pi *)
Definition M_PI : R := (884279719003555 / 281474976710656)%R.

Section Normal.

Variables fcos flog : R -> R.

(** src/util.cpp:272-277, with [r1] and [r2] the two results of rand():
    cos(2*M_PI*v2)*sqrt(-2.*log(v1)) *)
Definition normal_random (r1 r2 : Z) : option R :=
  let v1 := B2R (rand_gen r1) in
  let v2 := B2R (rand_gen r2) in
  let x := to_double (-2 * flog v1) in
  if Rlt_dec x 0 then None
  else Some (to_single (to_double (fcos (to_double (to_double (2 * M_PI) * v2)) * to_double (sqrt x)))).

(** src/autotune_sa.cpp:28-32 without the last line, which multiplies by [step]:
    (a < 0) ? ((int) floor((double) a)) : ((int) ceil((double) a)).  The conversion of NaN to int
    is undefined, [None]; the ints are unbounded. *)
Definition random_step (r1 r2 : Z) : option Z :=
  match normal_random r1 r2 with
  | None => None
  | Some a => Some (if Rlt_dec a 0 then Zfloor a else Zceil a)
  end.

(** src/autotune_sa.cpp:57-59, the steps of the [i]-th turn of the loop of get_candidate, for the
    results [rnd] of rand(): six of them in each turn *)
Definition turn_steps (rnd : nat -> Z) (i : nat) : option (Z * Z * Z) :=
  match random_step (rnd (6 * i)%nat) (rnd (6 * i + 1)%nat),
        random_step (rnd (6 * i + 2)%nat) (rnd (6 * i + 3)%nat),
        random_step (rnd (6 * i + 4)%nat) (rnd (6 * i + 5)%nat) with
  | Some dm, Some dk, Some dn => Some (dm, dk, dn)
  | _, _, _ => None
  end.

End Normal.

(** src/util.cpp:281-286; [draw i] is what the i-th call of normalRandom returns *)
Definition rand_gaussian (S : scalar) (draw : Z -> elt S) (mat : ptr) (r c : Z) : thr (elt S) unit :=
  tfor_ 0 (r * c) 1 (fun i => pstore S mat i (draw i)).
