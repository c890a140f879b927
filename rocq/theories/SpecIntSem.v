(** * What it means to evaluate an int expression, and to count in an int.

    Specification only: the big-step rules of C for int arithmetic (ISO C++ [expr]/4: a result
    outside the range of its type is undefined; [expr.mul]/4: so is a division by zero, and a
    remainder whose quotient is not representable). *)

From Coq Require Import ZArith.
From Verif Require Import ModelInt.
Open Scope Z_scope.

Definition an_int (z : Z) : Prop := - 2147483648 <= z <= 2147483647.

Inductive evaluates : ix -> Z -> Prop :=
| ev_value z : evaluates (IxV z) z
| ev_add a b x y : evaluates a x -> evaluates b y -> an_int (x + y) -> evaluates (IxAdd a b) (x + y)
| ev_sub a b x y : evaluates a x -> evaluates b y -> an_int (x - y) -> evaluates (IxSub a b) (x - y)
| ev_mul a b x y : evaluates a x -> evaluates b y -> an_int (x * y) -> evaluates (IxMul a b) (x * y)
| ev_div a b x y : evaluates a x -> evaluates b y -> y <> 0 -> an_int (Z.quot x y) ->
                   evaluates (IxDiv a b) (Z.quot x y)
| ev_rem a b x y : evaluates a x -> evaluates b y -> y <> 0 -> an_int (Z.quot x y) ->
                   evaluates (IxRem a b) (Z.rem x y).

(** The values the counter i takes in for(i = lo; i < hi; i += step), the one that ends the loop
    included. *)
Inductive counts (lo hi step : Z) : Z -> Prop :=
| counts_first : counts lo hi step lo
| counts_next i : counts lo hi step i -> i < hi -> counts lo hi step (i + step).
