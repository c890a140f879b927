(** * Comparisons up to single precision.

    Specification only.  The schedule and the grid are chosen by comparing floats; these relations
    say how far a choice can be from the comparison of the exact quantities. *)

From Coq Require Import ZArith.
Open Scope Z_scope.

(** a exceeds b by at most one part in 2^22 *)
Definition about_le (a b : Z) : Prop := a * 2 ^ 22 <= b * (2 ^ 22 + 1).

(** a is below b by at least one part in 2^22 *)
Definition clearly_le (a b : Z) : Prop := a * 2 ^ 22 <= b * (2 ^ 22 - 1).

(** n is the integer nearest to sqrt(a/b), except that a root just below n - 1/2 may also give n *)
Definition about_nearest_root (a b n : Z) : Prop :=
  0 <= n /\ 4 * a < (2 * n + 1) * (2 * n + 1) * b /\ (0 < n -> about_le ((2 * n - 1) * (2 * n - 1) * b) (4 * a)).
