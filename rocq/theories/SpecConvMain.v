(** * What main of examples/cake_conv.cpp compares.  Specification only. *)

From Coq Require Import ZArith List Bool.
From Verif Require Import Lang Spec SpecTop SpecSmall ModelSizing ModelConv SpecConv ModelConvMain.
Import ListNotations.
Open Scope Z_scope.

(** How many of the first [n] elements of Out and of C are far apart. *)
Definition far_cells {V} (far : V -> V -> bool) (m : mem V) (n : Z) : Z :=
  Z.of_nat (length (filter (fun i => match dat m BufC i, dat m varOut i with
                                     | Some g, Some v => far g v
                                     | _, _ => false
                                     end) (zrange 0 n))).

(** F and In have their values, there is room for what is printed, and nothing else exists yet. *)
Definition conv_start {V} (m : mem V) (d : conv_shape) (Fl : Z -> Z -> Z -> Z -> V) (In : Z -> Z -> Z -> V) : Prop :=
  filters_stored m varF (Cout d) (Cin d) Fl /\ planes_stored m varIn (Cin d) (Hin d) (Win d) In /\
  at_least m said 1 /\ (forall b, b <> varF -> b <> varIn -> b <> said -> live m b = None).

(** Sizes for which the example works: 3x3 filters, the input two rows and two columns larger
    than the output, whole register tiles of output channels. *)
Definition conv_fits (d : conv_shape) : Prop :=
  Hout d + 2 <= Hin d /\ Wout d + 2 <= Win d /\ (6 | Cout d).

(** The columns of the output that whole vectors of sixteen cover. *)
Definition covered (d : conv_shape) (x : Z) : bool := x <? Wout d / 16 * 16.
