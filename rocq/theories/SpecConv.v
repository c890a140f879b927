(** * Convolution with 3x3 filters.  Specification only. *)

From Coq Require Import ZArith List Bool Permutation.
From Verif Require Import Lang Spec SpecTop SpecSmall ModelConv.
Import ListNotations.
Open Scope Z_scope.

(** [n] planes of H rows of W elements, one after the other. *)
Definition planes_stored {V} (m : mem V) (b : buf) (n H W : Z) (f : Z -> Z -> Z -> V) : Prop :=
  forall c y x, 0 <= c < n -> 0 <= y < H -> 0 <= x < W -> cell m b ((c * H + y) * W + x) (f c y x).

(** [n] filters, each with one 3x3 plane per input channel. *)
Definition filters_stored {V} (m : mem V) (b : buf) (n Cin : Z) (F : Z -> Z -> Z -> Z -> V) : Prop :=
  forall o c h w, 0 <= o < n -> 0 <= c < Cin -> 0 <= h < 3 -> 0 <= w < 3 ->
    cell m b (((o * Cin + c) * 3 + h) * 3 + w) (F o c h w).

(** The terms of an element of the output: channel, row and column in the filter. *)
Definition all_terms (Cin : Z) : list (Z * Z * Z) :=
  flat_map (fun c => flat_map (fun h => map (fun w => (c, h, w)) (zrange 0 3)) (zrange 0 3)) (zrange 0 Cin).

(** Element (y, x) of plane o of the output, added to [acc] term by term in the order of the list. *)
Definition conv_sum (S : scalar) (F : Z -> Z -> Z -> Z -> elt S) (In : Z -> Z -> Z -> elt S)
    (ts : list (Z * Z * Z)) (o y x : Z) (acc : elt S) : elt S :=
  fold_left (fun acc t => let '(c, h, w) := t in fma S (F o c h w) (In c (y + h) (x + w)) acc) ts acc.

(** In every execution the program ends; the first [W] columns of the [n] x H x Wout output are
    the old values plus the convolution, the terms of every element added in the same order;
    nothing else changes, no object is created or destroyed for good ([tmp] is the program's own). *)
Definition adds_convolution {R} (S : scalar) (P : prog (elt S) R) (m : mem (elt S)) (tmp : buf)
    (Cin n H Wout W : Z) (F : Z -> Z -> Z -> Z -> elt S) (In : Z -> Z -> Z -> elt S)
    (Out : Z -> Z -> Z -> elt S) : Prop :=
  exists ts, Permutation ts (all_terms Cin) /\
  always P m (fun _ m' =>
    (forall b, live m' b = live m b) /\
    (forall o y x, 0 <= o < n -> 0 <= y < H -> 0 <= x < W ->
       dat m' BufC ((o * H + y) * Wout + x) = Some (conv_sum S F In ts o y x (Out o y x))) /\
    (forall b i, b <> tmp ->
       ~ (b = BufC /\ exists o y x, 0 <= o < n /\ 0 <= y < H /\ 0 <= x < W /\ i = (o * H + y) * Wout + x) ->
       dat m' b i = dat m b i)).

(** Arguments of a call with 3x3 filters.  The two functions stand for floating-point results:
    the first is not negative when alpha_n is not, the second is zero only for particular cache
    sizes and shapes. *)
Definition conv_args (rawH : Z -> Z) (rawK : Z -> Z -> Z) (d : conv_shape) (p : Z) : Prop :=
  Wf d = 3 /\ Hf d = 3 /\ 0 < Cin d /\ 0 < Cout d /\ 0 < Wout d /\ 0 <= Hout d /\ 0 < p /\
  (forall mc, 0 <= rawH mc) /\ (forall mc nc, rawK mc nc <> 0).

(** The same for any filter, with at least one vector of output. *)
Definition conv_runs (rawH : Z -> Z) (rawK : Z -> Z -> Z) (d : conv_shape) (p : Z) : Prop :=
  0 < Wf d /\ 0 < Hf d /\ 0 < Cin d /\ 0 < Cout d /\ 16 <= Wout d /\ 0 < Hout d /\ 0 < p /\
  (forall mc, 0 <= rawH mc) /\ (forall mc nc, rawK mc nc <> 0).
