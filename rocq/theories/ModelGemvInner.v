(** * The row-major kernel of examples/cake_gemv.cpp, cake_sgemv_haswell_inner_1x64x1.

    Definitions only. *)

From Coq Require Import ZArith List Bool.
From Verif Require Import Lang ModelSizing ModelKernel.
Import ListNotations.
Open Scope Z_scope.

Section Inner.

Variable S : scalar.
Notation T := (elt S).
Notation thr := (thr T).
(** the + of lines 252-255 *)
Variable add : T -> T -> T.

Local Open Scope thr_scope.

(** tmp.vals[0]+tmp.vals[1]+ .. +tmp.vals[7], lines 252-255, from the left *)
Definition lanes_sum (c : Z -> T) : T := fold_left (fun v e => add v (c e)) (zseq 7 1 1) (c 0).

(** Lines 233-256, one pass of the inner loop in row [mm].  State: the pointer A, the vector c, and
    what ans.vals holds, [None] where nothing was stored yet.  The eight vectors a[i] are 64
    consecutive elements, element 8 * i + e is lane e of a[i]; [b] likewise.  Storing to
    ans.vals[mm] with mm > 7 is outside of the array: undefined. *)
Definition inner_pass (b : Z -> T) (mm : Z) (st : ptr * (Z -> T) * (Z -> option T))
  : thr (ptr * (Z -> T) * (Z -> option T)) :=
  let '(A, c, ans) := st in
  let+ a := load_vec S 1 A 64 in
  let c' := fun e => fold_left (fun v i => fma S (a (8 * i + e)) (b (8 * i + e)) v) (zseq 8 0 1) (c e) in
  if mm <? 8
  then TRet (padd A 64, c', fun i => if i =? mm then Some (lanes_sum c') else ans i)
  else TFail.

(** Lines 231-259, one pass of the outer loop. *)
Definition inner_row (b : Z -> T) (k K mm : Z) (st : ptr * (Z -> T) * (Z -> option T))
  : thr (ptr * (Z -> T) * (Z -> option T)) :=
  let+ st := tfor 0 k 64 st (fun _ st => inner_pass b mm st) in
  TRet (padd (fst (fst st)) (K - k), snd (fst st), snd st).

(** cake_sgemv_haswell_inner_1x64x1, lines 206-270.  Line 269 stores ans.bits: if an element of
    ans.vals was never assigned, that reads an indeterminate value, which is undefined. *)
Definition cake_sgemv_haswell_inner_1x64x1 (A B C : ptr) (m k K : Z) : thr unit :=
  let+ c := load_vec S 1 C 8 in
  let+ b := load_vec S 1 B 64 in
  let+ st := tfor 0 m 1 (A, c, fun _ => None) (fun mm st => inner_row b k K mm st) in
  if forallb (fun i => match snd st i with Some _ => true | None => false end) (zseq 8 0 1)
  then store_vec S C 8 (fun i => match snd st i with Some v => v | None => zero S end)
  else TFail.

End Inner.
