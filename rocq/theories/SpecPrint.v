(** * What the printing functions should print.  Specification only. *)

From Coq Require Import ZArith List Bool Ascii String.
From Verif Require Import Lang Spec SpecSmall ModelPrint.
Import ListNotations.
Open Scope string_scope.
Open Scope list_scope.
Open Scope Z_scope.

(** the n elements f 0, f 1, ..., each followed by [sep] *)
Definition row_text {V} (sep : string) (n : Z) (f : Z -> V) : list (piece V) :=
  flat_map (fun j => [Show (f j); Say sep]) (zrange 0 n).

(** the rows of an r x c matrix, a line each *)
Definition lines_text {V} (r c : Z) (f : Z -> Z -> V) : list (piece V) :=
  flat_map (fun i => row_text " " c (f i) ++ [Say nl]) (zrange 0 r).

(** n planes of H rows of W elements, each under its number *)
Definition map_text {V} (n H W : Z) (f : Z -> Z -> Z -> V) : list (piece V) :=
  flat_map (fun c => [Say "channel "; Num c; Say nl] ++ lines_text H W (f c)) (zrange 0 n) ++ [Say nl2].

(** n filters of Cin planes of H rows of W elements, each under its number, a line for a plane *)
Definition filters_text {V} (n Cin H W : Z) (F : Z -> Z -> Z -> Z -> V) : list (piece V) :=
  flat_map (fun o =>
    [Say "filter "; Num o; Say nl2] ++
    flat_map (fun c =>
      [Say "channel "; Num c; Say nl] ++ flat_map (fun h => row_text ", " W (F o c h)) (zrange 0 H) ++ [Say nl2])
      (zrange 0 Cin) ++ [Say nl3]) (zrange 0 n).

(** The filters as the convolution takes them (SpecConv.filters_stored, there for 3x3): one plane
    after the other, from the start of [b]. *)
Definition filters_at {V} (m : mem V) (b : buf) (n Cin H W : Z) (F : Z -> Z -> Z -> Z -> V) : Prop :=
  forall o c h w, 0 <= o < n -> 0 <= c < Cin -> 0 <= h < H -> 0 <= w < W ->
    cell m b (((o * Cin + c) * H + h) * W + w) (F o c h w).

(** element i cannot be read: outside of the object, or never assigned *)
Definition unreadable {V} (m : mem V) (b : buf) (i : Z) : Prop := forall v, ~ cell m b i v.
