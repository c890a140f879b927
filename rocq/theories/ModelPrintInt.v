(** * print_mat with 32-bit ints: src/util.cpp:303-313.

    Definitions only.  The loops count to r and c, which are ints, so only the index can overflow. *)

From Coq Require Import ZArith List String.
From Verif Require Import Lang ModelSizing ModelKernel ModelInt ModelPrint.
Import ListNotations.
Open Scope string_scope.
Open Scope list_scope.
Open Scope Z_scope.

(** src/util.cpp:303-313 *)
Definition print_mat32 {V} (m : mem V) (arr : ptr) (r c : Z) : comp (list (piece V)) :=
  (do o <- out_for r (fun i =>
             do l <- out_for c (fun j =>
                       do x <- cint (IxAdd (IxMul i c) j);
                       do v <- elem m arr x; CRet [Show v; Say " "]);
             CRet (l ++ [Say nl])%list);
   CRet (o ++ [Say nl2])%list)%comp.
