(** * pack_test1 of include/packing.h:16, src/pack_k_first.cpp:83-93.

    Definitions only. *)

From Coq Require Import ZArith.
From Verif Require Import Lang ModelSizing ModelKernel ModelPack ModelBlis.
Open Scope Z_scope.

(** Lines 83-93.  p and cake_cntx are not used; the panels have six rows whatever the context says.
    kappa is 1.0.  [pk] is the macro that selects the packing kernel. *)
Definition pack_test1 (S : scalar) (pk : packer) (A A_p : ptr) (M K : Z) : prog (elt S) unit :=
  ppar_for 0 M 6 (fun m3 =>
    A_packing_kernel S pk 6 K true (padd A (m3 * K)) K 1 (padd A_p (m3 * K)) 6).
