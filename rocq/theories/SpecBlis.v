(** * The panels the packing kernels are made for. *)

From Coq Require Import ZArith.
From Verif Require Import ModelBlis.
Open Scope Z_scope.

(** Rows of a panel of A: any number for CAKE's own kernel, 6 and 8 for those of BLIS. *)
Definition A_panel (pk : packer) (n : Z) : Prop :=
  match pk with CakePack => 0 < n | BlisHaswellPack => n = 6 | BlisArmv8Pack => n = 8 end.

(** Columns of a panel of B: any number for CAKE's own kernel, 16 and 12 for those of BLIS. *)
Definition B_panel (pk : packer) (n : Z) : Prop :=
  match pk with CakePack => 0 < n | BlisHaswellPack => n = 16 | BlisArmv8Pack => n = 12 end.
