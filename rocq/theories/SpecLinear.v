(** * What the PyTorch layer computes.  Specification only. *)

From Coq Require Import ZArith List Bool.
From Verif Require Import Lang Spec SpecTop ModelSizing ModelUtil ModelLinear.
Import ListNotations.
Open Scope Z_scope.

(** [t] is the r x c matrix f, or the vector f of n elements. *)
Definition is_matrix {S} (t : tensor S) (r c : Z) (f : Z -> Z -> S) : Prop :=
  sizes t = [r; c] /\ forall i j, 0 <= i < r -> 0 <= j < c -> elems t (i * c + j) = f i j.
Definition is_vector {S} (t : tensor S) (n : Z) (f : Z -> S) : Prop :=
  sizes t = [n] /\ forall j, 0 <= j < n -> elems t j = f j.

(** The context made for the layer, when the fields it leaves uninitialised name the kernel it
    means (6x16). *)
Definition lucky (junk : cntx) : Prop := m_map junk = 0 /\ n_map junk = 0.

(** What the library reads in the call M x N x K on p cores with context c is there.  If it
    chooses the K-first schedule: the context names the 6x16 kernel.  If it chooses another: the
    packing, which copies 16 columns of B at a time, stays inside K x N; see C10. *)
Definition layer_fits (F : fpenv) (c : cntx) (M N K p : Z) : Prop :=
  forall x c', init_block_dims F M N K p c NA 0 0 0 = CRet (x, c') ->
  match sch x with
  | KMN => m_map c = 0 /\ n_map c = 0
  | _ => K = k_tail K p (k_c x) \/ round_up N 16 <= (k_tail K p (k_c x) + 1) * N
  end.

(** The library can choose tile sizes for M x N x K, and the call fits. *)
Definition layer_call (F : fpenv) (c : cntx) (M N K p : Z) : Prop :=
  auto_tiles F M p c 0 0 0 /\ layer_fits F c M N K p.

(** sum of f over 0 <= i < n, from the left *)
Definition total {S : scalar} (add : S -> S -> S) (n : Z) (f : Z -> S) : S :=
  fold_left (fun acc i => add acc (f i)) (zrange 0 n) (zero S).

(** no object exists *)
Definition nothing {V} (m : mem V) : Prop := forall b, live m b = None.
