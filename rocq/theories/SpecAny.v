(** * One multiplication, by any of the multiplication functions; sequences of them. *)

From Coq Require Import ZArith List Bool.
From Verif Require Import Lang Spec SpecTop SpecOnline ModelSizing ModelTop.
Open Scope Z_scope.

(** Which function is called, and its arguments other than the sizes, the matrices and the context.
    [so] as in ModelTop.cake_sgemm_online. *)
Inductive call (S : scalar) : Type :=
| By_sgemm (p : Z) (alpha beta : elt S) (s : sched) (mcu kcu ncu : Z)
| By_online (so : bool) (p mcu kcu ncu : Z)
| By_2d (rows p mcu kcu ncu : Z)
| By_2d_small (rows p : Z).
Arguments By_sgemm {S}.
Arguments By_online {S}.
Arguments By_2d {S}.
Arguments By_2d_small {S}.

Section Any.
Variables (S : scalar) (F : fpenv) (ar : arch) (q : cntx) (nz : elt S -> bool) (M N K : Z).

(** The call, with a context of the caller; the result is the context afterwards. *)
Definition run (c : cntx) (x : call S) : prog (elt S) cntx :=
  match x with
  | By_sgemm p alpha beta s mcu kcu ncu => cake_sgemm S F ar q nz M N K p (Some c) false false alpha beta s mcu kcu ncu
  | By_online so p mcu kcu ncu => cake_sgemm_online S so F ar q M N K p (Some c) mcu kcu ncu
  | By_2d rows p mcu kcu ncu => pbind (cake_sgemm_2d S F ar q rows M N K p (Some c) mcu kcu ncu) (fun _ => PRet c)
  | By_2d_small rows p => pbind (cake_sgemm_2d_small S F ar q rows M N K p (Some c)) (fun _ => PRet c)
  end.

(** One call after the other, with the same context *)
Fixpoint runs (c : cntx) (l : list (call S)) : prog (elt S) cntx :=
  match l with nil => PRet c | x :: l => pbind (run c x) (fun c' => runs c' l) end.

(** Its arguments are legal, and beta does not ask for the old C. *)
Definition allowed (c : cntx) (x : call S) : Prop :=
  match x with
  | By_sgemm p alpha beta s mcu kcu ncu => legal F ar s c M N K p mcu kcu ncu /\ (s = KMN \/ nz beta = false)
  | By_online so p mcu kcu ncu => legal F ar KMN c M N K p mcu kcu ncu /\ (so = true -> one_thread M N K p (mr c))
  | By_2d rows p mcu kcu ncu => legal_2d F ar rows c M N K p mcu kcu ncu
  | By_2d_small rows p => exists pn, legal_small F ar rows c M N K p pn
  end.

(** What it reads beyond the matrices exists. *)
Definition room (m : mem (elt S)) (c : cntx) (x : call S) : Prop :=
  match x with
  | By_sgemm p alpha beta s mcu kcu ncu => s <> KMN -> B_rim m N K (nr c) 0
  | _ => A_rim m M K (mr c) /\ B_rim m N K (nr c) 0
  end.
End Any.
