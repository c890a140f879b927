(** * Printing: print_array, print_mat, print_schedule (src/util.cpp:293-336), print_filters and
      print_feature_map (examples/cake_conv.cpp:1139-1173).

    Definitions only.  These functions only read memory; what they print is their result.  A piece
    of the output is a literal text, an int printed with %d, or an element printed with %f (how %f
    renders it is left open).  Index arithmetic is unbounded. *)

From Coq Require Import ZArith List Bool Ascii String.
From Verif Require Import Lang ModelSizing ModelKernel.
Import ListNotations.
Open Scope string_scope.
Open Scope list_scope.
Open Scope Z_scope.

Inductive piece (V : Type) : Type := Say (s : string) | Num (n : Z) | Show (v : V).
Arguments Say {V} s. Arguments Num {V} n. Arguments Show {V} v.

(** \n *)
Definition nl : string := String "010"%char EmptyString.
Definition nl2 : string := (nl ++ nl)%string.
Definition nl3 : string := (nl ++ nl ++ nl)%string.

Section Print.

Context {V : Type}.

(** Reading an element: undefined outside of the object, or if it was never assigned. *)
Definition elem (m : mem V) (p : ptr) (i : Z) : comp V :=
  match live m (fst p) with
  | Some bi =>
      if (0 <=? snd p + i) && (snd p + i <? blen bi)
      then match dat m (fst p) (snd p + i) with Some v => CRet v | None => CUB end
      else CUB
  | None => CUB
  end.

(** The output of for (i = 0; i < n; i++) body *)
Fixpoint out_iter (n : nat) (i : Z) (body : Z -> comp (list (piece V))) : comp (list (piece V)) :=
  match n with
  | O => CRet []
  | S n => do a <- body i; do r <- out_iter n (i + 1) body; CRet (a ++ r)%list
  end.
Definition out_for (n : Z) (body : Z -> comp (list (piece V))) : comp (list (piece V)) :=
  out_iter (Z.to_nat n) 0 body.

(** src/util.cpp:293-300 *)
Definition print_array (m : mem V) (arr : ptr) (len : Z) : comp (list (piece V)) :=
  do o <- out_for len (fun i => do v <- elem m arr i; CRet [Show v; Say " "]);
  CRet (o ++ [Say nl2])%list.

(** src/util.cpp:303-313 *)
Definition print_mat (m : mem V) (arr : ptr) (r c : Z) : comp (list (piece V)) :=
  do o <- out_for r (fun i =>
            do l <- out_for c (fun j => do v <- elem m arr (i * c + j); CRet [Show v; Say " "]);
            CRet (l ++ [Say nl])%list);
  CRet (o ++ [Say nl2])%list.

(** src/util.cpp:316-336: NA is the default case, which ends the program *)
Definition print_schedule (sch : sched) : comp (list (piece V)) :=
  match sch with
  | KMN => CRet [Say (nl ++ " KMN Cake Schedule" ++ nl)%string]
  | MKN => CRet [Say (nl ++ " MKN Cake Schedule" ++ nl)%string]
  | NKM => CRet [Say (nl ++ " NKM Cake Schedule" ++ nl)%string]
  | NA => CExit
  end.

(** examples/cake_conv.cpp:1139-1157 *)
Definition print_filters (m : mem V) (F : ptr) (Wf Hf Cin Cout : Z) : comp (list (piece V)) :=
  out_for Cout (fun n =>
    do o <- out_for Cin (fun k =>
              do l <- out_for Hf (fun h =>
                        out_for Wf (fun w =>
                          do v <- elem m F (n * Cin * Wf * Hf + (w + h * Wf) * Cin + k);
                          CRet [Show v; Say ", "]));
              CRet ([Say "channel "; Num k; Say nl] ++ l ++ [Say nl2])%list);
    CRet ([Say "filter "; Num n; Say nl2] ++ o ++ [Say nl3])%list).

(** examples/cake_conv.cpp:1161-1173 *)
Definition print_feature_map (m : mem V) (In : ptr) (Win Hin Cin : Z) : comp (list (piece V)) :=
  do o <- out_for Cin (fun n =>
            do l <- out_for Hin (fun h =>
                      do l <- out_for Win (fun w =>
                                do v <- elem m In (n * Win * Hin + h * Win + w); CRet [Show v; Say " "]);
                      CRet (l ++ [Say nl])%list);
            CRet ([Say "channel "; Num n; Say nl] ++ l)%list);
  CRet (o ++ [Say nl2])%list.

End Print.
