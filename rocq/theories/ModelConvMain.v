(** * The two halves of examples/cake_conv.cpp's main and their comparison.

    Definitions only. *)

From Coq Require Import ZArith List Bool.
From Verif Require Import Lang ModelSizing ModelKernel ModelPack ModelSched ModelTop ModelConv SpecPack.
Open Scope Z_scope.

(** The models of cake_sconv and im_2_col name the objects of their arguments (BufA, BufB, BufC;
    BufX 0 for the matrix im_2_col returns).  [ren_prog s P] is P with every object b replaced by
    s b: the same call with other arguments. *)
Definition swap (a b x : buf) : buf := if buf_eqb a x then b else if buf_eqb b x then a else x.

Fixpoint ren_thr {V R} (s : buf -> buf) (t : thr V R) : thr V R :=
  match t with
  | TRet r => TRet r
  | TLoad al b i k => TLoad al (s b) i (fun v => ren_thr s (k v))
  | TStore b i v k => TStore (s b) i v (ren_thr s k)
  | TFail => TFail
  end.

Fixpoint ren_prog {V R} (s : buf -> buf) (P : prog V R) : prog V R :=
  match P with
  | PRet r => PRet r
  | PPar ts k => PPar (map (ren_thr s) ts) (ren_prog s k)
  | PAlloc b n al init k => PAlloc (s b) n al init (ren_prog s k)
  | PFree b k => PFree (s b) (ren_prog s k)
  | PUB => PUB
  | PExit => PExit
  end.

(** The variables F, Out and In of main, and what main prints last.  F1 is [srcA] and B is [srcB]
    of SpecPack: what main packs. *)
Definition varF : buf := BufX 6.
Definition varOut : buf := BufX 7.
Definition varIn : buf := BufX 8.
Definition said : buf := BufX 9.

(** F for BufA, In for BufB and Out for BufC *)
Definition conv_vars (b : buf) : buf := swap BufA varF (swap BufB varIn (swap BufC varOut b)).
(** In for BufB and B for BufX 0 *)
Definition col_vars (b : buf) : buf := swap BufB varIn (swap (BufX 0) srcB b).

Section ConvMain.

Variable S : scalar.
Notation T := (elt S).
Notation thr := (thr T).
Notation prog := (prog T).

(** [far a b]: fabs(a - b) > eps, line 1222.  The line printed at 1231 is [all_correct], the one
    at 1229 [some_wrong WRONG CORRECT]; it is delivered in element 0 of [said]. *)
Variable far : T -> T -> bool.
Variable all_correct : T.
Variable some_wrong : Z -> Z -> T.

Local Open Scope thr_scope.

(** conv_gemm_checker, lines 1216-1232.  The loop state is (WRONG, CORRECT). *)
Definition conv_gemm_checker (conv gemm : ptr) (M N : Z) : prog unit :=
  pseq (let+ wc := tfor 0 (M * N) 1 (0, 0) (fun i (wc : Z * Z) =>
          let+ g := pload S gemm i in
          let+ v := pload S conv i in
          TRet (if far g v then (fst wc + 1, snd wc) else (fst wc, snd wc + 1))) in
        pstore S (said, 0) 0 (if truthy (fst wc) then some_wrong (fst wc) (snd wc) else all_correct)).

Local Open Scope prog_scope.

(** main, lines 911-1066, for any sizes (main itself fixes them at lines 897-906) and from the
    point where F and In have their values (line 918): the copy F1, the convolution (lines
    957-960; ntrials = 1), im_2_col, the packing of F1 and of its result, the multiplication and
    the comparison.  [cx] is the context of cake_query_cntx, [mcu kcu ncu] the tile sizes given
    on the command line (0: none).  Printing and the calls of free are left out; A_p and B_p are
    BufA and BufB. *)
Definition conv_main (rawH : Z -> Z) (rawK : Z -> Z -> Z) (F : fpenv) (ar : arch) (nz : T -> bool)
           (alpha beta : T) (d : conv_shape) (s p : Z) (cx : cntx) (mcu kcu ncu : Z) : prog unit :=
  let M := Cout d in
  let K := Wf d * Hf d * Cin d in
  let N := Hout d * Wout d in
  palloc srcA (Wf d * Hf d * Cin d * Cout d) false None ;;;
  pseq (tfor_ 0 (Cout d * Cin d * Wf d * Hf d) 1 (fun i =>
          (let+ v := tload varF i in tstore srcA i v)%thr)) ;;;
  palloc varOut (Hout d * Wout d * Cout d) false (Some (zero S)) ;;;
  ren_prog conv_vars (cake_sconv S rawH rawK d s p (mr cx) (nr cx) false) ;;;
  ren_prog col_vars (im_2_col S d) ;;;
  palloc BufC (M * N) false (Some (zero S)) ;;;
  let* _ := prepacked_call S F ar cx nz M N K p cx true true true true alpha beta KMN mcu kcu ncu in
  conv_gemm_checker (varOut, 0) (BufC, 0) M N.

End ConvMain.
