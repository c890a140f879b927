(** * The PyTorch extension: src/linear.cpp.

    Definitions only.  Of libtorch only what the two functions use is modelled, on values: a tensor
    is its sizes and its elements in row-major order.  Strides and views are not modelled: the code
    reads elements only through data_ptr after contiguous(), and writes only the tensors it makes
    from its own calloc'ed blocks.  An exception thrown by libtorch (wrong sizes) is [CExit].
    The M*K, N*K and M*N of the code are ints; they are integers here. *)

From Coq Require Import ZArith List Bool.
From Verif Require Import Lang ModelSizing ModelKernel ModelPack ModelSched ModelTop ModelUtil.
Import ListNotations.
Open Scope Z_scope.

Section Linear.

Variable S : scalar.
Notation T := (elt S).
Notation prog := (prog T).
(** the float sum of add_ and sum *)
Variable add : T -> T -> T.

Record tensor : Type := Tensor { sizes : list Z; elems : Z -> T }.

Definition count (sh : list Z) : Z := fold_right Z.mul 1 sh.
Definition numel (t : tensor) : Z := count (sizes t).

(** t.size(d) *)
Definition size (t : tensor) (d : nat) : comp Z :=
  match nth_error (sizes t) d with Some n => CRet n | None => CExit end.

(** t.reshape(sh): the same elements in the same order *)
Definition reshape (sh : list Z) (t : tensor) : comp tensor :=
  if count sh =? numel t then CRet (Tensor sh (elems t)) else CExit.

(** t.t() *)
Definition tt_ (t : tensor) : comp tensor :=
  match sizes t with
  | [] | [_] => CRet t
  | [r; c] => CRet (Tensor [c; r] (fun e => elems t ((e mod r) * c + e / r)))
  | _ => CExit
  end.

(** t.sum(0) of a matrix.  Libtorch may add in another order. *)
Definition sum0 (t : tensor) : comp tensor :=
  match sizes t with
  | [r; c] => CRet (Tensor [c] (fun j =>
      fold_left (fun acc i => add acc (elems t (i * c + j))) (zseq (Z.to_nat r) 0 1) (zero S)))
  | _ => CExit
  end.

Open Scope prog_scope.

(** The storage of a contiguous tensor, as object [b] *)
Definition place (b : buf) (t : tensor) : prog unit :=
  palloc b (numel t) false None ;;;
  pseq (tfor_ 0 (numel t) 1 (fun i => tstore b i (elems t i))).

(** output.add_(bias) for an output of M x N floats in object [b] and a bias that is a vector of N
    elements or of one (lines 45-47).  Other shapes libtorch can broadcast are not modelled. *)
Definition add_bias (b : buf) (M N : Z) (bias : tensor) : prog unit :=
  match sizes bias with
  | [n] =>
      if (n =? N) || (n =? 1) then
        pseq (tfor_ 0 (M * N) 1 (fun e =>
          tbind (tload b e) (fun v =>
            tstore b e (add v (elems bias (if n =? 1 then 0 else e mod N))))))
      else PExit
  | _ => PExit
  end.

(** The context object of line 37 and line 56, never freed *)
Definition tcbuf : buf := BufX 5.

Section Calls.

Variable F : fpenv.
Variable nz : T -> bool.
Variable one : T.
(** what malloc left in the context object, and the two cache sizes passed *)
Variable junk : cntx.
Variables l2 l3 : Z.

(** A call cake_sgemm(a, b, c, M, N, K, p, cake_cntx) with the other arguments defaulted
    (include/cake.h:12-14): alpha = 1, beta = 0, sch = NA, no tile sizes.  The model's cake_sgemm
    names its operands BufA, BufB, BufC. *)
Definition gemm (c : cntx) (M N K p : Z) : prog cntx :=
  cake_sgemm S F haswell junk nz M N K p (Some c) false false one (zero S) NA 0 0 0.

(** lines 12-50.  The result is the M x N matrix in BufC, the block of line 24: from_blob does not
    own it, so nothing ever frees it. *)
Definition linear_forward (input weight : tensor) (bias : option tensor) : prog unit :=
  let* M := lift S (size input 0) in
  let* N := lift S (size weight 0) in
  let* K := lift S (size input 1) in
  let* input := lift S (reshape [M * K] input) in
  let* wt := lift S (tt_ weight) in
  let* weight := lift S (reshape [N * K] wt) in
  place BufA input ;;;
  place BufB weight ;;;
  palloc BufC (M * N) false (Some (zero S)) ;;;
  palloc tcbuf 1 false None ;;;
  let* c := gemm (cake_query_cntx_torch junk l2 l3) M N K 10 in
  match bias with
  | Some b => add_bias BufC M N b
  | None => PRet tt
  end.

(** The block of grad_input under another name, so that the second call can use BufC.  The copy
    stands for the renaming. *)
Definition gibuf : buf := BufX 6.
Definition rename (n : Z) : prog unit :=
  palloc gibuf n false None ;;;
  pseq (tfor_ 0 n 1 (fun i => tbind (tload BufC i) (fun v => tstore gibuf i v))) ;;;
  pfree BufC ;;; pfree BufA ;;; pfree BufB.

(** lines 53-104.  grad_input is left in [gibuf], grad_weight in BufC, grad_bias is returned. *)
Definition linear_backward (grad_output input weight : tensor) (bias : option tensor)
  : prog (option tensor) :=
  palloc tcbuf 1 false None ;;;
  let* M := lift S (size grad_output 0) in
  let* N := lift S (size weight 1) in
  let* K := lift S (size grad_output 1) in
  let* go := lift S (reshape [M * K] grad_output) in
  let* weight := lift S (reshape [N * K] weight) in
  place BufA go ;;;
  place BufB weight ;;;
  palloc BufC (M * N) false (Some (zero S)) ;;;
  let* c := gemm (cake_query_cntx_torch junk l2 l3) M N K 10 in
  rename (M * N) ;;;
  let* go := lift S (reshape [M; K] go) in
  let* go := lift S (tt_ go) in
  let* M1 := lift S (size go 0) in
  let* K1 := lift S (size input 0) in
  let* N1 := lift S (size input 1) in
  let* go := lift S (reshape [M1 * K1] go) in
  let* input := lift S (reshape [K1 * N1] input) in
  place BufA go ;;;
  place BufB input ;;;
  palloc BufC (M1 * N1) false (Some (zero S)) ;;;
  let* c := gemm c M1 N1 K1 10 in
  let* go := lift S (reshape [K1; M1] go) in
  match bias with
  | Some _ => let* gb := lift S (sum0 go) in PRet (Some gb)
  | None => PRet None
  end.

End Calls.
End Linear.

Arguments Tensor {S}. Arguments sizes {S}. Arguments elems {S}.
