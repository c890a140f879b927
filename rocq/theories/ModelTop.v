(** * The public multiplication functions: src/cake_sgemm.cpp.

    Definitions only.  Timing and DEBUG output are omitted.  Allocation always
    succeeds here; the code's exit(1) on posix_memalign failure and its missing test of
    calloc are in ModelAlloc.v. *)

From Coq Require Import ZArith List Bool.
From Verif Require Import Lang ModelSizing ModelKernel ModelPack ModelSched.
Open Scope Z_scope.

Section Top.

Variable S : scalar.
Notation T := (elt S).
Notation prog := (prog T).

Definition lift {A} (c : comp A) : prog A :=
  match c with CRet a => PRet a | CUB => PUB | CExit => PExit end.

Open Scope prog_scope.

(** The heap object for x = malloc(sizeof(blk_dims_t)), e.g. line 18. *)
Definition xbuf : buf := BufX 0.
(** The heap object for the context made by cake_query_cntx (src/block_sizing.cpp:43). *)
Definition cbuf : buf := BufX 1.

(** lines 14-16: if(cake_cntx == NULL) cake_cntx = cake_query_cntx(); [q] is what the
    query returns on this machine. *)
Definition get_ctx (q : cntx) (oc : option cntx) : prog cntx :=
  match oc with
  | Some c => PRet c
  | None => palloc cbuf 1 false None ;;; PRet q
  end.

(** float *C_p[p]; C_p[i] = calloc(n) (lines 92-94) *)
Definition alloc_Cp (p n : Z) : prog unit :=
  pfor_ 0 p 1 (fun i => palloc (BufCp i) n false (Some (zero S))).
Definition free_Cp (p : Z) : prog unit := pfor_ 0 p 1 (fun i => pfree (BufCp i)).

(** lines 9-175.  [nz beta] is the C test beta != 0.  The caller's matrices are
    BufA, BufB, BufC.  Returns the context as the call leaves it. *)
Definition cake_sgemm (F : fpenv) (ar : arch) (q : cntx) (nz : T -> bool)
           (M N K p : Z) (oc : option cntx) (packedA packedB : bool) (alpha beta : T)
           (s : sched) (mcu kcu ncu : Z) : prog cntx :=
  let* c0 := get_ctx q oc in
  palloc xbuf 1 false None ;;;
  let* xc := lift (init_block_dims F M N K p c0 s mcu kcu ncu) in
  let x := fst xc in
  let c := snd xc in
  let s := sch x in
  let* A_p :=
    (if packedA then PRet (BufA, 0)
     else
       let* sz := lift (packed_A_size M K p x (mr c) s) in
       palloc (BufAp 0) sz true None ;;;
       pack_A S (BufA, 0) (BufAp 0, 0) M K p x c s ;;;
       PRet (BufAp 0, 0)) in
  let* B_p :=
    (if packedB then PRet (BufB, 0)
     else
       let* sz := lift (packed_B_size K N x (nr c)) in
       palloc BufBp sz true None ;;;
       pack_B S (BufB, 0) (BufBp, 0) K N p x c s ;;;
       PRet (BufBp, 0)) in
  (match s with
   | KMN =>
       alloc_Cp p (m_c x * n_c x) ;;;
       schedule_KMN S ar A_p B_p (BufC, 0) M N K p c x ;;;
       free_Cp p
   | _ =>
       let* sz := lift (packed_C_size M N p x (mr c) (nr c) s) in
       (if nz beta then
          palloc (BufCp 0) sz true None ;;;
          pack_C S (BufC, 0) (BufCp 0, 0) M N p x c s
        else palloc (BufCp 0) sz false (Some (zero S))) ;;;
       schedule S ar A_p B_p (BufCp 0, 0) M N K p c x s ;;;
       unpack_C S (BufC, 0) (BufCp 0, 0) M N p x c s ;;;
       pfree (BufCp 0)
   end) ;;;
  (if packedA then PRet tt else pfree (BufAp 0)) ;;;
  (if packedB then PRet tt else pfree BufBp) ;;;
  pfree xbuf ;;;
  PRet c.

(** lines 179-247; alpha, beta, packedA, packedB and sch are unused.  [rows] is the number of
    rows of the static table grid_dims. *)
Definition cake_sgemm_2d (F : fpenv) (ar : arch) (q : cntx) (rows : Z) (M N K p : Z) (oc : option cntx)
           (mcu kcu ncu : Z) : prog unit :=
  let* c := get_ctx q oc in
  palloc xbuf 1 false None ;;;
  let* x := lift (init_block_dims_2d F M N K p rows c KMN mcu kcu ncu) in
  palloc (BufAp 0) (pm x * m_c x * k_c x) true None ;;;
  palloc BufBp (pn x * n_c x * k_c x) true None ;;;
  alloc_Cp p (m_c x * n_c x) ;;;
  schedule_KMN_2d S ar (BufA, 0) (BufB, 0) (BufC, 0) M N K c x ;;;
  pfree (BufAp 0) ;;;
  free_Cp p ;;;
  pfree BufBp ;;;
  pfree xbuf.

(** lines 253-318 *)
Definition cake_sgemm_2d_small (F : fpenv) (ar : arch) (q : cntx) (rows : Z) (M N K p : Z)
           (oc : option cntx) : prog unit :=
  let* c := get_ctx q oc in
  palloc xbuf 1 false None ;;;
  let* x := lift (init_block_dims_2d_small F M N K p rows c KMN) in
  palloc (BufAp 0) (M_padded x * k_c x) true None ;;;
  palloc BufBp (k_c x * N_padded x) true None ;;;
  alloc_Cp p (m_c x * n_c x) ;;;
  schedule_KMN_2d_small S ar (BufA, 0) (BufB, 0) (BufC, 0) M N K p c x ;;;
  pfree (BufAp 0) ;;;
  free_Cp p ;;;
  pfree BufBp ;;;
  pfree xbuf.

(** lines 397-468.  [so] selects whether the shared variable A_offset of
    schedule_KMN_online is part of the model (see ModelSched.online_core). *)
Definition cake_sgemm_online (so : bool) (F : fpenv) (ar : arch) (q : cntx) (M N K p : Z)
           (oc : option cntx) (mcu kcu ncu : Z) : prog cntx :=
  let* c0 := get_ctx q oc in
  palloc xbuf 1 false None ;;;
  let* xc := lift (init_block_dims F M N K p c0 KMN mcu kcu ncu) in
  let x := fst xc in
  let c := snd xc in
  pfor_ 0 p 1 (fun i => palloc (BufAp i) (m_c x * k_c x) true None) ;;;
  palloc BufBp (k_c x * n_c x) true None ;;;
  alloc_Cp p (m_c x * n_c x) ;;;
  (if so then palloc (BufX 2) 1 false None else PRet tt) ;;;
  schedule_KMN_online S so ar (BufA, 0) (BufB, 0) (BufC, 0) M N K p c x ;;;
  (if so then pfree (BufX 2) else PRet tt) ;;;
  pfor_ 0 p 1 (fun i => pfree (BufAp i) ;;; pfree (BufCp i)) ;;;
  pfree BufBp ;;;
  pfree xbuf ;;;
  PRet c.

(** lines 472-609 *)
Definition cake_sgemm_test (F : fpenv) (ar : arch) (q : cntx) (nz : T -> bool)
           (M N K p : Z) (oc : option cntx) (packedA packedB : bool) (alpha beta : T)
  : prog cntx :=
  let* c0 := get_ctx q oc in
  palloc xbuf 1 false None ;;;
  let* xc := lift (init_block_dims F M N K p c0 KMN 0 0 0) in
  let x := fst xc in
  let c := snd xc in
  let s := sch x in
  let* A_p :=
    (if packedA then PRet (BufA, 0)
     else
       let* sz := lift (packed_A_size M K p x (mr c) s) in
       palloc (BufAp 0) sz true None ;;;
       pack_A_single_buf_k_first_blis S (BufA, 0) (BufAp 0, 0) M K p x (mr c) ;;;
       PRet (BufAp 0, 0)) in
  let* B_p :=
    (if packedB then PRet (BufB, 0)
     else
       let* sz := lift (packed_B_size K N x (nr c)) in
       palloc BufBp sz true None ;;;
       pack_B_k_first_blis S (BufB, 0) (BufBp, 0) K N x (nr c) ;;;
       PRet (BufBp, 0)) in
  let* sz := lift (packed_C_size M N p x (mr c) (nr c) s) in
  (if nz beta then
     palloc (BufCp 0) sz true None ;;;
     pack_C S (BufC, 0) (BufCp 0, 0) M N p x c s
   else palloc (BufCp 0) sz false (Some (zero S))) ;;;
  schedule S ar A_p B_p (BufCp 0, 0) M N K p c x s ;;;
  unpack_C S (BufC, 0) (BufCp 0, 0) M N p x c s ;;;
  (if packedA then PRet tt else pfree (BufAp 0)) ;;;
  (if packedB then PRet tt else pfree BufBp) ;;;
  pfree (BufCp 0) ;;;
  pfree xbuf ;;;
  PRet c.

End Top.
