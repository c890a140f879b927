(** * Matrix times vector: examples/cake_gemv.cpp.

    Definitions only. *)

From Coq Require Import ZArith List Bool.
From Verif Require Import Lang ModelSizing ModelKernel ModelTop.
Import ListNotations.
Open Scope Z_scope.

(** ** Block sizes *)

(** get_cache_dims_mvm, lines 273-340.  [raw] stands for the (int) of line 284, a square root in
    double of the size of the L2 cache.  mc_L3 (lines 294-297), which nothing depends on, is left
    out.  [user] is what atoi finds in argv[6] and argv[7] when argv is given and argv[5] is not
    zero.  Returns m_c and k_c; the field sch is not assigned. *)
Definition cache_dims_mvm (raw M p m_r : Z) (user : option (Z * Z)) : comp (Z * Z) :=
  let mc := raw + (64 - Z.rem raw 64) in
  do mc_ret <-
    (if M <? p * m_r then CRet m_r
     else if M <? p * mc then
       do a <- idiv M p;
       if a <? m_r then CRet m_r
       else do r <- imod a m_r; CRet (a + (m_r - r))
     else CRet mc);
  CRet match user with Some t => t | None => (mc_ret, mc_ret) end.

(** the fields of blk_dims_t (include/common.h:108-135) that schedule_mvm uses *)
Record mvm_dims : Set := MvmDims {
  g_m_c : Z; g_k_c : Z; g_m_c1 : Z; g_k_c1 : Z; g_m_c1_last_core : Z;
  g_p_l : Z; g_m_pad : Z; g_k_pad : Z; g_Mb : Z; g_Kb : Z }.

(** init_block_dims_mvm, lines 344-420, case KMN *)
Definition dims_mvm (M K p mc kc m_r : Z) : comp mvm_dims :=
  do kr <- imod K kc;
  do mrm <- imod M (p * mc);
  do mr_rem <- iceil mrm m_r;
  do mr_per_core <- iceil mr_rem p;
  do p_l <- (if truthy mr_per_core then iceil mr_rem mr_per_core else CRet 0);
  do Mq <- idiv M (p * mc);
  do Kq <- idiv K kc;
  CRet (MvmDims mc kc (mr_per_core * m_r) kr ((mr_per_core - (p_l * mr_per_core - mr_rem)) * m_r)
          p_l (pad01 mrm) (pad01 kr) (Mq + pad01 mrm) (Kq + pad01 kr)).

Section Gemv.

Variable S : scalar.
Notation T := (elt S).
Notation thr := (thr T).
Notation prog := (prog T).

Local Open Scope thr_scope.

(** ** The kernel *)

(** The body of the loops of lines 100-130 and 132-137: [u] = 8 or 1 columns of A are loaded, then
    [u] elements of B, then multiplied and added.  State: pointers A and B, the vector c. *)
Definition mv_step (u M : Z) (st : ptr * ptr * (Z -> T)) : thr (ptr * ptr * (Z -> T)) :=
  let '(A, B, c) := st in
  let+ a := tfor 0 u 1 (fun _ _ => zero S) (fun i a =>
      let+ v := load_vec S 1 (padd A (i * M)) 8 in
      TRet (fun i' => if i' =? i then v else a i')) in
  let+ bb := tfor 0 u 1 (B, fun _ => zero S) (fun i bb =>
      let+ v := tload (fst (fst bb)) (snd (fst bb)) in
      TRet (padd (fst bb) 1, fun i' => if i' =? i then v else snd bb i')) in
  TRet (padd A (u * M), fst bb,
        fold_left (fun c i => fun e => fma S (a i e) (snd bb i) (c e)) (zseq (Z.to_nat u) 0 1) c).

(** cake_sgemv_haswell_8x8_col, lines 89-140.  The argument m is not used. *)
Definition cake_sgemv_haswell_8x8_col (A B C : ptr) (m k M : Z) : thr unit :=
  let+ c := load_vec S 1 C 8 in
  let rem := Z.rem k 8 in
  let k' := k - rem in
  let+ st := tfor 0 k' 8 (A, B, c) (fun _ st => mv_step 8 M st) in
  let+ st := tfor 0 rem 1 st (fun _ st => mv_step 1 M st) in
  store_vec S C 8 (snd st).

(** cake_sgemv_haswell_8x8, lines 145-196: the same statements with columns 8 apart. *)
Definition cake_sgemv_haswell_8x8 (A B C : ptr) (m k : Z) : thr unit :=
  cake_sgemv_haswell_8x8_col A B C m k 8.

Local Open Scope prog_scope.

(** ** schedule_mvm, lines 424-500 *)
Definition mvm_core (m_r : Z) (x : mvm_dims) (M p m core : Z) : thr unit :=
  let last := (m =? g_Mb x - 1) && truthy (g_m_pad x) in
  let m_c_t := if last then (if core =? g_p_l x - 1 then g_m_c1_last_core x else g_m_c1 x) else g_m_c x in
  let m_c_x := if last then g_m_c1 x else g_m_c x in
  tfor_ 0 (g_Kb x) 1 (fun k =>
    let k_c_t := if (k =? g_Kb x - 1) && truthy (g_k_pad x) then g_k_c1 x else g_k_c x in
    let a_ind := m * p * g_m_c x + k * g_k_c x * M + core * m_c_x in
    let b_ind := k * g_k_c x in
    let c_ind := m * p * g_m_c x + core * m_c_x in
    tfor_ 0 (Z.quot m_c_t m_r) 1 (fun m_reg =>
      cake_sgemv_haswell_8x8_col (BufA, a_ind + m_reg * m_r) (BufB, b_ind) (BufC, c_ind + m_reg * m_r)
        m_r k_c_t M)).

Definition schedule_mvm (m_r : Z) (x : mvm_dims) (M p : Z) : prog unit :=
  pfor_ 0 (g_Mb x) 1 (fun m =>
    let p_used := if (m =? g_Mb x - 1) && truthy (g_m_pad x) then g_p_l x else p in
    ppar_for 0 p_used 1 (fun core => mvm_core m_r x M p m core)).

(** ** cake_sgemv, lines 716-768

    The arguments alpha, beta, packedA and sch have no effect (sch is overwritten, and then not
    used).  init_block_dims_mvm switches on a field that get_cache_dims_mvm left unassigned in
    memory from malloc; [field] is what it holds, [None] if indeterminate.  With MKN the field
    m_c1_last_core is not assigned either, and schedule_mvm copies it (line 434), which is
    undefined; with any other value than KMN and MKN the program exits (line 416).  Failure of
    malloc is not modelled. *)
Definition cake_sgemv (raw : Z) (field : option sched) (M K p m_r : Z) (user : option (Z * Z)) : prog unit :=
  let* mk := lift S (cache_dims_mvm raw M p m_r user) in
  match field with
  | None => PUB
  | Some KMN =>
      let* x := lift S (dims_mvm M K p (fst mk) (snd mk) m_r) in
      schedule_mvm m_r x M p
  | Some MKN => PUB
  | Some _ => PExit
  end.

(** ** cake_sgemv_checker, lines 24-33: its loop.  The comparison that follows is in ModelGemvMain.
    [BufX 0] is C_check. *)
Definition gemv_check_loop (M K : Z) : prog unit :=
  let* _ := palloc (BufX 0) M false (Some (zero S)) in
  ppar_for 0 K 1 (fun k =>
    tfor_ 0 M 1 (fun m =>
      (let+ c := tload (BufX 0) m in
       let+ a := tload BufA (k * M + m) in
       let+ b := tload BufB k in
       tstore (BufX 0) m (fma S a b c))%thr)).

End Gemv.
