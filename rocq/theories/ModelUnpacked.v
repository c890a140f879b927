(** * The K-first schedule that writes straight into C:
      src/cake_sgemm_k_first.cpp:986-1104 (declared in include/cake.h:28).

    Definitions only.  The library itself does not call it (the call in
    src/cake_sgemm.cpp:574 is commented out); it is part of the public header. *)

From Coq Require Import ZArith List Bool.
From Verif Require Import Lang ModelSizing ModelKernel ModelPack ModelSched.
Open Scope Z_scope.

Section Unpacked.

Variable S : scalar.
Notation T := (elt S).
Notation thr := (thr T).
Notation prog := (prog T).

(** lines 1056-1100: what one core computes for block column n and block row m.  The
    microkernel gets N_padded where the other schedules give it n_r. *)
Definition unpacked_core (ar : arch) (A_p B_p C_p : ptr) (K p : Z) (c : cntx) (x : blk_dims)
           (n m core : Z) : thr unit :=
  let ks := snake (inner_rev n m) (Kb x) in
  let nt := blk_nt x n in
  let mt := core_mt x m core in
  let mx := core_mx x m in
  tfor_ne_ (sn_start ks) (sn_end ks) (sn_inc ks) (fun k =>
    let kt := blk_kt x k in
    let a_ind := m * p * m_c x * K + k * blk_mcb x p (mr c) m * k_c x + core * mx * kt in
    let b_ind := n * K * n_c x + k * k_c x * nt in
    let c_ind := n * n_c x + m * p * m_c x * N_padded x + core * mx * N_padded x in
    tfor_ 0 (Z.quot nt (nr c)) 1 (fun n_reg =>
      tfor_ 0 (Z.quot mt (mr c)) 1 (fun m_reg =>
        cake_sgemm_ukernel S ar
          (padd A_p (a_ind + m_reg * mr c * kt))
          (padd B_p (b_ind + n_reg * kt * nr c))
          (padd C_p (c_ind + n_reg * nr c + m_reg * mr c * N_padded x))
          (mr c) (N_padded x) kt))).

(** lines 986-1104.  M and N are not used by the code. *)
Definition schedule_KMN_C_unpacked (ar : arch) (A_p B_p C_p : ptr) (M N K p : Z) (c : cntx)
           (x : blk_dims) : prog unit :=
  pfor_ 0 (Nb x) 1 (fun n =>
    let ms := snake (odd2 n) (Mb x) in
    pfor_ne_ (sn_start ms) (sn_end ms) (sn_inc ms) (fun m =>
      ppar_for 0 (blk_pu x p m) 1 (unpacked_core ar A_p B_p C_p K p c x n m))).

(** How a caller uses it: pack A and B with the public packing functions and multiply (the
    steps of src/cake_sgemm.cpp:528-574 with line 574 in force).  The objects for the packed
    operands and for C are the caller's. *)
Definition pack_and_multiply (ar : arch) (M N K p : Z) (c : cntx) (x : blk_dims) : prog unit :=
  (pack_A S (BufA, 0) (BufAp 0, 0) M K p x c KMN ;;;
   pack_B S (BufB, 0) (BufBp, 0) K N p x c KMN ;;;
   schedule_KMN_C_unpacked ar (BufAp 0, 0) (BufBp, 0) (BufC, 0) M N K p c x)%prog.

End Unpacked.
