(** * Convolution: examples/cake_conv.cpp.

    Definitions only.  BufA holds the filters, BufB the input, BufC the output, BufAp 0 the packed
    filters.  Failure of malloc and posix_memalign, time and printing are left out. *)

From Coq Require Import ZArith List Bool.
From Verif Require Import Lang ModelSizing ModelKernel ModelPack ModelSmall ModelTop.
Import ListNotations.
Open Scope Z_scope.

(** ** Block sizes *)

(** get_cache_dims_conv, lines 262-329.  [rawH] stands for the (int) floor of line 297 and [rawK]
    for the (int) ceil of line 304, as functions of the values they are computed from that are not
    arguments of the call.  Returns m_c, k_c, n_c. *)
Definition cache_dims_conv (rawH : Z -> Z) (rawK : Z -> Z -> Z) (Cin Cout p m_r : Z) : comp (Z * Z * Z) :=
  do c <- iceil Cout p;
  do r <- imod c m_r;
  let Cm := c - r in
  do mc_ret <-
    (if Cout <? p * m_r then CRet m_r
     else if Cout <? p * Cm then
       do a <- idiv Cout p;
       if a <? m_r then CRet m_r
       else do r <- imod a m_r; CRet (a + (m_r - r))
     else CRet Cm);
  let Hc := rawH mc_ret in
  let nc_ret := if Hc =? 0 then 1 else Hc in
  let Ck := rawK mc_ret nc_ret in
  let Ck := if Cin <? Ck then Cin else if Ck <? 0 then 128 else Ck in
  CRet (mc_ret, Ck, nc_ret).

(** init_block_dims_conv, lines 333-421, case KMN (the only one reached: line 787).  The field
    nr_rem is not assigned and not used; it is given the value of n_c1 here. *)
Definition dims_conv (M N K p mc kc nc m_r : Z) : comp blk_dims :=
  do kr <- imod K kc;
  do nrm <- imod N nc;
  do mrm <- imod M (p * mc);
  do mr_rem <- iceil mrm m_r;
  do mr_per_core <- iceil mr_rem p;
  do p_l <- (if truthy mr_per_core then iceil mr_rem mr_per_core else CRet 0);
  do Mq <- idiv M (p * mc);
  do Nq <- idiv N nc;
  do Kq <- idiv K kc;
  CRet (BD mc kc nc (mr_per_core * m_r) kr nrm
           ((mr_per_core - (p_l * mr_per_core - mr_rem)) * m_r) 0 0 mr_rem nrm 0 p_l 0 0 p 1
           (pad01 mrm) (pad01 kr) (pad01 nrm) (Mq + pad01 mrm) (Kq + pad01 kr) (Nq + pad01 nrm)
           (m_r * mr_rem + Mq * p * mc) ((N - nrm) + nrm) KMN).

Section Conv.

Variable S : scalar.
Notation T := (elt S).
Notation thr := (thr T).
Notation prog := (prog T).

Local Open Scope thr_scope.

(** cake_conv_haswell_6x16, lines 31-258: as the kernels of ModelSmall, with rows of the input
    n_in and rows of the output n_out apart; the filters are packed. *)
Definition cake_conv_haswell_6x16 (A B C : ptr) (n_in n_out k : Z) : thr unit :=
  s_kernel S 1 0 n_in n_out A B C k.

(** ** Packing the filters *)

(** pack_ob_A_single_buf_conv, lines 430-454.  Wf = Hf = 3 here.  The loop state is ind_ob. *)
Definition pack_ob_A_single_buf_conv (A A_p : ptr) (M K m1 m2 mct kct m_r : Z) : thr Z :=
  tfor 0 mct m_r 0 (fun m3 ind =>
    tfor 0 9 1 ind (fun ker ind =>
      tfor 0 kct 1 ind (fun i ind =>
        tfor 0 m_r 1 ind (fun j ind =>
          copy0 S (M <=? m1 + m2 + m3 + j) A_p ind A (m3 * K + i * 9 + ker + j * K) ;;+
          TRet (ind + 1))))).

Local Open Scope prog_scope.

(** pack_filters, lines 536-610.  The state of the loops is A_p_offset. *)
Definition pack_filters (A A_p : buf) (M K p : Z) (x : blk_dims) (m_r : Z) : prog unit :=
  let* _ := pfor 0 (Mb x) 1 0 (fun m ofs =>
    let m_cb := blk_mcb x p m_r m in
    pfor 0 (Kb x) 1 ofs (fun k ofs =>
      let k_c_t := blk_kt x k in
      let A_offset := m * p * m_c x * K + k * k_c x * 9 in
      ppar_for 0 (blk_pu x p m) 1 (fun core =>
        (let+ _ := pack_ob_A_single_buf_conv (A, A_offset + core * core_mx x m * K)
                     (A_p, ofs + core * core_mx x m * k_c_t * 9)
                     M K (m * p * m_c x) (core * core_mx x m) (core_mt x m core) k_c_t m_r in
         TRet tt)%thr) ;;;
      PRet (ofs + m_cb * k_c_t * 9))) in
  PRet tt.

(** ** schedule_KMN_conv, lines 614-708 *)

Record conv_shape : Set := ConvShape {
  Wf : Z; Hf : Z; Win : Z; Hin : Z; Wout : Z; Hout : Z; Cin : Z; Cout : Z }.

Definition conv_core (F : buf) (d : conv_shape) (p m_r n_r : Z) (x : blk_dims) (n m core : Z) : thr unit :=
  let K := Cin d * Wf d * Hf d in
  let n_c_t := blk_nt x n in
  let m_cb := blk_mcb x p m_r m in
  let m_c_t := core_mt x m core in
  let m_c_x := core_mx x m in
  tfor_ 0 (Kb x) 1 (fun k =>
    tfor_ 0 n_c_t 1 (fun ho =>
      tfor_ 0 (Hf d) 1 (fun hf =>
        tfor_ 0 (Wf d) 1 (fun wf =>
          let k_c_t := blk_kt x k in
          let f_ind := m * p * m_c x * K + k * m_cb * k_c x * Wf d * Hf d
                       + core * m_c_x * k_c_t * Wf d * Hf d + m_r * k_c_t * (wf + hf * Wf d) in
          let in_ind := k * k_c x * Hin d * Win d + n * n_c x * Win d + ho * Win d + hf * Win d + wf in
          let out_ind := m * p * m_c x * Hout d * Wout d + n * n_c x * Wout d
                         + core * m_c_x * Hout d * Wout d + ho * Wout d in
          tfor_ 0 (Z.quot (Wout d) n_r) 1 (fun n_reg =>
            tfor_ 0 (Z.quot m_c_t m_r) 1 (fun m_reg =>
              cake_conv_haswell_6x16 (F, f_ind + m_reg * m_r * k_c_t * Wf d * Hf d)
                (BufB, in_ind + n_reg * n_r)
                (BufC, out_ind + n_reg * n_r + m_reg * m_r * Hout d * Wout d)
                (Win d * Hin d) (Wout d * Hout d) k_c_t)))))).

Definition schedule_KMN_conv (F : buf) (d : conv_shape) (p m_r n_r : Z) (x : blk_dims) : prog unit :=
  pfor_ 0 (Nb x) 1 (fun n =>
    pfor_ 0 (Mb x) 1 (fun m =>
      ppar_for 0 (blk_pu x p m) 1 (fun core => conv_core F d p m_r n_r x n m core))).

(** ** cake_sconv, lines 765-848

    The arguments s, argv and sch have no effect.  [packedA]: the filters are packed already. *)
Definition cake_sconv (rawH : Z -> Z) (rawK : Z -> Z -> Z) (d : conv_shape) (s p m_r n_r : Z) (packedA : bool) : prog unit :=
  let* mkn := lift S (cache_dims_conv rawH rawK (Cin d) (Cout d) p m_r) in
  let '(mc, kc, nc) := mkn in
  let* x := lift S (dims_conv (Cout d) (Hout d) (Cin d) p mc kc nc m_r) in
  if packedA then schedule_KMN_conv BufA d p m_r n_r x
  else
    let* sz := lift S (packed_A_size (Cout d) (Cin d * Wf d * Hf d) p x m_r KMN) in
    palloc (BufAp 0) sz true None ;;;
    pack_filters BufA (BufAp 0) (Cout d) (Cin d * Wf d * Hf d) p x m_r ;;;
    schedule_KMN_conv (BufAp 0) d p m_r n_r x ;;;
    pfree (BufAp 0).

(** ** im_2_col, lines 1178-1213.  BufX 0 is mat, BufX 1 is tmp. *)
Definition im_2_col (d : conv_shape) : prog unit :=
  let sz := Cin d * Wf d * Hf d * Win d * Hin d in
  let N := Hout d * Wout d in
  let K := Wf d * Hf d * Cin d in
  palloc (BufX 0) sz false None ;;;
  palloc (BufX 1) sz false None ;;;
  ppar_for 0 1 1 (fun _ =>
    (let+ _ := tfor 0 (Hout d) 1 0 (fun h1 ind =>
       tfor 0 (Wout d) 1 ind (fun w1 ind =>
         tfor 0 (Cin d) 1 ind (fun k ind =>
           tfor 0 (Hf d) 1 ind (fun h ind =>
             tfor 0 (Wf d) 1 ind (fun w ind =>
               let+ v := tload BufB (k * Hin d * Win d + w1 + h1 * Win d + w + h * Win d) in
               tstore (BufX 1) ind v ;;+
               TRet (ind + 1)))))) in
     let+ _ := tfor 0 K 1 0 (fun k ind =>
       tfor 0 N 1 ind (fun n ind =>
         let+ v := tload (BufX 1) (n * K + k) in
         tstore (BufX 0) ind v ;;+
         TRet (ind + 1))) in
     TRet tt)%thr) ;;;
  pfree (BufX 1).

End Conv.
