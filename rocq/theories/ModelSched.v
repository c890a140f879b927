(** * The block schedules: src/cake_sgemm_k_first.cpp, src/cake_sgemm_m_first.cpp,
      src/cake_sgemm_n_first.cpp; and the BLIS-style packers of src/pack_k_first.cpp.

    Definitions only. *)

From Coq Require Import ZArith List Bool.
From Verif Require Import Lang ModelSizing ModelKernel ModelPack.
Open Scope Z_scope.

(** C truth value of i % 2 *)
Definition odd2 (i : Z) : bool := truthy (Z.rem i 2).

(** start, end, increment of a loop that runs backwards when [rev] *)
Definition snake (rev : bool) (nb : Z) : Z * Z * Z :=
  if rev then (nb - 1, -1, -1) else (0, nb, 1).
Definition sn_start (s : Z * Z * Z) : Z := fst (fst s).
Definition sn_end (s : Z * Z * Z) : Z := snd (fst s).
Definition sn_inc (s : Z * Z * Z) : Z := snd s.

(** Direction of the inner loop, e.g. src/cake_sgemm_k_first.cpp:52-73 *)
Definition inner_rev (n m : Z) : bool := if odd2 n then negb (odd2 m) else odd2 m.

Section Sched.

Variable S : scalar.
Notation T := (elt S).
Notation thr := (thr T).
Notation prog := (prog T).

(** The two register-tile loops, e.g. src/cake_sgemm_k_first.cpp:108-124; [kern] is
    the microkernel call.  n_r and m_r are never 0 (the sizing code divides by
    them). *)
Definition tile_loops (kern : ptr -> ptr -> ptr -> Z -> Z -> Z -> thr unit)
           (Ap Bp Cp : ptr) (mt nt kt m_r n_r : Z) : thr unit :=
  tfor_ 0 (Z.quot nt n_r) 1 (fun n_reg =>
    tfor_ 0 (Z.quot mt m_r) 1 (fun m_reg =>
      kern (padd Ap (m_reg * m_r * kt))
           (padd Bp (n_reg * kt * n_r))
           (padd Cp (n_reg * mt * n_r + m_reg * m_r * n_r)) m_r n_r kt)).

(** ** K-first *)

(** src/cake_sgemm_k_first.cpp:85-125: what one core computes for block column n and
    block row m *)
Definition kmn_core (ar : arch) (A_p B_p : ptr) (K p : Z) (c : cntx) (x : blk_dims)
           (n m core : Z) : thr unit :=
  let ks := snake (inner_rev n m) (Kb x) in
  let nt := blk_nt x n in
  let mt := core_mt x m core in
  let mx := core_mx x m in
  tfor_ne_ (sn_start ks) (sn_end ks) (sn_inc ks) (fun k =>
    let kt := blk_kt x k in
    let a_ind := m * p * m_c x * K + k * blk_mcb x p (mr c) m * k_c x + core * mx * kt in
    let b_ind := n * K * n_c x + k * k_c x * nt in
    tile_loops (kernel_map S ar (m_map c) (n_map c))
      (padd A_p a_ind) (padd B_p b_ind) (BufCp core, 0) mt nt kt (mr c) (nr c)).

(** src/cake_sgemm_k_first.cpp:127-149: unpack a core's result and clear its buffer *)
Definition kmn_unpack (C : ptr) (M N p : Z) (c : cntx) (x : blk_dims) (n m core : Z) : thr unit :=
  let mx := core_mx x m in
  let C_offset := m * p * m_c x * N + n * n_c x in
  (unpack_ob_C_single_buf S (padd C (C_offset + core * mx * N)) (BufCp core, 0)
     M N (blk_m1 x M p m) (blk_n1 x N n) (core * mx) (core_mt x m core) (blk_nt x n) (mr c) (nr c) ;;+
   memset0 S (BufCp core, 0) (m_c x * n_c x))%thr.

(** src/cake_sgemm_k_first.cpp:9-153 *)
Definition schedule_KMN (ar : arch) (A_p B_p C : ptr) (M N K p : Z) (c : cntx) (x : blk_dims)
  : prog unit :=
  pfor_ 0 (Nb x) 1 (fun n =>
    let ms := snake (odd2 n) (Mb x) in
    pfor_ne_ (sn_start ms) (sn_end ms) (sn_inc ms) (fun m =>
      (ppar_for 0 (blk_pu x p m) 1 (kmn_core ar A_p B_p K p c x n m) ;;;
       ppar_for 0 (blk_pu x p m) 1 (kmn_unpack C M N p c x n m))%prog)).

(** src/cake_sgemm_k_first.cpp:722-732: pack one k_c x n_c block of B *)
Definition online_packB (B : ptr) (N : Z) (c : cntx) (x : blk_dims) (n k : Z) : prog unit :=
  let kt := blk_kt x k in
  ppar_for 0 (blk_nt x n) (nr c) (fun n2 =>
    pack_B_nr_x_kc S (padd B (blk_n1 x N n + k * k_c x * N + n2)) (BufBp, n2 * kt) N kt (nr c)).

(** src/cake_sgemm_k_first.cpp:735-785: one core packs its rows of A (unless they are
    already there) and multiplies.  The assignment to the shared variable A_offset
    (line 751), which every thread makes with the same value, is modelled by a store
    to a shared cell when [so] is set and left out otherwise. *)
Definition online_core (so : bool) (ar : arch) (A : ptr) (K p : Z) (c : cntx) (x : blk_dims)
           (n m k : Z) (reuseA : bool) (core : Z) : thr unit :=
  let kt := blk_kt x k in
  let nt := blk_nt x n in
  let mt := core_mt x m core in
  let mx := core_mx x m in
  let A_offset := m * p * m_c x * K + k * k_c x in
  ((if so then tstore (BufX 2) 0 (zero S) else TRet tt) ;;+
   (if reuseA then TRet tt
    else tfor_ 0 mt (mr c) (fun m3 =>
      pack_A_mr_x_kc S (padd A (A_offset + core * mx * K + m3 * K)) (BufAp core, m3 * kt) K kt (mr c))) ;;+
   tile_loops (kernel_map S ar (m_map c) (n_map c))
     (BufAp core, 0) (BufBp, 0) (BufCp core, 0) mt nt kt (mr c) (nr c))%thr.

(** src/cake_sgemm_k_first.cpp:633-813 *)
Definition schedule_KMN_online (so : bool) (ar : arch) (A B C : ptr) (M N K p : Z) (c : cntx)
           (x : blk_dims) : prog unit :=
  pfor_ 0 (Nb x) 1 (fun n =>
    let ms := snake (odd2 n) (Mb x) in
    pfor_ne_ (sn_start ms) (sn_end ms) (sn_inc ms) (fun m =>
      let ks := snake (inner_rev n m) (Kb x) in
      (pfor_ne_ (sn_start ks) (sn_end ks) (sn_inc ks) (fun k =>
        (if (k =? sn_start ks) && negb (m =? sn_start ms) then PRet tt
         else online_packB B N c x n k) ;;;
        ppar_for 0 (blk_pu x p m) 1
          (online_core so ar A K p c x n m k
             ((k =? sn_start ks) && (m =? sn_start ms) && negb (n =? 0)))) ;;;
       ppar_for 0 (blk_pu x p m) 1 (kmn_unpack C M N p c x n m))%prog)).

(** ** Two-dimensional core grid *)

(** src/cake_sgemm_k_first.cpp:319-327, 356-364 *)
Definition g2_pun (x : blk_dims) (n : Z) : Z := if is_last n (Nb x) (n_pad x) then pn_l x else pn x.
Definition g2_ncb (x : blk_dims) (n_r n : Z) : Z :=
  if is_last n (Nb x) (n_pad x) then n_r * nr_rem x else pn x * n_c x.
Definition g2_n1 (x : blk_dims) (N n : Z) : Z :=
  if is_last n (Nb x) (n_pad x) then N - Z.rem N (pn x * n_c x) else n * pn x * n_c x.
Definition g2_pum (x : blk_dims) (m : Z) : Z := if is_last m (Mb x) (m_pad x) then pm_l x else pm x.
Definition g2_mcb (x : blk_dims) (m_r m : Z) : Z :=
  if is_last m (Mb x) (m_pad x) then m_r * mr_rem x else pm x * m_c x.
Definition g2_m1 (x : blk_dims) (M m : Z) : Z :=
  if is_last m (Mb x) (m_pad x) then M - Z.rem M (pm x * m_c x) else m * pm x * m_c x.
(** src/cake_sgemm_k_first.cpp:411-426 *)
Definition g2_mt (x : blk_dims) (m ci : Z) : Z :=
  if is_last m (Mb x) (m_pad x) then (if ci =? pm_l x - 1 then m_c1_last_core x else m_c1 x) else m_c x.
Definition g2_mx (x : blk_dims) (m : Z) : Z := if is_last m (Mb x) (m_pad x) then m_c1 x else m_c x.
Definition g2_nt (x : blk_dims) (n cj : Z) : Z :=
  if is_last n (Nb x) (n_pad x) then (if cj =? pn_l x - 1 then n_c1_last_core x else n_c1 x) else n_c x.
Definition g2_nx (x : blk_dims) (n : Z) : Z := if is_last n (Nb x) (n_pad x) then n_c1 x else n_c x.

(** src/cake_sgemm_k_first.cpp:381-387 *)
Definition g2_packB (B : ptr) (N : Z) (c : cntx) (x : blk_dims) (n k : Z) : prog unit :=
  let kt := blk_kt x k in
  ppar_for 0 (g2_ncb x (nr c) n) (nr c) (fun n2 =>
    pack_B_nr_x_kc S (padd B (n * pn x * n_c x + k * k_c x * N + n2)) (BufBp, n2 * kt) N kt (nr c)).

(** src/cake_sgemm_k_first.cpp:393-399 *)
Definition g2_packA (A : ptr) (K : Z) (c : cntx) (x : blk_dims) (m k : Z) : prog unit :=
  let kt := blk_kt x k in
  ppar_for 0 (g2_mcb x (mr c) m) (mr c) (fun m3 =>
    pack_A_mr_x_kc S (padd A (m * pm x * m_c x * K + k * k_c x + m3 * K)) (BufAp 0, m3 * kt) K kt (mr c)).

(** src/cake_sgemm_k_first.cpp:403-449 *)
Definition g2_core (ar : arch) (c : cntx) (x : blk_dims) (n m k core : Z) : thr unit :=
  let kt := blk_kt x k in
  let ci := Z.quot core (g2_pun x n) in
  let cj := Z.rem core (g2_pun x n) in
  tile_loops (cake_sgemm_ukernel S ar)
    (BufAp 0, ci * g2_mx x m * kt) (BufBp, cj * g2_nx x n * kt) (BufCp core, 0)
    (g2_mt x m ci) (g2_nt x n cj) kt (mr c) (nr c).

(** src/cake_sgemm_k_first.cpp:453-483 *)
Definition g2_unpack (C : ptr) (M N : Z) (c : cntx) (x : blk_dims) (n m core : Z) : thr unit :=
  let ci := Z.quot core (g2_pun x n) in
  let cj := Z.rem core (g2_pun x n) in
  let C_offset := m * pm x * m_c x * N + n * pn x * n_c x in
  (unpack_ob_C_single_buf S (padd C (C_offset + ci * g2_mx x m * N + cj * g2_nx x n)) (BufCp core, 0)
     M N (g2_m1 x M m) (g2_n1 x N n + cj * g2_nx x n) (ci * g2_mx x m)
     (g2_mt x m ci) (g2_nt x n cj) (mr c) (nr c) ;;+
   memset0 S (BufCp core, 0) (m_c x * n_c x))%thr.

(** src/cake_sgemm_k_first.cpp:279-486 *)
Definition schedule_KMN_2d (ar : arch) (A B C : ptr) (M N K : Z) (c : cntx) (x : blk_dims) : prog unit :=
  pfor_ 0 (Nb x) 1 (fun n =>
    let ms := snake (odd2 n) (Mb x) in
    pfor_ne_ (sn_start ms) (sn_end ms) (sn_inc ms) (fun m =>
      let ks := snake (inner_rev n m) (Kb x) in
      let p_used := g2_pum x m * g2_pun x n in
      (pfor_ne_ (sn_start ks) (sn_end ks) (sn_inc ks) (fun k =>
        (if (k =? sn_start ks) && negb (m =? sn_start ms) then PRet tt
         else g2_packB B N c x n k) ;;;
        (if (k =? sn_start ks) && (m =? sn_start ms) && negb (n =? 0) then PRet tt
         else g2_packA A K c x m k) ;;;
        ppar_for 0 p_used 1 (g2_core ar c x n m k)) ;;;
       ppar_for 0 p_used 1 (g2_unpack C M N c x n m))%prog)).

(** ** Two-dimensional grid, small matrices *)

(** src/cake_sgemm_k_first.cpp:215-227, 259-260 *)
Definition sm_nt (x : blk_dims) (core : Z) : Z :=
  if (Z.rem core (pn x) =? pn x - 1) && truthy (n_pad x) then n_c1 x else n_c x.
Definition sm_mt (x : blk_dims) (core : Z) : Z :=
  if (Z.quot core (pn x) =? pm x - 1) && truthy (m_pad x) then m_c1 x else m_c x.

(** src/cake_sgemm_k_first.cpp:206-252 *)
Definition sm_core (ar : arch) (c : cntx) (x : blk_dims) (k core : Z) : thr unit :=
  let kt := blk_kt x k in
  tile_loops (cake_sgemm_ukernel S ar)
    (BufAp 0, Z.quot core (pn x) * m_c x * kt) (BufBp, Z.rem core (pn x) * n_c x * kt) (BufCp core, 0)
    (sm_mt x core) (sm_nt x core) kt (mr c) (nr c).

(** src/cake_sgemm_k_first.cpp:256-268 *)
Definition sm_unpack (C : ptr) (M N : Z) (c : cntx) (x : blk_dims) (core : Z) : thr unit :=
  (unpack_ob_C_single_buf S (padd C (Z.quot core (pn x) * m_c x * N + Z.rem core (pn x) * n_c x)) (BufCp core, 0)
     M N 0 (Z.rem core (pn x) * n_c x) (Z.quot core (pn x) * m_c x)
     (sm_mt x core) (sm_nt x core) (mr c) (nr c) ;;+
   memset0 S (BufCp core, 0) (m_c x * n_c x))%thr.

(** src/cake_sgemm_k_first.cpp:159-271 *)
Definition schedule_KMN_2d_small (ar : arch) (A B C : ptr) (M N K p : Z) (c : cntx) (x : blk_dims)
  : prog unit :=
  (pfor_ 0 (Kb x) 1 (fun k =>
     let kt := blk_kt x k in
     ppar_for 0 (N_padded x) (nr c) (fun n2 =>
       pack_B_nr_x_kc S (padd B (k * k_c x * N + n2)) (BufBp, n2 * kt) N kt (nr c)) ;;;
     ppar_for 0 (M_padded x) (mr c) (fun m3 =>
       pack_A_mr_x_kc S (padd A (k * k_c x + m3 * K)) (BufAp 0, m3 * kt) K kt (mr c)) ;;;
     ppar_for 0 p 1 (sm_core ar c x k)) ;;;
   ppar_for 0 p 1 (sm_unpack C M N c x))%prog.

(** ** M-first: src/cake_sgemm_m_first.cpp *)

(** lines 74-110: one block row m, all cores' shares of the k block in turn *)
Definition mkn_row (ar : arch) (A_p B_p C_p : ptr) (K p : Z) (c : cntx) (x : blk_dims)
           (n k m : Z) : thr unit :=
  let nt := blk_nt x n in
  let mt := mf_mt x m in
  let kx := core_kx x k in
  tfor_ 0 (blk_pk x p k) 1 (fun core =>
    let kt := core_kt x k core in
    let a_ind := k * M_padded x * p * k_c x + m * m_c x * blk_kcb x p k + core * mt * kx in
    let b_ind := n * K * n_c x + k * p * k_c x * nt + core * kx * nt in
    let c_ind := n * M_padded x * n_c x + m * m_c x * nt in
    tile_loops (cake_sgemm_ukernel S ar) (padd A_p a_ind) (padd B_p b_ind) (padd C_p c_ind)
      mt nt kt (mr c) (nr c)).

(** lines 4-113 *)
Definition schedule_MKN (ar : arch) (A_p B_p C_p : ptr) (M N K p : Z) (c : cntx) (x : blk_dims)
  : prog unit :=
  pfor_ 0 (Nb x) 1 (fun n =>
    let ks := snake (odd2 n) (Kb x) in
    pfor_ne_ (sn_start ks) (sn_end ks) (sn_inc ks) (fun k =>
      let ms := snake (inner_rev n k) (Mb x) in
      ppar_for 0 (Mb x) 1 (fun m_ind =>
        mkn_row ar A_p B_p C_p K p c x n k (sn_start ms + m_ind * sn_inc ms)))).

(** ** N-first: src/cake_sgemm_n_first.cpp *)

(** lines 74-110 *)
Definition nkm_col (ar : arch) (A_p B_p C_p : ptr) (K p : Z) (c : cntx) (x : blk_dims)
           (m k n : Z) : thr unit :=
  let nt := blk_nt x n in
  let mt := nf_mt x p m in
  let kx := core_kx x k in
  tfor_ 0 (blk_pk x p k) 1 (fun core =>
    let kt := core_kt x k core in
    let a_ind := m * p * m_c x * K + mt * k * p * k_c x + core * mt * kx in
    let b_ind := k * p * k_c x * N_padded x + n * n_c x * blk_kcb x p k + core * kx * nt in
    let c_ind := m * p * m_c x * N_padded x + mt * n * n_c x in
    tile_loops (cake_sgemm_ukernel S ar) (padd A_p a_ind) (padd B_p b_ind) (padd C_p c_ind)
      mt nt kt (mr c) (nr c)).

(** lines 4-113 *)
Definition schedule_NKM (ar : arch) (A_p B_p C_p : ptr) (M N K p : Z) (c : cntx) (x : blk_dims)
  : prog unit :=
  pfor_ 0 (Mb x) 1 (fun m =>
    let ks := snake (odd2 m) (Kb x) in
    pfor_ne_ (sn_start ks) (sn_end ks) (sn_inc ks) (fun k =>
      let ns := snake (inner_rev m k) (Nb x) in
      ppar_for 0 (Nb x) 1 (fun n_ind =>
        nkm_col ar A_p B_p C_p K p c x m k (sn_start ns + n_ind * sn_inc ns)))).

(** src/cake_sgemm.cpp:726-765, called with sparse = small = 0.  Case KMN only holds
    commented-out code. *)
Definition schedule (ar : arch) (A_p B_p C_p : ptr) (M N K p : Z) (c : cntx) (x : blk_dims)
           (s : sched) : prog unit :=
  match s with
  | KMN => PRet tt
  | MKN => schedule_MKN ar A_p B_p C_p M N K p c x
  | NKM => schedule_NKM ar A_p B_p C_p M N K p c x
  | NA => PExit
  end.

(** ** BLIS-style packers of src/pack_k_first.cpp (used by cake_sgemm_test) *)

(** src/pack_k_first.cpp:97-181, A_packing_kernel = pack_A_mr_x_kc *)
Definition pack_A_single_buf_k_first_blis (A A_p : ptr) (M K p : Z) (x : blk_dims) (m_r : Z) : prog unit :=
  (let* _ := pfor 0 (Mb x) 1 0 (fun m off =>
     pfor 0 (Kb x) 1 off (fun k off =>
       let kt := blk_kt x k in
       let A_offset := m * p * m_c x * K + k * k_c x in
       ppar_for 0 (blk_pu x p m) 1 (fun core =>
         let mx := core_mx x m in
         if is_last m (Mb x) (m_pad x) && (core =? p_l x - 1) then
           pack_ob_A_single_buf S (padd A (A_offset + core * mx * K))
             (padd A_p (off + core * mx * kt))
             M K (m * p * m_c x) (core * mx) (core_mt x m core) kt m_r
         else
           tfor_ 0 (core_mt x m core) m_r (fun m3 =>
             pack_A_mr_x_kc S (padd A (A_offset + core * mx * K + m3 * K))
               (padd A_p (off + core * mx * kt + m3 * kt)) K kt m_r)) ;;;
       PRet (off + blk_mcb x p m_r m * kt))) in
   PRet tt)%prog.

(** src/pack_k_first.cpp:309-331: full k blocks *)
Definition packB_main_blis (B B_p : ptr) (K N : Z) (x : blk_dims) (n_r n1 ind1 : Z) : prog unit :=
  ppar_for 0 (K - Z.rem K (k_c x)) (k_c x) (fun k1 =>
    tfor_ 0 (n_c x) n_r (fun n2 =>
      pack_B_nr_x_kc S (padd B (n1 + k1 * N + n2))
        (padd B_p (ind1 + Z.quot k1 (k_c x) * k_c x * n_c x + n2 * k_c x)) N (k_c x) n_r)).

(** src/pack_k_first.cpp:334-352: the short k block *)
Definition packB_tail_blis (B B_p : ptr) (K N : Z) (x : blk_dims) (n_r n1 ind1 : Z) : prog unit :=
  let k1 := K - Z.rem K (k_c x) in
  ppar_for 0 (n_c x) n_r (fun n2 =>
    pack_B_nr_x_kc S (padd B (n1 + k1 * N + n2)) (padd B_p (ind1 + n2 * k_c1 x)) N (k_c1 x) n_r).

(** src/pack_k_first.cpp:290-400 *)
Definition pack_B_k_first_blis (B B_p : ptr) (K N : Z) (x : blk_dims) (n_r : Z) : prog unit :=
  (if (n_c x =? 0) || (k_c x =? 0) then PUB else
   let Kf := K - Z.rem K (k_c x) in
   let Nf := N - Z.rem N (n_c x) in
   let* ind1 := pfor 0 Nf (n_c x) 0 (fun n1 ind1 =>
     packB_main_blis B B_p K N x n_r n1 ind1 ;;;
     let ind1 := ind1 + Kf * n_c x in
     if truthy (k_c1 x) then
       packB_tail_blis B B_p K N x n_r n1 ind1 ;;;
       PRet (ind1 + k_c1 x * n_c x)
     else PRet ind1) in
   if truthy (n_c1 x) then
     packB_main S true B B_p K N x n_r Nf ind1 (n_c1 x) ;;;
     let ind1 := ind1 + Kf * n_c1 x in
     if truthy (k_c1 x) then packB_tail S true B B_p K N x n_r Nf ind1 (n_c1 x)
     else PRet tt
   else PRet tt)%prog.

End Sched.
