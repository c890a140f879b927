(** * Packing and unpacking: src/pack_ob.cpp, src/pack_k_first.cpp,
      src/pack_m_first.cpp, src/pack_n_first.cpp, src/unpack_k_first.cpp,
      src/unpack_m_first.cpp, src/unpack_n_first.cpp, src/pack_helper.cpp:92-184.

    Definitions only.  Pointers [&A[i]] are pairs (object, offset).  Timing code is
    omitted.  Variables listed in private(..) or declared inside the loop body are
    thread-local. *)

From Coq Require Import ZArith List Bool.
From Verif Require Import Lang ModelSizing ModelKernel.
Open Scope Z_scope.

Section Pack.

Variable S : scalar.
Notation T := (elt S).
Notation thr := (thr T).
Notation prog := (prog T).

Open Scope thr_scope.

Definition pload (p : ptr) (i : Z) : thr T := tload (fst p) (snd p + i).
Definition pstore (p : ptr) (i : Z) (v : T) : thr unit := tstore (fst p) (snd p + i) v.

(** A copy with an optional guard: dst[i] = guard ? 0.0 : src[j] *)
Definition copy0 (pad : bool) (dst : ptr) (i : Z) (src : ptr) (j : Z) : thr unit :=
  if pad then pstore dst i (zero S)
  else let+ v := pload src j in pstore dst i v.

(** src/pack_ob.cpp:40-60 (the flag pad is unused by the code) *)
Definition pack_ob_A_single_buf (A A_p : ptr) (M K m1 m2 m_c k_c m_r : Z) : thr unit :=
  let+ _ := tfor 0 m_c m_r 0 (fun m3 ind =>
    tfor 0 k_c 1 ind (fun i ind =>
      tfor 0 m_r 1 ind (fun j ind =>
        copy0 (M <=? m1 + m2 + m3 + j) A_p ind A (m3 * K + i + j * K) ;;+
        TRet (ind + 1)))) in
  TRet tt.

(** src/pack_ob.cpp:105-140 *)
Definition pack_ob_B_single_buf (B B_p : ptr) (K N n1 k_c n_c n_r : Z) (pad_n : bool) : thr unit :=
  let+ _ := tfor 0 n_c n_r 0 (fun n2 ind =>
    tfor 0 k_c 1 ind (fun i ind =>
      tfor 0 n_r 1 ind (fun j ind =>
        copy0 (pad_n && (N <=? n1 + n2 + j)) B_p ind B (n2 + i * N + j) ;;+
        TRet (ind + 1)))) in
  TRet tt.

(** src/pack_ob.cpp:145-155 (include/packing.h:105-127 B_packing_kernel on Haswell calls it
    with N = lda) *)
Definition pack_B_nr_x_kc (B B_p : ptr) (N k_c n_r : Z) : thr unit :=
  let+ _ := tfor 0 k_c 1 0 (fun i ind =>
    tfor 0 n_r 1 ind (fun j ind =>
      copy0 false B_p ind B (i * N + j) ;;+ TRet (ind + 1))) in
  TRet tt.

(** src/pack_ob.cpp:159-169 (include/packing.h:83-103 A_packing_kernel) *)
Definition pack_A_mr_x_kc (A A_p : ptr) (K k_c m_r : Z) : thr unit :=
  let+ _ := tfor 0 k_c 1 0 (fun i ind =>
    tfor 0 m_r 1 ind (fun j ind =>
      copy0 false A_p ind A (i + j * K) ;;+ TRet (ind + 1))) in
  TRet tt.

(** src/pack_ob.cpp:253-288 *)
Definition pack_ob_C_single_buf (C C_p : ptr) (M N m1 n1 m2 m_c n_c m_r n_r : Z)
           (pad_m pad_n : bool) : thr unit :=
  let+ _ := tfor 0 n_c n_r 0 (fun n2 ind =>
    tfor 0 m_c m_r ind (fun m3 ind =>
      tfor 0 m_r 1 ind (fun i ind =>
        tfor 0 n_r 1 ind (fun j ind =>
          copy0 ((pad_m || pad_n) && ((N <=? n1 + n2 + j) || (M <=? m1 + m2 + m3 + i)))
                C_p ind C (n2 + m3 * N + i * N + j) ;;+
          TRet (ind + 1))))) in
  TRet tt.

(** src/pack_ob.cpp:393-411 *)
Definition unpack_ob_C_single_buf (C C_p : ptr) (M N m1 n1 m2 m_c n_c m_r n_r : Z) : thr unit :=
  let+ _ := tfor 0 n_c n_r 0 (fun n2 ind =>
    tfor 0 m_c m_r ind (fun m3 ind =>
      tfor 0 m_r 1 ind (fun i ind =>
        tfor 0 n_r 1 ind (fun j ind =>
          (if (n1 + n2 + j <? N) && (m1 + m2 + m3 + i <? M)
           then let+ v := pload C_p ind in pstore C (n2 + m3 * N + i * N + j) v
           else TRet tt) ;;+
          TRet (ind + 1))))) in
  TRet tt.

(** src/pack_ob.cpp:173-213 *)
Definition pack_ob_B_parallel (B B_p : ptr) (K N n1 k_c n_c n_r : Z) (pad_n : bool) : prog unit :=
  ppar_for 0 n_c n_r (fun n2 =>
    let+ _ := tfor 0 k_c 1 0 (fun i ind =>
      tfor 0 n_r 1 ind (fun j ind =>
        copy0 (pad_n && (N <=? n1 + n2 + j)) B_p (n2 * k_c + ind) B (n2 + i * N + j) ;;+
        TRet (ind + 1))) in
    TRet tt).

(** memset(p, 0, n*sizeof(float)) *)
Definition memset0 (p : ptr) (n : Z) : thr unit :=
  tfor_ 0 n 1 (fun i => pstore p i (zero S)).

Close Scope thr_scope.
Open Scope prog_scope.

(** The test "(i == ib - 1) && pad" used throughout. *)
Definition is_last (i ib pad : Z) : bool := (i =? ib - 1) && truthy pad.

(** Per-core share of the M dimension, e.g. src/pack_k_first.cpp:52-60 *)
Definition core_mt (x : blk_dims) (m core : Z) : Z :=
  if is_last m (Mb x) (m_pad x)
  then (if core =? p_l x - 1 then m_c1_last_core x else m_c1 x) else m_c x.
Definition core_mx (x : blk_dims) (m : Z) : Z :=
  if is_last m (Mb x) (m_pad x) then m_c1 x else m_c x.
(** k_c_t, e.g. src/pack_k_first.cpp:39-42 *)
Definition blk_kt (x : blk_dims) (k : Z) : Z :=
  if is_last k (Kb x) (k_pad x) then k_c1 x else k_c x.
(** n_c_t, e.g. src/cake_sgemm_k_first.cpp:41-47 *)
Definition blk_nt (x : blk_dims) (n : Z) : Z :=
  if is_last n (Nb x) (n_pad x) then n_c1 x else n_c x.
(** p_used and m_cb of the K-first code, e.g. src/pack_k_first.cpp:29-35 *)
Definition blk_pu (x : blk_dims) (p m : Z) : Z :=
  if is_last m (Mb x) (m_pad x) then p_l x else p.
Definition blk_mcb (x : blk_dims) (p m_r m : Z) : Z :=
  if is_last m (Mb x) (m_pad x) then m_r * mr_rem x else p * m_c x.
(** p_used and k_cb of the M-first and N-first code, e.g. src/pack_m_first.cpp:31-37 *)
Definition blk_pk (x : blk_dims) (p k : Z) : Z :=
  if is_last k (Kb x) (k_pad x) then p_l x else p.
Definition blk_kcb (x : blk_dims) (p k : Z) : Z :=
  if is_last k (Kb x) (k_pad x) then k_rem x else p * k_c x.
(** per-core share of the K dimension, e.g. src/pack_m_first.cpp:54-62 *)
Definition core_kt (x : blk_dims) (k core : Z) : Z :=
  if is_last k (Kb x) (k_pad x)
  then (if core =? p_l x - 1 then k_c1_last_core x else k_c1 x) else k_c x.
Definition core_kx (x : blk_dims) (k : Z) : Z :=
  if is_last k (Kb x) (k_pad x) then k_c1 x else k_c x.
Definition core_kpad (x : blk_dims) (k core : Z) : bool :=
  is_last k (Kb x) (k_pad x) && (core =? p_l x - 1).

(** ** K-first *)

(** src/pack_k_first.cpp:7-76 *)
Definition pack_A_single_buf_k_first (A A_p : ptr) (M K p : Z) (x : blk_dims) (m_r : Z) : prog unit :=
  let* _ := pfor 0 (Mb x) 1 0 (fun m off =>
    pfor 0 (Kb x) 1 off (fun k off =>
      let kt := blk_kt x k in
      let A_offset := m * p * m_c x * K + k * k_c x in
      ppar_for 0 (blk_pu x p m) 1 (fun core =>
        let mx := core_mx x m in
        pack_ob_A_single_buf (padd A (A_offset + core * mx * K))
          (padd A_p (off + core * mx * kt))
          M K (m * p * m_c x) (core * mx) (core_mt x m core) kt m_r) ;;;
      PRet (off + blk_mcb x p m_r m * kt))) in
  PRet tt.

(** The body shared by the four packing loops of src/pack_k_first.cpp:187-283: one
    element copy with running index. *)
Definition packB_elt (guard : bool) (B B_p : ptr) (N n1 k1 base : Z) (n2 i j ind : Z) : thr Z :=
  (copy0 (guard && (N <=? n1 + n2 + j)) B_p (base + ind) B (n1 + k1 * N + n2 + i * N + j) ;;+
   TRet (ind + 1))%thr.

(** src/pack_k_first.cpp:204-215 / 240-257: full k blocks of one column of blocks;
    nt is n_c or n_c1, guard is the N guard of lines 247-251 *)
Definition packB_main (guard : bool) (B B_p : ptr) (K N : Z) (x : blk_dims) (n_r n1 ind1 nt : Z) : prog unit :=
  ppar_for 0 (K - Z.rem K (k_c x)) (k_c x) (fun k1 =>
    (let+ _ := tfor 0 nt n_r 0 (fun n2 ind =>
       tfor 0 (k_c x) 1 ind (fun i ind =>
         tfor 0 n_r 1 ind (fun j ind =>
           packB_elt guard B B_p N n1 k1 (ind1 + Z.quot k1 (k_c x) * k_c x * nt) n2 i j ind))) in
     TRet tt)%thr).

(** src/pack_k_first.cpp:221-230 / 264-279: the last, short k block *)
Definition packB_tail (guard : bool) (B B_p : ptr) (K N : Z) (x : blk_dims) (n_r n1 ind1 nt : Z) : prog unit :=
  let k1 := K - Z.rem K (k_c x) in
  ppar_for 0 nt n_r (fun n2 =>
    (let+ _ := tfor 0 (k_c1 x) 1 0 (fun i ind =>
       tfor 0 n_r 1 ind (fun j ind =>
         packB_elt guard B B_p N n1 k1 (ind1 + n2 * k_c1 x) n2 i j ind)) in
     TRet tt)%thr).

(** src/pack_k_first.cpp:187-283 *)
Definition pack_B_k_first (B B_p : ptr) (K N : Z) (x : blk_dims) (n_r : Z) : prog unit :=
  if (n_c x =? 0) || (k_c x =? 0) then PUB else
  let Kf := K - Z.rem K (k_c x) in
  let Nf := N - Z.rem N (n_c x) in
  let* ind1 := pfor 0 Nf (n_c x) 0 (fun n1 ind1 =>
    packB_main false B B_p K N x n_r n1 ind1 (n_c x) ;;;
    let ind1 := ind1 + Kf * n_c x in
    if truthy (k_c1 x) then
      packB_tail false B B_p K N x n_r n1 ind1 (n_c x) ;;;
      PRet (ind1 + k_c1 x * n_c x)
    else PRet ind1) in
  if truthy (n_c1 x) then
    packB_main true B B_p K N x n_r Nf ind1 (n_c1 x) ;;;
    let ind1 := ind1 + Kf * n_c1 x in
    if truthy (k_c1 x) then packB_tail true B B_p K N x n_r Nf ind1 (n_c1 x)
    else PRet tt
  else PRet tt.

(** n1 of the K-first code, e.g. src/pack_k_first.cpp:425-433 *)
Definition blk_n1 (x : blk_dims) (N n : Z) : Z :=
  if is_last n (Nb x) (n_pad x) then N - Z.rem N (n_c x) else n * n_c x.
(** m1, e.g. src/pack_k_first.cpp:437-445 *)
Definition blk_m1 (x : blk_dims) (M p m : Z) : Z :=
  if is_last m (Mb x) (m_pad x) then M - Z.rem M (p * m_c x) else m * p * m_c x.

(** src/pack_k_first.cpp:404-472 *)
Definition pack_C_single_buf_k_first (C C_p : ptr) (M N p : Z) (x : blk_dims) (m_r n_r : Z) : prog unit :=
  let* _ := pfor 0 (Nb x) 1 0 (fun n off =>
    pfor 0 (Mb x) 1 off (fun m off =>
      let nt := blk_nt x n in
      let C_offset := m * p * m_c x * N + n * n_c x in
      ppar_for 0 (blk_pu x p m) 1 (fun core =>
        let mx := core_mx x m in
        pack_ob_C_single_buf (padd C (C_offset + core * mx * N))
          (padd C_p (off + core * mx * nt))
          M N (blk_m1 x M p m) (blk_n1 x N n) (core * mx) (core_mt x m core) nt m_r n_r
          (is_last m (Mb x) (m_pad x) && (core =? p_l x - 1)) (is_last n (Nb x) (n_pad x))) ;;;
      PRet (off + blk_mcb x p m_r m * nt))) in
  PRet tt.

(** src/unpack_k_first.cpp:5-67 *)
Definition unpack_C_single_buf_k_first (C C_p : ptr) (M N p : Z) (x : blk_dims) (m_r n_r : Z) : prog unit :=
  let* _ := pfor 0 (Nb x) 1 0 (fun n off =>
    pfor 0 (Mb x) 1 off (fun m off =>
      let nt := blk_nt x n in
      let C_offset := m * p * m_c x * N + n * n_c x in
      ppar_for 0 (blk_pu x p m) 1 (fun core =>
        let mx := core_mx x m in
        unpack_ob_C_single_buf (padd C (C_offset + core * mx * N))
          (padd C_p (off + core * mx * nt))
          M N (blk_m1 x M p m) (blk_n1 x N n) (core * mx) (core_mt x m core) nt m_r n_r) ;;;
      PRet (off + blk_mcb x p m_r m * nt))) in
  PRet tt.

(** ** M-first *)

(** m_c_t and m1 of the M-first code, e.g. src/pack_m_first.cpp:184-192 *)
Definition mf_mt (x : blk_dims) (m : Z) : Z := if is_last m (Mb x) (m_pad x) then m_c1 x else m_c x.
Definition mf_m1 (x : blk_dims) (M m : Z) : Z :=
  if is_last m (Mb x) (m_pad x) then M - Z.rem M (m_c x) else m * m_c x.

(** src/pack_m_first.cpp:7-78 *)
Definition pack_A_single_buf_m_first (A A_p : ptr) (M K p : Z) (x : blk_dims) (m_r : Z) : prog unit :=
  let* _ := pfor 0 (Kb x) 1 0 (fun k off =>
    pfor 0 (Mb x) 1 off (fun m off =>
      let mt := mf_mt x m in
      let A_offset := m * m_c x * K + k * p * k_c x in
      ppar_for 0 (blk_pk x p k) 1 (fun core =>
        let kx := core_kx x k in
        pack_ob_A_single_buf (padd A (A_offset + core * kx)) (padd A_p (off + core * kx * mt))
          M K (m * m_c x) 0 mt (core_kt x k core) m_r) ;;;
      PRet (off + blk_kcb x p k * mt))) in
  PRet tt.

(** src/pack_m_first.cpp:83-144.  The flag [pad] computed from the K remainder is
    passed as pack_ob_B_single_buf's pad_n. *)
Definition pack_B_m_first (B B_p : ptr) (K N p : Z) (x : blk_dims) (n_r : Z) : prog unit :=
  let* _ := pfor 0 (Nb x) 1 0 (fun n off =>
    pfor 0 (Kb x) 1 off (fun k off =>
      let nt := blk_nt x n in
      let B_offset := k * p * k_c x * N + n * n_c x in
      ppar_for 0 (blk_pk x p k) 1 (fun core =>
        let kx := core_kx x k in
        pack_ob_B_single_buf (padd B (B_offset + core * kx * N)) (padd B_p (off + core * kx * nt))
          K N (blk_n1 x N n) (core_kt x k core) nt n_r (core_kpad x k core)) ;;;
      PRet (off + blk_kcb x p k * nt))) in
  PRet tt.

(** src/pack_m_first.cpp:148-200 *)
Definition pack_C_single_buf_m_first (C C_p : ptr) (M N p : Z) (x : blk_dims) (m_r n_r : Z) : prog unit :=
  pfor_ 0 (Nb x) 1 (fun n =>
    let nt := blk_nt x n in
    let C_p_offset := M_padded x * n * n_c x in
    ppar_for 0 (Mb x) 1 (fun m =>
      pack_ob_C_single_buf (padd C (m * m_c x * N + n * n_c x))
        (padd C_p (C_p_offset + m * m_c x * nt))
        M N (mf_m1 x M m) (blk_n1 x N n) 0 (mf_mt x m) nt m_r n_r
        (is_last m (Mb x) (m_pad x)) (is_last n (Nb x) (n_pad x)))).

(** src/unpack_m_first.cpp:5-49 *)
Definition unpack_C_single_buf_m_first (C C_p : ptr) (M N p : Z) (x : blk_dims) (m_r n_r : Z) : prog unit :=
  pfor_ 0 (Nb x) 1 (fun n =>
    let nt := blk_nt x n in
    let C_p_offset := M_padded x * n * n_c x in
    ppar_for 0 (Mb x) 1 (fun m =>
      unpack_ob_C_single_buf (padd C (m * m_c x * N + n * n_c x))
        (padd C_p (C_p_offset + m * m_c x * nt))
        M N (mf_m1 x M m) (blk_n1 x N n) 0 (mf_mt x m) nt m_r n_r)).

(** ** N-first *)

(** m_c_t and m1 of the N-first code, e.g. src/pack_n_first.cpp:32-35, 173-181 *)
Definition nf_mt (x : blk_dims) (p m : Z) : Z :=
  if is_last m (Mb x) (m_pad x) then m_c1 x else p * m_c x.

(** src/pack_n_first.cpp:8-79 *)
Definition pack_A_single_buf_n_first (A A_p : ptr) (M K p : Z) (x : blk_dims) (m_r : Z) : prog unit :=
  let* _ := pfor 0 (Mb x) 1 0 (fun m off =>
    pfor 0 (Kb x) 1 off (fun k off =>
      let mt := nf_mt x p m in
      let A_offset := m * p * m_c x * K + k * p * k_c x in
      ppar_for 0 (blk_pk x p k) 1 (fun core =>
        let kx := core_kx x k in
        pack_ob_A_single_buf (padd A (A_offset + core * kx)) (padd A_p (off + core * kx * mt))
          M K (m * p * m_c x) 0 mt (core_kt x k core) m_r) ;;;
      PRet (off + blk_kcb x p k * mt))) in
  PRet tt.

(** src/pack_n_first.cpp:84-144 *)
Definition pack_B_n_first (B B_p : ptr) (K N p : Z) (x : blk_dims) (n_r : Z) : prog unit :=
  let* _ := pfor 0 (Kb x) 1 0 (fun k off =>
    pfor 0 (Nb x) 1 off (fun n off =>
      let nt := blk_nt x n in
      let B_offset := k * p * k_c x * N + n * n_c x in
      ppar_for 0 (blk_pk x p k) 1 (fun core =>
        let kx := core_kx x k in
        pack_ob_B_single_buf (padd B (B_offset + core * kx * N)) (padd B_p (off + core * kx * nt))
          K N (blk_n1 x N n) (core_kt x k core) nt n_r (core_kpad x k core)) ;;;
      PRet (off + blk_kcb x p k * nt))) in
  PRet tt.

(** src/pack_n_first.cpp:155-209 *)
Definition pack_C_single_buf_n_first (C C_p : ptr) (M N p : Z) (x : blk_dims) (m_r n_r : Z) : prog unit :=
  pfor_ 0 (Mb x) 1 (fun m =>
    let mt := nf_mt x p m in
    let C_p_offset := N_padded x * m * p * m_c x in
    ppar_for 0 (Nb x) 1 (fun n =>
      let nt := blk_nt x n in
      pack_ob_C_single_buf (padd C (m * p * m_c x * N + n * n_c x))
        (padd C_p (C_p_offset + n * p * m_c x * nt))
        M N (blk_m1 x M p m) (blk_n1 x N n) 0 mt nt m_r n_r
        (is_last m (Mb x) (m_pad x)) (is_last n (Nb x) (n_pad x)))).

(** src/unpack_n_first.cpp:5-49 *)
Definition unpack_C_single_buf_n_first (C C_p : ptr) (M N p : Z) (x : blk_dims) (m_r n_r : Z) : prog unit :=
  pfor_ 0 (Mb x) 1 (fun m =>
    let mt := nf_mt x p m in
    let C_p_offset := N_padded x * m * p * m_c x in
    ppar_for 0 (Nb x) 1 (fun n =>
      let nt := blk_nt x n in
      unpack_ob_C_single_buf (padd C (m * p * m_c x * N + n * n_c x))
        (padd C_p (C_p_offset + n * mt * n_c x))
        M N (blk_m1 x M p m) (blk_n1 x N n) 0 mt nt m_r n_r)).

(** ** Dispatch, src/pack_helper.cpp *)

(** lines 142-160 *)
Definition pack_A (A A_p : ptr) (M K p : Z) (x : blk_dims) (c : cntx) (s : sched) : prog unit :=
  match s with
  | KMN => pack_A_single_buf_k_first A A_p M K p x (mr c)
  | MKN => pack_A_single_buf_m_first A A_p M K p x (mr c)
  | NKM => pack_A_single_buf_n_first A A_p M K p x (mr c)
  | NA => PExit
  end.

(** lines 117-138 *)
Definition pack_B (B B_p : ptr) (K N p : Z) (x : blk_dims) (c : cntx) (s : sched) : prog unit :=
  match s with
  | KMN => pack_B_k_first B B_p K N x (nr c)
  | MKN => pack_B_m_first B B_p K N p x (nr c)
  | NKM => pack_B_n_first B B_p K N p x (nr c)
  | NA => PExit
  end.

(** lines 92-114 *)
Definition pack_C (C C_p : ptr) (M N p : Z) (x : blk_dims) (c : cntx) (s : sched) : prog unit :=
  match s with
  | KMN => pack_C_single_buf_k_first C C_p M N p x (mr c) (nr c)
  | MKN => pack_C_single_buf_m_first C C_p M N p x (mr c) (nr c)
  | NKM => pack_C_single_buf_n_first C C_p M N p x (mr c) (nr c)
  | NA => PExit
  end.

(** lines 163-184 *)
Definition unpack_C (C C_p : ptr) (M N p : Z) (x : blk_dims) (c : cntx) (s : sched) : prog unit :=
  match s with
  | KMN => unpack_C_single_buf_k_first C C_p M N p x (mr c) (nr c)
  | MKN => unpack_C_single_buf_m_first C C_p M N p x (mr c) (nr c)
  | NKM => unpack_C_single_buf_n_first C C_p M N p x (mr c) (nr c)
  | NA => PExit
  end.

End Pack.
