(** * cake_sgemm with 32-bit ints.

    The same functions as in ModelSizing.v, ModelPack.v, ModelSched.v and ModelTop.v, written
    once more with every int expression as it stands in the C++ code and evaluated in 32-bit
    arithmetic: an intermediate result outside the range of int is undefined behaviour.
    Definitions only.

    Simplifications.  The int arithmetic inside the microkernels (k % 4, k -= rem, kk += 4) is
    left out.  The arguments of a function and the fields of its structures are ints already and
    are not checked again.  An expression that is evaluated several times with the same operands
    is evaluated once.  Comparisons of the form i == ib - 1 and the bounds ib - 1, -1 of the
    backward loops are unchecked: the fields they use are counts of blocks. *)

From Coq Require Import ZArith List Bool.
From Verif Require Import Lang ModelSizing ModelKernel ModelPack ModelSched ModelTop.
Open Scope Z_scope.

(** ** int expressions *)

Inductive ix : Set :=
| IxV (z : Z) | IxAdd (a b : ix) | IxSub (a b : ix) | IxMul (a b : ix) | IxDiv (a b : ix) | IxRem (a b : ix).

Declare Scope ix_scope.
Delimit Scope ix_scope with ix.
Bind Scope ix_scope with ix.
Coercion IxV : Z >-> ix.
Notation "a + b" := (IxAdd a b) : ix_scope.
Notation "a - b" := (IxSub a b) : ix_scope.
Notation "a * b" := (IxMul a b) : ix_scope.
Notation "a / b" := (IxDiv a b) : ix_scope.
Notation "a 'rem' b" := (IxRem a b) (at level 40, no associativity) : ix_scope.

Fixpoint ival (e : ix) : Z :=
  match e with
  | IxV z => z
  | IxAdd a b => ival a + ival b
  | IxSub a b => ival a - ival b
  | IxMul a b => ival a * ival b
  | IxDiv a b => Z.quot (ival a) (ival b)
  | IxRem a b => Z.rem (ival a) (ival b)
  end.

Definition in_int (z : Z) : bool := (- 2 ^ 31 <=? z) && (z <? 2 ^ 31).

(** no intermediate result leaves the range of int, and no division by zero *)
Fixpoint isafe (e : ix) : bool :=
  match e with
  | IxV _ => true
  | IxAdd a b => isafe a && isafe b && in_int (ival a + ival b)
  | IxSub a b => isafe a && isafe b && in_int (ival a - ival b)
  | IxMul a b => isafe a && isafe b && in_int (ival a * ival b)
  | IxDiv a b => isafe a && isafe b && negb (ival b =? 0) && in_int (Z.quot (ival a) (ival b))
  | IxRem a b => isafe a && isafe b && negb (ival b =? 0) && in_int (Z.quot (ival a) (ival b))
  end.

(** evaluation in the sizing code, in a thread, in the main program *)
Definition cint (e : ix) : comp Z := if isafe e then CRet (ival e) else CUB.
Definition tint {V} (e : ix) : thr V Z := if isafe e then TRet (ival e) else TFail.
Definition pint {V} (e : ix) : prog V Z := if isafe e then PRet (ival e) else PUB.

(** The counter of for(i = lo; i < hi; i += step) stays an int, also when it is incremented for
    the last time. *)
Definition counter_ok (lo hi step : Z) : bool :=
  lo + Z.of_nat (loop_count lo hi step) * step <? 2 ^ 31.

Definition tfor32 {V S} (lo hi step : Z) (s : S) (f : Z -> S -> thr V S) : thr V S :=
  if counter_ok lo hi step then tfor lo hi step s f else TFail.
Definition tfor32_ {V} (lo hi step : Z) (f : Z -> thr V unit) : thr V unit :=
  if counter_ok lo hi step then tfor_ lo hi step f else TFail.
Definition pfor32 {V S} (lo hi step : Z) (s : S) (f : Z -> S -> prog V S) : prog V S :=
  if counter_ok lo hi step then pfor lo hi step s f else PUB.
Definition pfor32_ {V} (lo hi step : Z) (f : Z -> prog V unit) : prog V unit :=
  if counter_ok lo hi step then pfor_ lo hi step f else PUB.
Definition ppar_for32 {V} (lo hi step : Z) (f : Z -> thr V unit) : prog V unit :=
  if counter_ok lo hi step then ppar_for lo hi step f else PUB.

(** ** Sizing: src/block_sizing.cpp *)

(** lines 335-346 *)
Definition clip_mc32 (M p mr mc : Z) : comp Z :=
  do pmr <- cint (p * mr);
  if M <? pmr then CRet mr
  else
    do pmc <- cint (p * mc);
    if M <? pmc then
      do a <- cint (M / p);
      if a <? mr then CRet mr
      else cint (a + (mr - (a rem mr)))
    else CRet mc.

(** lines 304-429 *)
Definition get_cache_dims32 (F : fpenv) (M N K p : Z) (c : cntx) (s : sched)
           (mcu kcu ncu : Z) : comp (cache_dims * (Z * Z)) :=
  let mr := mr c in let nr := nr c in
  do b <- cint (2 * nr);
  do _ <- cint (b * b);
  let mc_L2_0 := fp_mcL2 F nr (L2 c) in
  do mc_L2 <- cint (mc_L2_0 - mc_L2_0 rem mr);
  let mc_L3_0 := fp_mcL3 F (L3 c) (ncores c) in
  do mc_L3 <- cint (mc_L3_0 - mc_L3_0 rem mr);
  let al := (mc_L3, mc_L2) in
  do mc_ret <- clip_mc32 M p mr mc_L2;
  do s' <- (match s with
            | NA => do _ <- cint (p * mc_ret); CRet (derive_schedule F M N K p mc_ret al)
            | _ => CRet s
            end);
  if truthy mcu && truthy ncu && truthy kcu then
    CRet (CD mcu kcu ncu s', (1, 1))
  else
    match s' with
    | KMN | MKN =>
        do nc0 <- ofopt (fp_mul F al p mc_ret);
        do nc1 <- cint (nc0 - nc0 rem nr);
        CRet (CD mc_ret mc_ret (if nc1 =? 0 then nr else nc1) s', al)
    | NKM =>
        do nc1 <- cint (mc_ret - mc_ret rem nr);
        let nc_ret := if nc1 =? 0 then nr else nc1 in
        do mc0 <- ofopt (fp_mul F al 1 mc_ret);
        do mc1 <- cint (mc0 - mc0 rem mr);
        let mc_ret := if mc1 =? 0 then mr else mc1 in
        CRet (CD mc_ret mc_ret nc_ret s', al)
    | NA => CExit
    end.

(** lines 482-515 *)
Definition dims_KMN32 (M N K p m_c k_c n_c m_r n_r : Z) : comp blk_dims :=
  do kr <- cint (K rem k_c);
  do nrm <- cint (N rem n_c);
  do mrm <- cint (M rem (p * m_c));
  do mr_rem <- iceil mrm m_r;
  do mr_per_core <- iceil mr_rem p;
  do p_l <- (if truthy mr_per_core then iceil mr_rem mr_per_core else CRet 0);
  do nr_rem <- iceil nrm n_r;
  do n_c1 <- cint (nr_rem * n_r);
  do m_c1 <- cint (mr_per_core * m_r);
  do m_c1_last <- cint ((mr_per_core - (p_l * mr_per_core - mr_rem)) * m_r);
  do Mb <- cint ((M / (p * m_c)) + pad01 mrm);
  do Nb <- cint ((N / n_c) + pad01 nrm);
  do Kb <- cint ((K / k_c) + pad01 kr);
  do M_padded <- cint (m_r * mr_rem + (M / (p * m_c)) * p * m_c);
  do N_padded <- cint ((N - (N rem n_c)) + n_c1);
  CRet (BD m_c k_c n_c m_c1 kr n_c1 m_c1_last 0 0 mr_rem nr_rem 0 p_l 0 0 p 1
           (pad01 mrm) (pad01 kr) (pad01 nrm) Mb Kb Nb M_padded N_padded KMN).

(** lines 518-551 *)
Definition dims_MKN32 (M N K p m_c k_c n_c m_r n_r : Z) : comp blk_dims :=
  do kr <- cint (K rem (p * k_c));
  do mrm <- cint (M rem m_c);
  do nrm <- cint (N rem n_c);
  do k_c1 <- iceil kr p;
  do p_l <- (if truthy k_c1 then iceil kr k_c1 else CRet 0);
  do nr_rem <- iceil nrm n_r;
  do n_c1 <- cint (nr_rem * n_r);
  do k_c1_last <- cint (kr - k_c1 * (p_l - 1));
  do mr_rem <- iceil mrm m_r;
  do m_c1 <- cint (mr_rem * m_r);
  do Mb <- cint ((M / m_c) + pad01 mrm);
  do Kb <- cint ((K / (p * k_c)) + pad01 kr);
  do Nb <- cint ((N / n_c) + pad01 nrm);
  do M_padded <- cint ((M / m_c) * m_c + m_c1);
  do N_padded <- cint ((N - (N rem n_c)) + n_c1);
  CRet (BD m_c k_c n_c m_c1 k_c1 n_c1 0 0 k_c1_last mr_rem nr_rem kr p_l 0 0 p 1
           (pad01 mrm) (pad01 kr) (pad01 nrm) Mb Kb Nb M_padded N_padded MKN).

(** lines 554-587 *)
Definition dims_NKM32 (M N K p m_c k_c n_c m_r n_r : Z) : comp blk_dims :=
  do kr <- cint (K rem (p * k_c));
  do mrm <- cint (M rem (p * m_c));
  do nrm <- cint (N rem n_c);
  do k_c1 <- iceil kr p;
  do p_l <- (if truthy k_c1 then iceil kr k_c1 else CRet 0);
  do nr_rem <- iceil nrm n_r;
  do n_c1 <- cint (nr_rem * n_r);
  do k_c1_last <- cint (kr - k_c1 * (p_l - 1));
  do mr_rem <- iceil mrm m_r;
  do m_c1 <- cint (mr_rem * m_r);
  do Mb <- cint ((M / (p * m_c)) + pad01 mrm);
  do Kb <- cint ((K / (p * k_c)) + pad01 kr);
  do Nb <- cint ((N / n_c) + pad01 nrm);
  do M_padded <- cint ((M / (p * m_c)) * (p * m_c) + m_c1);
  do N_padded <- cint ((N - (N rem n_c)) + n_c1);
  CRet (BD m_c k_c n_c m_c1 k_c1 n_c1 0 0 k_c1_last mr_rem nr_rem kr p_l 0 0 1 p
           (pad01 mrm) (pad01 kr) (pad01 nrm) Mb Kb Nb M_padded N_padded NKM).

(** lines 465-595 *)
Definition init_block_dims32 (F : fpenv) (M N K p : Z) (c : cntx) (s : sched)
           (mcu kcu ncu : Z) : comp (blk_dims * cntx) :=
  do r <- get_cache_dims32 F M N K p c s mcu kcu ncu;
  let cd := fst r in
  let c' := Cntx (snd r) (mr c) (nr c) (m_map c) (n_map c) (L1 c) (L2 c) (L3 c) (ncores c) in
  do x <- (match cd_sch cd with
           | KMN => dims_KMN32 M N K p (cd_m_c cd) (cd_k_c cd) (cd_n_c cd) (mr c) (nr c)
           | MKN => dims_MKN32 M N K p (cd_m_c cd) (cd_k_c cd) (cd_n_c cd) (mr c) (nr c)
           | NKM => dims_NKM32 M N K p (cd_m_c cd) (cd_k_c cd) (cd_n_c cd) (mr c) (nr c)
           | NA => CExit
           end);
  CRet (x, c').

(** src/pack_helper.cpp:5-36.  The product M_padded * K is an int product, converted to size_t
    afterwards. *)
Definition M_padded32 (M p : Z) (x : blk_dims) (m_r : Z) (s : sched) : comp Z :=
  match s with
  | KMN | NKM =>
      do r <- cint (M rem (p * m_c x));
      do mr_rem <- iceil r m_r;
      cint (m_r * mr_rem + (M / (p * m_c x)) * p * m_c x)
  | MKN =>
      do r <- cint (M rem m_c x);
      do mr_rem <- iceil r m_r;
      cint ((M / m_c x) * m_c x + mr_rem * m_r)
  | NA => CExit
  end.

Definition packed_A_size32 (M K p : Z) (x : blk_dims) (m_r : Z) (s : sched) : comp Z :=
  do Mp <- M_padded32 M p x m_r s; cint (Mp * K).

Definition N_padded32 (N : Z) (x : blk_dims) (n_r : Z) : comp Z :=
  do r <- cint (N rem n_c x);
  do nr_rem <- iceil r n_r;
  do n_c1 <- cint (nr_rem * n_r);
  cint ((N - (N rem n_c x)) + n_c1).

(** src/pack_helper.cpp:40-47 *)
Definition packed_B_size32 (K N : Z) (x : blk_dims) (n_r : Z) : comp Z :=
  do Np <- N_padded32 N x n_r; cint (K * Np).

(** src/pack_helper.cpp:51-87 *)
Definition packed_C_size32 (M N p : Z) (x : blk_dims) (m_r n_r : Z) (s : sched) : comp Z :=
  do Mp <- M_padded32 M p x m_r s;
  do Np <- N_padded32 N x n_r;
  cint (Mp * Np).

Section Int.

Variable S : scalar.
Notation T := (elt S).
Notation thr := (thr T).
Notation prog := (prog T).

(** ** Packing one block: src/pack_ob.cpp *)

Open Scope thr_scope.

(** lines 40-60 *)
Definition pack_ob_A_single_buf32 (A A_p : ptr) (M K m1 m2 m_c k_c m_r : Z) : thr unit :=
  let+ _ := tfor32 0 m_c m_r 0 (fun m3 ind =>
    tfor32 0 k_c 1 ind (fun i ind =>
      tfor32 0 m_r 1 ind (fun j ind =>
        (let+ r := tint (m1 + m2 + m3 + j) in
         if M <=? r then pstore S A_p ind (zero S)
         else let+ a := tint (m3 * K + i + j * K) in
              let+ v := pload S A a in pstore S A_p ind v) ;;+
        tint (ind + 1)))) in
  TRet tt.

(** lines 105-140 *)
Definition pack_ob_B_single_buf32 (B B_p : ptr) (K N n1 k_c n_c n_r : Z) (pad_n : bool) : thr unit :=
  let+ _ := tfor32 0 n_c n_r 0 (fun n2 ind =>
    tfor32 0 k_c 1 ind (fun i ind =>
      tfor32 0 n_r 1 ind (fun j ind =>
        (let+ out := (if pad_n then let+ r := tint (n1 + n2 + j) in TRet (N <=? r) else TRet false) in
         if out then pstore S B_p ind (zero S)
         else let+ b := tint (n2 + i * N + j) in
              let+ v := pload S B b in pstore S B_p ind v) ;;+
        tint (ind + 1)))) in
  TRet tt.

(** lines 253-288 *)
Definition pack_ob_C_single_buf32 (C C_p : ptr) (M N m1 n1 m2 m_c n_c m_r n_r : Z)
           (pad_m pad_n : bool) : thr unit :=
  let+ _ := tfor32 0 n_c n_r 0 (fun n2 ind =>
    tfor32 0 m_c m_r ind (fun m3 ind =>
      tfor32 0 m_r 1 ind (fun i ind =>
        tfor32 0 n_r 1 ind (fun j ind =>
          (let+ out := (if pad_m || pad_n then
                          let+ r := tint (n1 + n2 + j) in
                          if N <=? r then TRet true
                          else let+ r' := tint (m1 + m2 + m3 + i) in TRet (M <=? r')
                        else TRet false) in
           if out then pstore S C_p ind (zero S)
           else let+ a := tint (n2 + m3 * N + i * N + j) in
                let+ v := pload S C a in pstore S C_p ind v) ;;+
          tint (ind + 1))))) in
  TRet tt.

(** lines 393-411 *)
Definition unpack_ob_C_single_buf32 (C C_p : ptr) (M N m1 n1 m2 m_c n_c m_r n_r : Z) : thr unit :=
  let+ _ := tfor32 0 n_c n_r 0 (fun n2 ind =>
    tfor32 0 m_c m_r ind (fun m3 ind =>
      tfor32 0 m_r 1 ind (fun i ind =>
        tfor32 0 n_r 1 ind (fun j ind =>
          (let+ r := tint (n1 + n2 + j) in
           if r <? N then
             let+ r' := tint (m1 + m2 + m3 + i) in
             if r' <? M then
               let+ a := tint (n2 + m3 * N + i * N + j) in
               let+ v := pload S C_p ind in pstore S C a v
             else TRet tt
           else TRet tt) ;;+
          tint (ind + 1))))) in
  TRet tt.

Close Scope thr_scope.
Open Scope prog_scope.

(** ** K-first *)

(** p_used and m_cb: src/pack_k_first.cpp:29-35 *)
Definition blk_mcb32 (x : blk_dims) (p m_r m : Z) : prog Z :=
  if is_last m (Mb x) (m_pad x) then pint (m_r * mr_rem x) else pint (p * m_c x).

(** src/pack_k_first.cpp:7-76 *)
Definition pack_A_single_buf_k_first32 (A A_p : ptr) (M K p : Z) (x : blk_dims) (m_r : Z) : prog unit :=
  let* _ := pfor32 0 (Mb x) 1 0 (fun m off =>
    let* m_cb := blk_mcb32 x p m_r m in
    pfor32 0 (Kb x) 1 off (fun k off =>
      let kt := blk_kt x k in
      let* A_offset := pint (m * p * m_c x * K + k * k_c x) in
      ppar_for32 0 (blk_pu x p m) 1 (fun core =>
        let mx := core_mx x m in
        (let+ a := tint (A_offset + core * mx * K) in
         let+ ap := tint (off + core * mx * kt) in
         let+ m1 := tint (m * p * m_c x) in
         let+ m2 := tint (core * mx) in
         pack_ob_A_single_buf32 (padd A a) (padd A_p ap) M K m1 m2 (core_mt x m core) kt m_r)%thr) ;;;
      pint (off + m_cb * kt))) in
  PRet tt.

(** One element of src/pack_k_first.cpp:187-283: [base] is the part of the index of B_p after
    ind1 + local_ind *)
Definition packB_elt32 (guard : bool) (B B_p : ptr) (N n1 k1 ind1 : Z) (base : ix) (n2 i j ind : Z) : thr Z :=
  ((let+ out := (if guard then let+ r := tint (n1 + n2 + j) in TRet (N <=? r) else TRet false) in
    let+ d := tint (ind1 + ind + base) in
    if out then pstore S B_p d (zero S)
    else let+ b := tint (n1 + k1 * N + n2 + i * N + j) in
         let+ v := pload S B b in pstore S B_p d v) ;;+
   tint (ind + 1))%thr.

(** lines 204-215 and 240-257 *)
Definition packB_main32 (guard : bool) (B B_p : ptr) (K N : Z) (x : blk_dims) (n_r n1 ind1 nt : Z) : prog unit :=
  let* Kf := pint (K - (K rem k_c x)) in
  ppar_for32 0 Kf (k_c x) (fun k1 =>
    (let+ _ := tfor32 0 nt n_r 0 (fun n2 ind =>
       tfor32 0 (k_c x) 1 ind (fun i ind =>
         tfor32 0 n_r 1 ind (fun j ind =>
           packB_elt32 guard B B_p N n1 k1 ind1 ((k1 / k_c x) * k_c x * nt) n2 i j ind))) in
     TRet tt)%thr).

(** lines 221-230 and 264-279 *)
Definition packB_tail32 (guard : bool) (B B_p : ptr) (K N : Z) (x : blk_dims) (n_r n1 ind1 nt : Z) : prog unit :=
  let* k1 := pint (K - (K rem k_c x)) in
  ppar_for32 0 nt n_r (fun n2 =>
    (let+ _ := tfor32 0 (k_c1 x) 1 0 (fun i ind =>
       tfor32 0 n_r 1 ind (fun j ind =>
         packB_elt32 guard B B_p N n1 k1 ind1 (n2 * k_c1 x) n2 i j ind)) in
     TRet tt)%thr).

(** lines 187-283 *)
Definition pack_B_k_first32 (B B_p : ptr) (K N : Z) (x : blk_dims) (n_r : Z) : prog unit :=
  let* Nf := pint (N - (N rem n_c x)) in
  let* ind1 := pfor32 0 Nf (n_c x) 0 (fun n1 ind1 =>
    packB_main32 false B B_p K N x n_r n1 ind1 (n_c x) ;;;
    let* ind1 := pint (ind1 + (K - (K rem k_c x)) * n_c x) in
    if truthy (k_c1 x) then
      packB_tail32 false B B_p K N x n_r n1 ind1 (n_c x) ;;;
      pint (ind1 + k_c1 x * n_c x)
    else PRet ind1) in
  if truthy (n_c1 x) then
    packB_main32 true B B_p K N x n_r Nf ind1 (n_c1 x) ;;;
    let* ind1 := pint (ind1 + (K - (K rem k_c x)) * n_c1 x) in
    if truthy (k_c1 x) then packB_tail32 true B B_p K N x n_r Nf ind1 (n_c1 x)
    else PRet tt
  else PRet tt.

(** n1 and m1: src/cake_sgemm_k_first.cpp:41-47, 76-84 *)
Definition blk_n1_32 {R} (int : ix -> R) (x : blk_dims) (N n : Z) : R :=
  if is_last n (Nb x) (n_pad x) then int (N - (N rem n_c x))%ix else int (n * n_c x)%ix.
Definition blk_m1_32 {R} (int : ix -> R) (x : blk_dims) (M p m : Z) : R :=
  if is_last m (Mb x) (m_pad x) then int (M - (M rem (p * m_c x)))%ix else int (m * p * m_c x)%ix.

(** src/cake_sgemm_k_first.cpp:108-124; [cix] is the index of C_p as a function of the two
    products *)
Definition tile_loops32 (kern : ptr -> ptr -> ptr -> Z -> Z -> Z -> thr unit)
           (Ap : ptr) (a_ind : Z) (Bp : ptr) (b_ind : Z) (Cp : ptr) (cix : ix -> ix -> ix)
           (mt nt kt m_r n_r : Z) : thr unit :=
  (let+ nq := tint (nt / n_r) in
   let+ mq := tint (mt / m_r) in
   tfor32_ 0 nq 1 (fun n_reg =>
     tfor32_ 0 mq 1 (fun m_reg =>
       let+ a := tint (a_ind + m_reg * m_r * kt) in
       let+ b := tint (b_ind + n_reg * kt * n_r) in
       let+ c := tint (cix (n_reg * mt * n_r)%ix (m_reg * m_r * n_r)%ix) in
       kern (padd Ap a) (padd Bp b) (padd Cp c) m_r n_r kt)))%thr.

(** src/cake_sgemm_k_first.cpp:85-125, with the unused c_ind of line 106 *)
Definition kmn_core32 (ar : arch) (A_p B_p : ptr) (K p : Z) (c : cntx) (x : blk_dims)
           (n m m_cb core : Z) : thr unit :=
  let ks := snake (inner_rev n m) (Kb x) in
  let nt := blk_nt x n in
  let mt := core_mt x m core in
  let mx := core_mx x m in
  tfor_ne_ (sn_start ks) (sn_end ks) (sn_inc ks) (fun k =>
    let kt := blk_kt x k in
    (let+ a_ind := tint (m * p * m_c x * K + k * m_cb * k_c x + core * mx * kt) in
     let+ b_ind := tint (n * K * n_c x + k * k_c x * nt) in
     let+ _ := tint (n * M_padded x * n_c x + m * p * m_c x * nt + core * mx * nt) in
     tile_loops32 (kernel_map S ar (m_map c) (n_map c)) A_p a_ind B_p b_ind (BufCp core, 0) IxAdd
       mt nt kt (mr c) (nr c))%thr).

(** src/cake_sgemm_k_first.cpp:127-149 *)
Definition kmn_unpack32 (C : ptr) (M N : Z) (c : cntx) (x : blk_dims) (n m n1 m1 C_offset core : Z) : thr unit :=
  let mx := core_mx x m in
  (let+ o := tint (C_offset + core * mx * N) in
   let+ m2 := tint (core * mx) in
   unpack_ob_C_single_buf32 (padd C o) (BufCp core, 0) M N m1 n1 m2 (core_mt x m core) (blk_nt x n) (mr c) (nr c) ;;+
   let+ sz := tint (m_c x * n_c x) in
   memset0 S (BufCp core, 0) sz)%thr.

(** src/cake_sgemm_k_first.cpp:9-153 *)
Definition schedule_KMN32 (ar : arch) (A_p B_p C : ptr) (M N K p : Z) (c : cntx) (x : blk_dims) : prog unit :=
  pfor32_ 0 (Nb x) 1 (fun n =>
    let ms := snake (odd2 n) (Mb x) in
    let* n1 := blk_n1_32 pint x N n in
    pfor_ne_ (sn_start ms) (sn_end ms) (sn_inc ms) (fun m =>
      let* m_cb := blk_mcb32 x p (mr c) m in
      let* m1 := blk_m1_32 pint x M p m in
      ppar_for32 0 (blk_pu x p m) 1 (kmn_core32 ar A_p B_p K p c x n m m_cb) ;;;
      let* C_offset := pint (m * p * m_c x * N + n * n_c x) in
      ppar_for32 0 (blk_pu x p m) 1 (kmn_unpack32 C M N c x n m n1 m1 C_offset))).

(** ** M-first *)

(** k_cb: src/pack_m_first.cpp:31-37 *)
Definition blk_kcb32 (x : blk_dims) (p k : Z) : prog Z :=
  if is_last k (Kb x) (k_pad x) then PRet (k_rem x) else pint (p * k_c x).
(** m1: src/pack_m_first.cpp:184-192 *)
Definition mf_m1_32 (x : blk_dims) (M m : Z) : thr Z :=
  if is_last m (Mb x) (m_pad x) then tint (M - (M rem m_c x)) else tint (m * m_c x).

(** src/pack_m_first.cpp:7-78 *)
Definition pack_A_single_buf_m_first32 (A A_p : ptr) (M K p : Z) (x : blk_dims) (m_r : Z) : prog unit :=
  let* _ := pfor32 0 (Kb x) 1 0 (fun k off =>
    let* k_cb := blk_kcb32 x p k in
    pfor32 0 (Mb x) 1 off (fun m off =>
      let mt := mf_mt x m in
      let* A_offset := pint (m * m_c x * K + k * p * k_c x) in
      ppar_for32 0 (blk_pk x p k) 1 (fun core =>
        let kx := core_kx x k in
        (let+ a := tint (A_offset + core * kx) in
         let+ ap := tint (off + core * kx * mt) in
         let+ m1 := tint (m * m_c x) in
         pack_ob_A_single_buf32 (padd A a) (padd A_p ap) M K m1 0 mt (core_kt x k core) m_r)%thr) ;;;
      pint (off + k_cb * mt))) in
  PRet tt.

(** The body of the two innermost loops of src/pack_m_first.cpp:83-144 and of
    src/pack_n_first.cpp:84-144 *)
Definition pack_B_block32 (B B_p : ptr) (K N p : Z) (x : blk_dims) (n_r n k n1 k_cb off : Z) : prog Z :=
  let nt := blk_nt x n in
  let* B_offset := pint (k * p * k_c x * N + n * n_c x) in
  ppar_for32 0 (blk_pk x p k) 1 (fun core =>
    let kx := core_kx x k in
    (let+ b := tint (B_offset + core * kx * N) in
     let+ bp := tint (off + core * kx * nt) in
     pack_ob_B_single_buf32 (padd B b) (padd B_p bp) K N n1 (core_kt x k core) nt n_r (core_kpad x k core))%thr) ;;;
  pint (off + k_cb * nt).

(** src/pack_m_first.cpp:83-144 *)
Definition pack_B_m_first32 (B B_p : ptr) (K N p : Z) (x : blk_dims) (n_r : Z) : prog unit :=
  let* _ := pfor32 0 (Nb x) 1 0 (fun n off =>
    let* n1 := blk_n1_32 pint x N n in
    pfor32 0 (Kb x) 1 off (fun k off =>
      let* k_cb := blk_kcb32 x p k in
      pack_B_block32 B B_p K N p x n_r n k n1 k_cb off)) in
  PRet tt.

(** src/pack_m_first.cpp:148-200 *)
Definition pack_C_single_buf_m_first32 (C C_p : ptr) (M N p : Z) (x : blk_dims) (m_r n_r : Z) : prog unit :=
  pfor32_ 0 (Nb x) 1 (fun n =>
    let nt := blk_nt x n in
    let* n1 := blk_n1_32 pint x N n in
    let* C_p_offset := pint (M_padded x * n * n_c x) in
    ppar_for32 0 (Mb x) 1 (fun m =>
      (let+ m1 := mf_m1_32 x M m in
       let+ o := tint (m * m_c x * N + n * n_c x) in
       let+ op := tint (C_p_offset + m * m_c x * nt) in
       pack_ob_C_single_buf32 (padd C o) (padd C_p op) M N m1 n1 0 (mf_mt x m) nt m_r n_r
         (is_last m (Mb x) (m_pad x)) (is_last n (Nb x) (n_pad x)))%thr)).

(** src/unpack_m_first.cpp:5-49 *)
Definition unpack_C_single_buf_m_first32 (C C_p : ptr) (M N p : Z) (x : blk_dims) (m_r n_r : Z) : prog unit :=
  pfor32_ 0 (Nb x) 1 (fun n =>
    let nt := blk_nt x n in
    let* n1 := blk_n1_32 pint x N n in
    let* C_p_offset := pint (M_padded x * n * n_c x) in
    ppar_for32 0 (Mb x) 1 (fun m =>
      (let+ m1 := mf_m1_32 x M m in
       let+ o := tint (m * m_c x * N + n * n_c x) in
       let+ op := tint (C_p_offset + m * m_c x * nt) in
       unpack_ob_C_single_buf32 (padd C o) (padd C_p op) M N m1 n1 0 (mf_mt x m) nt m_r n_r)%thr)).

(** src/cake_sgemm_m_first.cpp:74-110 *)
Definition mkn_row32 (ar : arch) (A_p B_p C_p : ptr) (K p : Z) (c : cntx) (x : blk_dims)
           (n k k_cb m_start m_inc m_ind : Z) : thr unit :=
  let nt := blk_nt x n in
  let kx := core_kx x k in
  (let+ m := tint (m_start + m_ind * m_inc) in
   let mt := mf_mt x m in
   tfor32_ 0 (blk_pk x p k) 1 (fun core =>
     let kt := core_kt x k core in
     let+ a_ind := tint (k * M_padded x * p * k_c x + m * m_c x * k_cb + core * mt * kx) in
     let+ b_ind := tint (n * K * n_c x + k * p * k_c x * nt + core * kx * nt) in
     let+ c_ind := tint (n * M_padded x * n_c x + m * m_c x * nt) in
     tile_loops32 (cake_sgemm_ukernel S ar) A_p a_ind B_p b_ind C_p (fun a b => c_ind + a + b)%ix
       mt nt kt (mr c) (nr c)))%thr.

(** src/cake_sgemm_m_first.cpp:4-113 *)
Definition schedule_MKN32 (ar : arch) (A_p B_p C_p : ptr) (M N K p : Z) (c : cntx) (x : blk_dims) : prog unit :=
  pfor32_ 0 (Nb x) 1 (fun n =>
    let ks := snake (odd2 n) (Kb x) in
    pfor_ne_ (sn_start ks) (sn_end ks) (sn_inc ks) (fun k =>
      let ms := snake (inner_rev n k) (Mb x) in
      let* k_cb := blk_kcb32 x p k in
      ppar_for32 0 (Mb x) 1 (mkn_row32 ar A_p B_p C_p K p c x n k k_cb (sn_start ms) (sn_inc ms)))).

(** ** N-first *)

(** m_c_t: src/pack_n_first.cpp:32-35.  There p*m_c is also computed for the last block. *)
Definition nf_mt32 (x : blk_dims) (p m : Z) : prog Z :=
  let* t := pint (p * m_c x) in
  PRet (if is_last m (Mb x) (m_pad x) then m_c1 x else t).

(** src/pack_n_first.cpp:8-79 *)
Definition pack_A_single_buf_n_first32 (A A_p : ptr) (M K p : Z) (x : blk_dims) (m_r : Z) : prog unit :=
  let* _ := pfor32 0 (Mb x) 1 0 (fun m off =>
    let* mt := nf_mt32 x p m in
    pfor32 0 (Kb x) 1 off (fun k off =>
      let* k_cb := blk_kcb32 x p k in
      let* A_offset := pint (m * p * m_c x * K + k * p * k_c x) in
      ppar_for32 0 (blk_pk x p k) 1 (fun core =>
        let kx := core_kx x k in
        (let+ a := tint (A_offset + core * kx) in
         let+ ap := tint (off + core * kx * mt) in
         let+ m1 := tint (m * p * m_c x) in
         pack_ob_A_single_buf32 (padd A a) (padd A_p ap) M K m1 0 mt (core_kt x k core) m_r)%thr) ;;;
      pint (off + k_cb * mt))) in
  PRet tt.

(** src/pack_n_first.cpp:84-144 *)
Definition pack_B_n_first32 (B B_p : ptr) (K N p : Z) (x : blk_dims) (n_r : Z) : prog unit :=
  let* _ := pfor32 0 (Kb x) 1 0 (fun k off =>
    let* k_cb := blk_kcb32 x p k in
    pfor32 0 (Nb x) 1 off (fun n off =>
      let* n1 := blk_n1_32 pint x N n in
      pack_B_block32 B B_p K N p x n_r n k n1 k_cb off)) in
  PRet tt.

(** src/pack_n_first.cpp:155-209 *)
Definition pack_C_single_buf_n_first32 (C C_p : ptr) (M N p : Z) (x : blk_dims) (m_r n_r : Z) : prog unit :=
  pfor32_ 0 (Mb x) 1 (fun m =>
    let* mt := nf_mt32 x p m in
    let* m1 := blk_m1_32 pint x M p m in
    let* C_p_offset := pint (N_padded x * m * p * m_c x) in
    ppar_for32 0 (Nb x) 1 (fun n =>
      let nt := blk_nt x n in
      (let+ n1 := blk_n1_32 tint x N n in
       let+ o := tint (m * p * m_c x * N + n * n_c x) in
       let+ op := tint (C_p_offset + n * p * m_c x * nt) in
       pack_ob_C_single_buf32 (padd C o) (padd C_p op) M N m1 n1 0 mt nt m_r n_r
         (is_last m (Mb x) (m_pad x)) (is_last n (Nb x) (n_pad x)))%thr)).

(** src/unpack_n_first.cpp:5-49 *)
Definition unpack_C_single_buf_n_first32 (C C_p : ptr) (M N p : Z) (x : blk_dims) (m_r n_r : Z) : prog unit :=
  pfor32_ 0 (Mb x) 1 (fun m =>
    let* mt := nf_mt32 x p m in
    let* m1 := blk_m1_32 pint x M p m in
    let* C_p_offset := pint (N_padded x * m * p * m_c x) in
    ppar_for32 0 (Nb x) 1 (fun n =>
      let nt := blk_nt x n in
      (let+ n1 := blk_n1_32 tint x N n in
       let+ o := tint (m * p * m_c x * N + n * n_c x) in
       let+ op := tint (C_p_offset + n * mt * n_c x) in
       unpack_ob_C_single_buf32 (padd C o) (padd C_p op) M N m1 n1 0 mt nt m_r n_r)%thr)).

(** src/cake_sgemm_n_first.cpp:74-110 *)
Definition nkm_col32 (ar : arch) (A_p B_p C_p : ptr) (K p : Z) (c : cntx) (x : blk_dims)
           (m k mt k_cb n_start n_inc n_ind : Z) : thr unit :=
  let kx := core_kx x k in
  (let+ n := tint (n_start + n_ind * n_inc) in
   let nt := blk_nt x n in
   tfor32_ 0 (blk_pk x p k) 1 (fun core =>
     let kt := core_kt x k core in
     let+ a_ind := tint (m * p * m_c x * K + mt * k * p * k_c x + core * mt * kx) in
     let+ b_ind := tint (k * p * k_c x * N_padded x + n * n_c x * k_cb + core * kx * nt) in
     let+ c_ind := tint (m * p * m_c x * N_padded x + mt * n * n_c x) in
     tile_loops32 (cake_sgemm_ukernel S ar) A_p a_ind B_p b_ind C_p (fun a b => c_ind + a + b)%ix
       mt nt kt (mr c) (nr c)))%thr.

(** src/cake_sgemm_n_first.cpp:4-113 *)
Definition schedule_NKM32 (ar : arch) (A_p B_p C_p : ptr) (M N K p : Z) (c : cntx) (x : blk_dims) : prog unit :=
  pfor32_ 0 (Mb x) 1 (fun m =>
    let ks := snake (odd2 m) (Kb x) in
    let* mt := nf_mt32 x p m in
    pfor_ne_ (sn_start ks) (sn_end ks) (sn_inc ks) (fun k =>
      let ns := snake (inner_rev m k) (Nb x) in
      let* k_cb := blk_kcb32 x p k in
      ppar_for32 0 (Nb x) 1 (nkm_col32 ar A_p B_p C_p K p c x m k mt k_cb (sn_start ns) (sn_inc ns)))).

(** ** Dispatch: src/pack_helper.cpp:92-184, src/cake_sgemm.cpp:726-765.  cake_sgemm calls pack_C,
    schedule and unpack_C for the M-first and N-first schedules only; the other cases are as in
    ModelPack.v and ModelSched.v. *)

Definition pack_A32 (A A_p : ptr) (M K p : Z) (x : blk_dims) (c : cntx) (s : sched) : prog unit :=
  match s with
  | KMN => pack_A_single_buf_k_first32 A A_p M K p x (mr c)
  | MKN => pack_A_single_buf_m_first32 A A_p M K p x (mr c)
  | NKM => pack_A_single_buf_n_first32 A A_p M K p x (mr c)
  | NA => PExit
  end.

Definition pack_B32 (B B_p : ptr) (K N p : Z) (x : blk_dims) (c : cntx) (s : sched) : prog unit :=
  match s with
  | KMN => pack_B_k_first32 B B_p K N x (nr c)
  | MKN => pack_B_m_first32 B B_p K N p x (nr c)
  | NKM => pack_B_n_first32 B B_p K N p x (nr c)
  | NA => PExit
  end.

Definition pack_C32 (C C_p : ptr) (M N p : Z) (x : blk_dims) (c : cntx) (s : sched) : prog unit :=
  match s with
  | MKN => pack_C_single_buf_m_first32 C C_p M N p x (mr c) (nr c)
  | NKM => pack_C_single_buf_n_first32 C C_p M N p x (mr c) (nr c)
  | _ => pack_C S C C_p M N p x c s
  end.

Definition unpack_C32 (C C_p : ptr) (M N p : Z) (x : blk_dims) (c : cntx) (s : sched) : prog unit :=
  match s with
  | MKN => unpack_C_single_buf_m_first32 C C_p M N p x (mr c) (nr c)
  | NKM => unpack_C_single_buf_n_first32 C C_p M N p x (mr c) (nr c)
  | _ => unpack_C S C C_p M N p x c s
  end.

Definition schedule32 (ar : arch) (A_p B_p C_p : ptr) (M N K p : Z) (c : cntx) (x : blk_dims)
           (s : sched) : prog unit :=
  match s with
  | MKN => schedule_MKN32 ar A_p B_p C_p M N K p c x
  | NKM => schedule_NKM32 ar A_p B_p C_p M N K p c x
  | _ => schedule S ar A_p B_p C_p M N K p c x s
  end.

(** ** cake_sgemm: src/cake_sgemm.cpp:9-175 *)

Definition cake_sgemm32 (F : fpenv) (ar : arch) (q : cntx) (nz : T -> bool)
           (M N K p : Z) (oc : option cntx) (packedA packedB : bool) (alpha beta : T)
           (s : sched) (mcu kcu ncu : Z) : prog cntx :=
  let* c0 := get_ctx S q oc in
  palloc xbuf 1 false None ;;;
  let* xc := lift S (init_block_dims32 F M N K p c0 s mcu kcu ncu) in
  let x := fst xc in
  let c := snd xc in
  let s := sch x in
  let* A_p :=
    (if packedA then PRet (BufA, 0)
     else
       let* sz := lift S (packed_A_size32 M K p x (mr c) s) in
       palloc (BufAp 0) sz true None ;;;
       pack_A32 (BufA, 0) (BufAp 0, 0) M K p x c s ;;;
       PRet (BufAp 0, 0)) in
  let* B_p :=
    (if packedB then PRet (BufB, 0)
     else
       let* sz := lift S (packed_B_size32 K N x (nr c)) in
       palloc BufBp sz true None ;;;
       pack_B32 (BufB, 0) (BufBp, 0) K N p x c s ;;;
       PRet (BufBp, 0)) in
  (match s with
   | KMN =>
       let* sz := pint (m_c x * n_c x) in
       alloc_Cp S p sz ;;;
       schedule_KMN32 ar A_p B_p (BufC, 0) M N K p c x ;;;
       free_Cp S p
   | _ =>
       let* sz := lift S (packed_C_size32 M N p x (mr c) (nr c) s) in
       (if nz beta then
          palloc (BufCp 0) sz true None ;;;
          pack_C32 (BufC, 0) (BufCp 0, 0) M N p x c s
        else palloc (BufCp 0) sz false (Some (zero S))) ;;;
       schedule32 ar A_p B_p (BufCp 0, 0) M N K p c x s ;;;
       unpack_C32 (BufC, 0) (BufCp 0, 0) M N p x c s ;;;
       pfree (BufCp 0)
   end) ;;;
  (if packedA then PRet tt else pfree (BufAp 0)) ;;;
  (if packedB then PRet tt else pfree BufBp) ;;;
  pfree xbuf ;;;
  PRet c.

End Int.
