(** * Block sizing: src/block_sizing.cpp, the size functions of src/pack_helper.cpp
      and set_schedule of src/cake_sgemm.cpp.

    Definitions only.  [int] is [Z]; [/] and [%] of C on ints are [Z.quot] and
    [Z.rem].  Division by zero and a float-to-int cast that does not fit are the
    distinct outcome [CUB]; exit(1) is [CExit]. *)

From Coq Require Import ZArith List Bool.
Import ListNotations.
Open Scope Z_scope.

Inductive comp (A : Type) : Type := CRet (a : A) | CUB | CExit.
Arguments CRet {A}. Arguments CUB {A}. Arguments CExit {A}.

Definition cbind {A B} (c : comp A) (f : A -> comp B) : comp B :=
  match c with CRet a => f a | CUB => CUB | CExit => CExit end.

Declare Scope comp_scope.
Delimit Scope comp_scope with comp.
Notation "'do' x <- a ; b" := (cbind a (fun x => b))
  (at level 200, x name, a at level 100, b at level 200) : comp_scope.
Open Scope comp_scope.

(** int division and remainder *)
Definition idiv (a b : Z) : comp Z := if b =? 0 then CUB else CRet (Z.quot a b).
Definition imod (a b : Z) : comp Z := if b =? 0 then CUB else CRet (Z.rem a b).

(** (int) ceil( ((double) a) / b ).  Simplification: exact ceiling; justified for
    32-bit operands by the theorems of PropDouble.v (property C33).  b = 0 gives an
    infinity or NaN, whose cast to int is undefined. *)
Definition iceil (a b : Z) : comp Z := if b =? 0 then CUB else CRet (- ((- a) / b)).

(** C truth value *)
Definition truthy (z : Z) : bool := negb (z =? 0).

(** include/common.h:105 *)
Inductive sched : Set := KMN | MKN | NKM | NA.

(** include/common.h:108-135, struct blk_dims_t.  Fields that a sizing function does
    not assign are uninitialised in C; the model gives them 0 (each reader below
    only reads fields its schedule's sizing code assigns). *)
Record blk_dims : Set := BD {
  m_c : Z; k_c : Z; n_c : Z;
  m_c1 : Z; k_c1 : Z; n_c1 : Z;
  m_c1_last_core : Z; n_c1_last_core : Z; k_c1_last_core : Z;
  mr_rem : Z; nr_rem : Z; k_rem : Z;
  p_l : Z; pm_l : Z; pn_l : Z; pm : Z; pn : Z;
  m_pad : Z; k_pad : Z; n_pad : Z;
  Mb : Z; Kb : Z; Nb : Z;
  M_padded : Z; N_padded : Z;
  sch : sched }.

(** include/common.h:138-151, struct cake_cntx_t.  [alpha] stands for the double
    alpha_n, kept as the pair (numerator, denominator) of ints whose double quotient
    it is; (1,1) is 1.0.  peak_dram_bw, peak_flops, blis_cntx are not used by the
    modelled code. *)
Record cntx : Set := Cntx {
  alpha : Z * Z; mr : Z; nr : Z; m_map : Z; n_map : Z;
  L1 : Z; L2 : Z; L3 : Z; ncores : Z }.

(** Kernel family constants: build-time header of the generated kernels
    (python/kernel_gen.py; include/kernels.h) *)
Record arch : Set := Arch {
  MR_FACT : Z; NR_FACT : Z; MR_MIN : Z; NR_MIN : Z;
  MR_CNT : Z; NR_CNT : Z;   (* number of rows / columns of kernel_map *)
  lanes : Z                 (* alignment, in floats, that the loads of B need *) }.

(** src/block_sizing.cpp:57-62 / 64-69 with the committed headers *)
Definition haswell : arch := Arch 2 16 6 16 2 2 8.
Definition armv8 : arch := Arch 2 12 8 12 2 2 1.

(** src/block_sizing.cpp:78-83 *)
Definition update_mr_nr (ar : arch) (c : cntx) (m_r n_r : Z) : cntx :=
  Cntx (alpha c) m_r n_r
       (Z.quot m_r (MR_FACT ar) - Z.quot (MR_MIN ar) (MR_FACT ar))
       (Z.quot n_r (NR_FACT ar) - Z.quot (NR_MIN ar) (NR_FACT ar))
       (L1 c) (L2 c) (L3 c) (ncores c).

(** src/block_sizing.cpp:40-75; the hardware values are arguments. *)
Definition cake_query_cntx (ar : arch) (l1 l2 l3 cores : Z) : cntx :=
  Cntx (1, 1) (MR_MIN ar) (NR_MIN ar)
       (Z.quot (MR_MIN ar) (MR_FACT ar) - Z.quot (MR_MIN ar) (MR_FACT ar))
       (Z.quot (NR_MIN ar) (NR_FACT ar) - Z.quot (NR_MIN ar) (NR_FACT ar))
       l1 l2 l3 cores.

(** Results of the floating-point expressions of the sizing code.
    - [fp_mcL2 nr L2]: (int)((-b + sqrt(b*b + 4*(L2/(2*type_size)))) / 2.0), line 317
    - [fp_mcL3 L3 cores]: (int) sqrt((L3/(2*type_size)) / (..)), line 327
    - [fp_mul a q x]: (int)(alpha_n * q * x), lines 376, 383 (q = p) and 394 (q = 1); [None] when
      the value does not fit an int
    - [fp_mkn], [fp_nkm]: the two comparisons of derive_schedule, lines 455, 457
    - [fp_mc2d nr L2]: (int)((-n_r + sqrt(..))/4.0), line 673
    - [fp_kcmax L1 mr nr]: (int)(((L1/type_size) - m_r*n_r)/(m_r+n_r)), line 661
    - [fp_pn p N M]: (int) roundf(sqrt(((double) p*N)/M)), line 606
    Every theorem is for all values of these; ModelIEEE.v gives the values IEEE 754
    arithmetic computes. *)
Record fpenv : Type := FP {
  fp_mcL2 : Z -> Z -> Z;
  fp_mcL3 : Z -> Z -> Z;
  fp_mul : Z * Z -> Z -> Z -> option Z;
  fp_mkn : Z -> Z -> Z -> Z -> Z -> Z * Z -> bool;
  fp_nkm : Z -> Z -> Z -> Z -> Z -> Z * Z -> bool;
  fp_mc2d : Z -> Z -> Z;
  fp_kcmax : Z -> Z -> Z -> Z;
  fp_pn : Z -> Z -> Z -> Z }.

Definition ofopt {A} (o : option A) : comp A := match o with Some a => CRet a | None => CUB end.

(** src/block_sizing.cpp:434-462 *)
Definition derive_schedule (F : fpenv) (M N K p mc_ret : Z) (al : Z * Z) : sched :=
  if fp_mkn F M N K p mc_ret al then MKN
  else if fp_nkm F M N K p mc_ret al then NKM
  else KMN.

(** include/common.h:154-159 *)
Record cache_dims : Set := CD { cd_m_c : Z; cd_k_c : Z; cd_n_c : Z; cd_sch : sched }.

(** src/block_sizing.cpp:336-349: clip m_c for small M *)
Definition clip_mc (M p mr mc : Z) : comp Z :=
  if M <? p * mr then CRet mr
  else if M <? p * mc then
    do a <- idiv M p;
    if a <? mr then CRet mr
    else do r <- imod a mr; CRet (a + (mr - r))
  else CRet mc.

(** src/block_sizing.cpp:304-429 (type_size = 4).  Returns the tile sizes and the
    new value of cake_cntx->alpha_n. *)
Definition get_cache_dims (F : fpenv) (M N K p : Z) (c : cntx) (s : sched)
           (mcu kcu ncu : Z) : comp (cache_dims * (Z * Z)) :=
  let mc_L2_0 := fp_mcL2 F (nr c) (L2 c) in
  do r2 <- imod mc_L2_0 (mr c);
  let mc_L2 := mc_L2_0 - r2 in
  let mc_L3_0 := fp_mcL3 F (L3 c) (ncores c) in
  do r3 <- imod mc_L3_0 (mr c);
  let mc_L3 := mc_L3_0 - r3 in
  let al := (mc_L3, mc_L2) in
  let mc := mc_L2 in
  do mc_ret <- clip_mc M p (mr c) mc;
  let s' := match s with NA => derive_schedule F M N K p mc_ret al | _ => s end in
  if truthy mcu && truthy ncu && truthy kcu then
    CRet (CD mcu kcu ncu s', (1, 1))
  else
    match s' with
    | KMN | MKN =>
        do nc0 <- ofopt (fp_mul F al p mc_ret);
        do rn <- imod nc0 (nr c);
        let nc1 := nc0 - rn in
        let nc_ret := if nc1 =? 0 then nr c else nc1 in
        CRet (CD mc_ret mc_ret nc_ret s', al)
    | NKM =>
        do rn <- imod mc_ret (nr c);
        let nc1 := mc_ret - rn in
        let nc_ret := if nc1 =? 0 then nr c else nc1 in
        do mc0 <- ofopt (fp_mul F al 1 mc_ret);
        do rm <- imod mc0 (mr c);
        let mc1 := mc0 - rm in
        let mc_ret' := if mc1 =? 0 then mr c else mc1 in
        CRet (CD mc_ret' mc_ret' nc_ret s', al)
    | NA => CExit
    end.

Definition pad01 (z : Z) : Z := if truthy z then 1 else 0.

(** src/block_sizing.cpp:482-515, case KMN of init_block_dims *)
Definition dims_KMN (M N K p mc kc nc m_r n_r : Z) : comp blk_dims :=
  do kr <- imod K kc;
  do nrm <- imod N nc;
  do mrm <- imod M (p * mc);
  let k_pad' := pad01 kr in
  let n_pad' := pad01 nrm in
  let m_pad' := pad01 mrm in
  do mr_rem' <- iceil mrm m_r;
  do mr_per_core <- iceil mr_rem' p;
  do p_l' <- (if truthy mr_per_core then iceil mr_rem' mr_per_core else CRet 0);
  do nr_rem' <- iceil nrm n_r;
  let n_c1' := nr_rem' * n_r in
  let m_c1' := mr_per_core * m_r in
  let m_c1_last' := (mr_per_core - (p_l' * mr_per_core - mr_rem')) * m_r in
  let k_c1' := kr in
  do Mq <- idiv M (p * mc);
  do Nq <- idiv N nc;
  do Kq <- idiv K kc;
  CRet (BD mc kc nc m_c1' k_c1' n_c1' m_c1_last' 0 0 mr_rem' nr_rem' 0 p_l' 0 0 p 1
           m_pad' k_pad' n_pad' (Mq + m_pad') (Kq + k_pad') (Nq + n_pad')
           (m_r * mr_rem' + Mq * p * mc) ((N - nrm) + n_c1') KMN).

(** src/block_sizing.cpp:518-551, case MKN *)
Definition dims_MKN (M N K p mc kc nc m_r n_r : Z) : comp blk_dims :=
  do kr <- imod K (p * kc);
  do mrm <- imod M mc;
  do nrm <- imod N nc;
  let k_pad' := pad01 kr in
  let m_pad' := pad01 mrm in
  let n_pad' := pad01 nrm in
  do k_c1' <- iceil kr p;
  do p_l' <- (if truthy k_c1' then iceil kr k_c1' else CRet 0);
  do nr_rem' <- iceil nrm n_r;
  let n_c1' := nr_rem' * n_r in
  let k_c1_last' := kr - k_c1' * (p_l' - 1) in
  do mr_rem' <- iceil mrm m_r;
  let m_c1' := mr_rem' * m_r in
  do Mq <- idiv M mc;
  do Kq <- idiv K (p * kc);
  do Nq <- idiv N nc;
  CRet (BD mc kc nc m_c1' k_c1' n_c1' 0 0 k_c1_last' mr_rem' nr_rem' kr p_l' 0 0 p 1
           m_pad' k_pad' n_pad' (Mq + m_pad') (Kq + k_pad') (Nq + n_pad')
           (Mq * mc + m_c1') ((N - nrm) + n_c1') MKN).

(** src/block_sizing.cpp:554-587, case NKM *)
Definition dims_NKM (M N K p mc kc nc m_r n_r : Z) : comp blk_dims :=
  do kr <- imod K (p * kc);
  do mrm <- imod M (p * mc);
  do nrm <- imod N nc;
  let k_pad' := pad01 kr in
  let m_pad' := pad01 mrm in
  let n_pad' := pad01 nrm in
  do k_c1' <- iceil kr p;
  do p_l' <- (if truthy k_c1' then iceil kr k_c1' else CRet 0);
  do nr_rem' <- iceil nrm n_r;
  let n_c1' := nr_rem' * n_r in
  let k_c1_last' := kr - k_c1' * (p_l' - 1) in
  do mr_rem' <- iceil mrm m_r;
  let m_c1' := mr_rem' * m_r in
  do Mq <- idiv M (p * mc);
  do Kq <- idiv K (p * kc);
  do Nq <- idiv N nc;
  CRet (BD mc kc nc m_c1' k_c1' n_c1' 0 0 k_c1_last' mr_rem' nr_rem' kr p_l' 0 0 1 p
           m_pad' k_pad' n_pad' (Mq + m_pad') (Kq + k_pad') (Nq + n_pad')
           (Mq * (p * mc) + m_c1') ((N - nrm) + n_c1') NKM).

(** src/block_sizing.cpp:465-595.  Returns the block dimensions and the updated context. *)
Definition init_block_dims (F : fpenv) (M N K p : Z) (c : cntx) (s : sched)
           (mcu kcu ncu : Z) : comp (blk_dims * cntx) :=
  do r <- get_cache_dims F M N K p c s mcu kcu ncu;
  let cd := fst r in
  let c' := Cntx (snd r) (mr c) (nr c) (m_map c) (n_map c) (L1 c) (L2 c) (L3 c) (ncores c) in
  do x <- (match cd_sch cd with
           | KMN => dims_KMN M N K p (cd_m_c cd) (cd_k_c cd) (cd_n_c cd) (mr c) (nr c)
           | MKN => dims_MKN M N K p (cd_m_c cd) (cd_k_c cd) (cd_n_c cd) (mr c) (nr c)
           | NKM => dims_NKM M N K p (cd_m_c cd) (cd_k_c cd) (cd_n_c cd) (mr c) (nr c)
           | NA => CExit
           end);
  CRet (x, c').

(** The static table grid_dims (python/grid_gen.py:gen_factor_table): row ncores-p,
    column f-1 is 1 iff f divides p.  [rows] is the number of rows in the table.
    An access outside the table is undefined. *)
Definition grid_tab (cores rows p f1 : Z) : comp bool :=
  if (0 <=? cores - p) && (cores - p <? rows) && (0 <=? f1) && (f1 <? cores)
  then CRet ((f1 <? p) && (Z.rem p (f1 + 1) =? 0)) else CUB.

(** lines 617-622: first true entry at or above [i] *)
Fixpoint scan_up (cores rows p : Z) (n : nat) (i : Z) : comp (option Z) :=
  match n with
  | O => CRet None
  | S n' => do t <- grid_tab cores rows p i;
            if t then CRet (Some i) else scan_up cores rows p n' (i + 1)
  end.

(** lines 624-629: first true entry at or below [i], stopping above 0 *)
Fixpoint scan_down (cores rows p : Z) (n : nat) (i : Z) : comp (option Z) :=
  match n with
  | O => CRet None
  | S n' => do t <- grid_tab cores rows p i;
            if t then CRet (Some i) else scan_down cores rows p n' (i - 1)
  end.

(** src/block_sizing.cpp:601-636.  [high] and [low] start uninitialised ([None]);
    using them uninitialised is undefined. *)
Definition grid_dims_2d (F : fpenv) (M N p cores rows : Z) : comp Z :=
  if M =? 0 then CUB else
  let pn0 := fp_pn F p N M in
  let pn1 := if pn0 =? 0 then 1 else pn0 in
  let pn2 := if p <? pn1 then p else pn1 in
  do t <- grid_tab cores rows p (pn2 - 1);
  do pn_ret <-
    (if t then CRet pn2
     else do high <- scan_up cores rows p (Z.to_nat (p - pn2)) pn2;
          do low <- scan_down cores rows p (Z.to_nat (pn2 - 2)) (pn2 - 2);
          match high, low with
          | Some h, Some l =>
              CRet (if (h - (pn2 - 1)) <? ((pn2 - 1) - l) then h + 1 else l + 1)
          | _, _ => CUB
          end);
  CRet (if pn_ret <? p then pn_ret else p).

(** x rounded up to a multiple of r, as the code writes it at lines 656-657, 687, 697 *)
Definition roundup (x r : Z) : comp Z :=
  do t <- imod x r; CRet (if truthy t then x + (r - t) else x).

(** src/block_sizing.cpp:679-692 and 701-714: fit tile and grid to a small dimension *)
Definition fit2d (D_padded g t r : Z) : comp (Z * Z) :=
  if D_padded =? g * r then CRet (r, 1)
  else if D_padded <? g * t then
    do a <- idiv D_padded g;
    if a <? r then do g' <- idiv D_padded r; CRet (r, g')
    else do a' <- roundup a r; CRet (a', g)
  else CRet (t, g).

(** src/block_sizing.cpp:641-798 *)
Definition init_block_dims_2d (F : fpenv) (M N K p rows : Z) (c : cntx) (s : sched)
           (mcu kcu ncu : Z) : comp blk_dims :=
  let m_r := mr c in let n_r := nr c in
  do pn0 <- grid_dims_2d F M N p (ncores c) rows;
  do pm0 <- idiv p pn0;
  do Mp <- roundup M m_r;
  do Np <- roundup N n_r;
  let kc_max := fp_kcmax F (L1 c) m_r n_r in
  do mk <- (if truthy mcu && truthy ncu && truthy kcu then CRet (mcu, kcu)
            else let m0 := fp_mc2d F n_r (L2 c) in
                 do r <- imod m0 m_r; CRet (m0 - r, kc_max));
  let mc0 := fst mk in let kc := snd mk in
  do kr <- imod K kc;
  do fm <- fit2d Mp pm0 mc0 m_r;
  let mc := fst fm in let pm' := snd fm in
  do nc0 <- roundup mc n_r;
  do fn <- fit2d Np pn0 nc0 n_r;
  let nc := fst fn in let pn' := snd fn in
  do nrm <- imod N (pn' * nc);
  do mrm <- imod M (pm' * mc);
  do mr_rem' <- iceil mrm m_r;
  do mr_per_core <- iceil mr_rem' pm';
  do pm_l' <- (if truthy mr_per_core then iceil mr_rem' mr_per_core else CRet 0);
  let m_c1' := mr_per_core * m_r in
  let m_c1_last' := (mr_per_core - (pm_l' * mr_per_core - mr_rem')) * m_r in
  do nr_rem' <- iceil nrm n_r;
  do nr_per_core <- iceil nr_rem' pn';
  do pn_l' <- (if truthy nr_per_core then iceil nr_rem' nr_per_core else CRet 0);
  let n_c1' := nr_per_core * n_r in
  let n_c1_last' := (nr_per_core - (pn_l' * nr_per_core - nr_rem')) * n_r in
  do Mq <- idiv M (pm' * mc);
  do Nq <- idiv N (pn' * nc);
  do Kq <- idiv K kc;
  CRet (BD mc kc nc m_c1' kr n_c1' m_c1_last' n_c1_last' 0 mr_rem' nr_rem' 0 0 pm_l' pn_l'
           pm' pn' (pad01 mrm) (pad01 kr) (pad01 nrm)
           (Mq + pad01 mrm) (Kq + pad01 kr) (Nq + pad01 nrm)
           (m_r * mr_rem' + Mq * pm' * mc) (n_r * nr_rem' + Nq * pn' * nc) s).

(** src/block_sizing.cpp:804-857 *)
Definition init_block_dims_2d_small (F : fpenv) (M N K p rows : Z) (c : cntx) (s : sched)
  : comp blk_dims :=
  let m_r := mr c in let n_r := nr c in
  do pn' <- grid_dims_2d F M N p (ncores c) rows;
  do pm' <- idiv p pn';
  do Mp <- roundup M m_r;
  do Np <- roundup N n_r;
  do mc0 <- idiv Mp pm';
  do r1 <- imod mc0 m_r;
  let mc := mc0 + (m_r - r1) in
  do nc0 <- idiv Np pn';
  do r2 <- imod nc0 n_r;
  let nc := nc0 + (n_r - r2) in
  let kc_max := fp_kcmax F (L1 c) m_r n_r in
  let kc := if kc_max <? mc then kc_max else mc in
  let m_c1' := Mp - (pm' - 1) * mc in
  let n_c1' := Np - (pn' - 1) * nc in
  do kr <- imod K kc;
  do nrm <- imod N nc;
  do mrm <- imod M mc;
  do Kq <- idiv K kc;
  CRet (BD mc kc nc m_c1' kr n_c1' 0 0 0 0 0 0 0 0 0 pm' pn'
           (pad01 mrm) (pad01 kr) (pad01 nrm) 0 (Kq + pad01 kr) 0 Mp Np s).

(** src/pack_helper.cpp:5-36, in floats (bytes / sizeof(float)) *)
Definition packed_A_size (M K p : Z) (x : blk_dims) (m_r : Z) (s : sched) : comp Z :=
  match s with
  | KMN | NKM =>
      do r <- imod M (p * m_c x);
      do mr_rem' <- iceil r m_r;
      do q <- idiv M (p * m_c x);
      CRet ((m_r * mr_rem' + q * p * m_c x) * K)
  | MKN =>
      do r <- imod M (m_c x);
      do mr_rem' <- iceil r m_r;
      do q <- idiv M (m_c x);
      CRet ((q * m_c x + mr_rem' * m_r) * K)
  | NA => CExit
  end.

(** src/pack_helper.cpp:40-47 *)
Definition packed_B_size (K N : Z) (x : blk_dims) (n_r : Z) : comp Z :=
  do r <- imod N (n_c x);
  do nr_rem' <- iceil r n_r;
  CRet (K * ((N - r) + nr_rem' * n_r)).

(** src/pack_helper.cpp:51-87 *)
Definition packed_C_size (M N p : Z) (x : blk_dims) (m_r n_r : Z) (s : sched) : comp Z :=
  do M_padded' <-
    (match s with
     | KMN | NKM =>
         do r <- imod M (p * m_c x);
         do mr_rem' <- iceil r m_r;
         do q <- idiv M (p * m_c x);
         CRet (m_r * mr_rem' + q * p * m_c x)
     | MKN =>
         do r <- imod M (m_c x);
         do mr_rem' <- iceil r m_r;
         do q <- idiv M (m_c x);
         CRet (q * m_c x + mr_rem' * m_r)
     | NA => CExit
     end);
  do r <- imod N (n_c x);
  do nr_rem' <- iceil r n_r;
  CRet (M_padded' * ((N - r) + nr_rem' * n_r)).

(** src/block_sizing.cpp:861-870.  The loop searches upwards without bound; [fuel]
    bounds the model's search, [None] means it has not ended yet. *)
Fixpoint lcm_loop (fuel : nat) (n1 n2 mx : Z) : option Z :=
  match fuel with
  | O => None
  | S f => if (Z.rem mx n1 =? 0) && (Z.rem mx n2 =? 0) then Some mx
           else lcm_loop f n1 n2 (mx + 1)
  end.
Definition lcm (fuel : nat) (n1 n2 : Z) : option Z :=
  lcm_loop fuel n1 n2 (if n2 <? n1 then n1 else n2).

(** src/cake_sgemm.cpp:768-787 *)
Definition set_schedule (s : sched) (M N K : Z) : sched :=
  match s with
  | NA =>
      if (2 * K <=? M) && (N <=? M) then MKN
      else if (M <=? K) && (N <=? K) then KMN
      else if (2 * K <=? N) && (M <=? N) then NKM
      else KMN
  | _ => s
  end.
