(** * cake_sgemm_online, cake_sgemm_2d and cake_sgemm_2d_small with 32-bit ints.

    Like ModelInt.v, for the functions of ModelSizing.v, ModelSched.v and ModelTop.v these three
    entry points use.  Definitions only.  Besides the simplifications listed there: the int
    arithmetic inside the packing kernels is left out, and so is that of the counters of the two
    scans of the table of divisors, which run between 0 and p. *)

From Coq Require Import ZArith List Bool.
From Verif Require Import Lang ModelSizing ModelKernel ModelPack ModelSched ModelTop ModelInt.
Open Scope Z_scope.

(** ** Sizing: src/block_sizing.cpp *)

(** lines 600-636 *)
Definition grid_dims_2d32 (F : fpenv) (M N p cores rows : Z) : comp Z :=
  if M =? 0 then CUB else
  let pn0 := fp_pn F p N M in
  let pn1 := if pn0 =? 0 then 1 else pn0 in
  let pn2 := if p <? pn1 then p else pn1 in
  do _ <- cint (cores - p);
  do w <- cint (pn2 - 1);
  do t <- grid_tab cores rows p w;
  do pn_ret <-
    (if t then CRet pn2
     else do high <- scan_up cores rows p (Z.to_nat (p - pn2)) pn2;
          do i <- cint (pn2 - 2);
          do low <- scan_down cores rows p (Z.to_nat i) i;
          match high, low with
          | Some h, Some l =>
              do a <- cint (h - (pn2 - 1));
              do b <- cint ((pn2 - 1) - l);
              if a <? b then cint (h + 1) else cint (l + 1)
          | _, _ => CUB
          end);
  CRet (if pn_ret <? p then pn_ret else p).

(** lines 656-657, 687, 697 *)
Definition roundup32 (x r : Z) : comp Z :=
  do t <- cint (x rem r); if truthy t then cint (x + (r - (x rem r))) else CRet x.

(** lines 679-692 and 701-714 *)
Definition fit2d32 (D_padded g t r : Z) : comp (Z * Z) :=
  do gr <- cint (g * r);
  if D_padded =? gr then CRet (r, 1)
  else
    do gt <- cint (g * t);
    if D_padded <? gt then
      do a <- cint (D_padded / g);
      if a <? r then do g' <- cint (D_padded / r); CRet (r, g')
      else do a' <- roundup32 a r; CRet (a', g)
    else CRet (t, g).

(** lines 641-798 *)
Definition init_block_dims_2d32 (F : fpenv) (M N K p rows : Z) (c : cntx) (s : sched)
           (mcu kcu ncu : Z) : comp blk_dims :=
  let m_r := mr c in let n_r := nr c in
  do pn0 <- grid_dims_2d32 F M N p (ncores c) rows;
  do pm0 <- cint (p / pn0);
  do Mp <- roundup32 M m_r;
  do Np <- roundup32 N n_r;
  do _ <- cint (m_r * n_r);
  do _ <- cint (m_r + n_r);
  let kc_max := fp_kcmax F (L1 c) m_r n_r in
  do mk <- (if truthy mcu && truthy ncu && truthy kcu then CRet (mcu, kcu)
            else let m0 := fp_mc2d F n_r (L2 c) in
                 do m <- cint (m0 - m0 rem m_r); CRet (m, kc_max));
  let mc0 := fst mk in let kc := snd mk in
  do kr <- cint (K rem kc);
  do fm <- fit2d32 Mp pm0 mc0 m_r;
  let mc := fst fm in let pm' := snd fm in
  do nc0 <- roundup32 mc n_r;
  do fn <- fit2d32 Np pn0 nc0 n_r;
  let nc := fst fn in let pn' := snd fn in
  do nrm <- cint (N rem (pn' * nc));
  do mrm <- cint (M rem (pm' * mc));
  do mr_rem' <- iceil mrm m_r;
  do mr_per_core <- iceil mr_rem' pm';
  do pm_l' <- (if truthy mr_per_core then iceil mr_rem' mr_per_core else CRet 0);
  do m_c1' <- cint (mr_per_core * m_r);
  do m_c1_last' <- cint ((mr_per_core - (pm_l' * mr_per_core - mr_rem')) * m_r);
  do nr_rem' <- iceil nrm n_r;
  do nr_per_core <- iceil nr_rem' pn';
  do pn_l' <- (if truthy nr_per_core then iceil nr_rem' nr_per_core else CRet 0);
  do n_c1' <- cint (nr_per_core * n_r);
  do n_c1_last' <- cint ((nr_per_core - (pn_l' * nr_per_core - nr_rem')) * n_r);
  do Mb <- cint ((M / (pm' * mc)) + pad01 mrm);
  do Nb <- cint ((N / (pn' * nc)) + pad01 nrm);
  do Kb <- cint ((K / kc) + pad01 kr);
  do M_padded <- cint (m_r * mr_rem' + (M / (pm' * mc)) * pm' * mc);
  do N_padded <- cint (n_r * nr_rem' + (N / (pn' * nc)) * pn' * nc);
  CRet (BD mc kc nc m_c1' kr n_c1' m_c1_last' n_c1_last' 0 mr_rem' nr_rem' 0 0 pm_l' pn_l'
           pm' pn' (pad01 mrm) (pad01 kr) (pad01 nrm) Mb Kb Nb M_padded N_padded s).

(** lines 804-857 *)
Definition init_block_dims_2d_small32 (F : fpenv) (M N K p rows : Z) (c : cntx) (s : sched)
  : comp blk_dims :=
  let m_r := mr c in let n_r := nr c in
  do pn' <- grid_dims_2d32 F M N p (ncores c) rows;
  do pm' <- cint (p / pn');
  do Mp <- roundup32 M m_r;
  do Np <- roundup32 N n_r;
  do mc0 <- cint (Mp / pm');
  do mc <- cint (mc0 + (m_r - (mc0 rem m_r)));
  do nc0 <- cint (Np / pn');
  do nc <- cint (nc0 + (n_r - (nc0 rem n_r)));
  do _ <- cint (m_r * n_r);
  do _ <- cint (m_r + n_r);
  let kc_max := fp_kcmax F (L1 c) m_r n_r in
  let kc := if kc_max <? mc then kc_max else mc in
  do m_c1' <- cint (Mp - (pm' - 1) * mc);
  do n_c1' <- cint (Np - (pn' - 1) * nc);
  do kr <- cint (K rem kc);
  do nrm <- cint (N rem nc);
  do mrm <- cint (M rem mc);
  do Kb <- cint ((K / kc) + pad01 kr);
  CRet (BD mc kc nc m_c1' kr n_c1' 0 0 0 0 0 0 0 0 0 pm' pn'
           (pad01 mrm) (pad01 kr) (pad01 nrm) 0 Kb 0 Mp Np s).

Section Int.

Variable S : scalar.
Notation T := (elt S).
Notation thr := (thr T).
Notation prog := (prog T).

Open Scope prog_scope.

(** ** Packing while multiplying: src/cake_sgemm_k_first.cpp:633-813 *)

(** lines 722-732 *)
Definition online_packB32 (B : ptr) (N : Z) (c : cntx) (x : blk_dims) (n n1 k : Z) : prog unit :=
  let kt := blk_kt x k in
  ppar_for32 0 (blk_nt x n) (nr c) (fun n2 =>
    (let+ b := tint (n1 + k * k_c x * N + n2) in
     let+ d := tint (n2 * kt) in
     pack_B_nr_x_kc S (padd B b) (BufBp, d) N kt (nr c))%thr).

(** lines 735-785 *)
Definition online_core32 (so : bool) (ar : arch) (A : ptr) (K p : Z) (c : cntx) (x : blk_dims)
           (n m k : Z) (reuseA : bool) (core : Z) : thr unit :=
  let kt := blk_kt x k in
  let nt := blk_nt x n in
  let mt := core_mt x m core in
  let mx := core_mx x m in
  (let+ A_offset := tint (m * p * m_c x * K + k * k_c x) in
   (if so then tstore (BufX 2) 0 (zero S) else TRet tt) ;;+
   (if reuseA then TRet tt
    else tfor32_ 0 mt (mr c) (fun m3 =>
      let+ a := tint (A_offset + core * mx * K + m3 * K) in
      let+ d := tint (m3 * kt) in
      pack_A_mr_x_kc S (padd A a) (BufAp core, d) K kt (mr c))) ;;+
   tile_loops32 S (kernel_map S ar (m_map c) (n_map c))
     (BufAp core, 0) 0 (BufBp, 0) 0 (BufCp core, 0) IxAdd mt nt kt (mr c) (nr c))%thr.

(** lines 633-813 *)
Definition schedule_KMN_online32 (so : bool) (ar : arch) (A B C : ptr) (M N K p : Z) (c : cntx)
           (x : blk_dims) : prog unit :=
  pfor32_ 0 (Nb x) 1 (fun n =>
    let ms := snake (odd2 n) (Mb x) in
    let* n1 := blk_n1_32 pint x N n in
    pfor_ne_ (sn_start ms) (sn_end ms) (sn_inc ms) (fun m =>
      let ks := snake (inner_rev n m) (Kb x) in
      let* _ := blk_mcb32 S x p (mr c) m in
      let* m1 := blk_m1_32 pint x M p m in
      pfor_ne_ (sn_start ks) (sn_end ks) (sn_inc ks) (fun k =>
        (if (k =? sn_start ks) && negb (m =? sn_start ms) then PRet tt
         else online_packB32 B N c x n n1 k) ;;;
        ppar_for32 0 (blk_pu x p m) 1
          (online_core32 so ar A K p c x n m k
             ((k =? sn_start ks) && (m =? sn_start ms) && negb (n =? 0)))) ;;;
      let* C_offset := pint (m * p * m_c x * N + n * n_c x) in
      ppar_for32 0 (blk_pu x p m) 1 (kmn_unpack32 S C M N c x n m n1 m1 C_offset))).

(** src/cake_sgemm.cpp:397-468 *)
Definition cake_sgemm_online32 (so : bool) (F : fpenv) (ar : arch) (q : cntx) (M N K p : Z)
           (oc : option cntx) (mcu kcu ncu : Z) : prog cntx :=
  let* c0 := get_ctx S q oc in
  palloc xbuf 1 false None ;;;
  let* xc := lift S (init_block_dims32 F M N K p c0 KMN mcu kcu ncu) in
  let x := fst xc in
  let c := snd xc in
  pfor32_ 0 p 1 (fun i => let* sz := pint (m_c x * k_c x) in palloc (BufAp i) sz true None) ;;;
  let* sz := pint (k_c x * n_c x) in
  palloc BufBp sz true None ;;;
  let* sz := pint (m_c x * n_c x) in
  alloc_Cp S p sz ;;;
  (if so then palloc (BufX 2) 1 false None else PRet tt) ;;;
  schedule_KMN_online32 so ar (BufA, 0) (BufB, 0) (BufC, 0) M N K p c x ;;;
  (if so then pfree (BufX 2) else PRet tt) ;;;
  pfor32_ 0 p 1 (fun i => pfree (BufAp i) ;;; pfree (BufCp i)) ;;;
  pfree BufBp ;;;
  pfree xbuf ;;;
  PRet c.

(** ** The grid of cores: src/cake_sgemm_k_first.cpp:279-486 *)

(** lines 319-327, 356-364: n_cb, n1, m_cb, m1 *)
Definition g2_ncb32 (x : blk_dims) (n_r n : Z) : prog Z :=
  if is_last n (Nb x) (n_pad x) then pint (n_r * nr_rem x) else pint (pn x * n_c x).
Definition g2_n1_32 (x : blk_dims) (N n : Z) : prog Z :=
  if is_last n (Nb x) (n_pad x) then pint (N - (N rem (pn x * n_c x))) else pint (n * pn x * n_c x).
Definition g2_mcb32 (x : blk_dims) (m_r m : Z) : prog Z :=
  if is_last m (Mb x) (m_pad x) then pint (m_r * mr_rem x) else pint (pm x * m_c x).
Definition g2_m1_32 (x : blk_dims) (M m : Z) : prog Z :=
  if is_last m (Mb x) (m_pad x) then pint (M - (M rem (pm x * m_c x))) else pint (m * pm x * m_c x).

(** lines 381-387 *)
Definition g2_packB32 (B : ptr) (N : Z) (c : cntx) (x : blk_dims) (n_cb B_offset k : Z) : prog unit :=
  let kt := blk_kt x k in
  ppar_for32 0 n_cb (nr c) (fun n2 =>
    (let+ b := tint (B_offset + n2) in
     let+ d := tint (n2 * kt) in
     pack_B_nr_x_kc S (padd B b) (BufBp, d) N kt (nr c))%thr).

(** lines 393-399 *)
Definition g2_packA32 (A : ptr) (K : Z) (c : cntx) (x : blk_dims) (m_cb A_offset k : Z) : prog unit :=
  let kt := blk_kt x k in
  ppar_for32 0 m_cb (mr c) (fun m3 =>
    (let+ a := tint (A_offset + m3 * K) in
     let+ d := tint (m3 * kt) in
     pack_A_mr_x_kc S (padd A a) (BufAp 0, d) K kt (mr c))%thr).

(** lines 403-449 *)
Definition g2_core32 (ar : arch) (c : cntx) (x : blk_dims) (n m k core : Z) : thr unit :=
  let kt := blk_kt x k in
  let pun := g2_pun x n in
  (let+ ci := tint (core / pun) in
   let+ cj := tint (core rem pun) in
   let+ a_ind := tint (ci * g2_mx x m * kt) in
   let+ b_ind := tint (cj * g2_nx x n * kt) in
   tile_loops32 S (cake_sgemm_ukernel S ar)
     (BufAp 0, 0) a_ind (BufBp, 0) b_ind (BufCp core, 0) IxAdd
     (g2_mt x m ci) (g2_nt x n cj) kt (mr c) (nr c))%thr.

(** lines 453-483 *)
Definition g2_unpack32 (C : ptr) (M N : Z) (c : cntx) (x : blk_dims) (n m n1 m1 C_offset core : Z) : thr unit :=
  let pun := g2_pun x n in
  (let+ ci := tint (core / pun) in
   let+ cj := tint (core rem pun) in
   let+ o := tint (C_offset + ci * g2_mx x m * N + cj * g2_nx x n) in
   let+ n1' := tint (n1 + cj * g2_nx x n) in
   let+ m2 := tint (ci * g2_mx x m) in
   unpack_ob_C_single_buf32 S (padd C o) (BufCp core, 0) M N m1 n1' m2
     (g2_mt x m ci) (g2_nt x n cj) (mr c) (nr c) ;;+
   let+ sz := tint (m_c x * n_c x) in
   memset0 S (BufCp core, 0) sz)%thr.

(** lines 279-486 *)
Definition schedule_KMN_2d32 (ar : arch) (A B C : ptr) (M N K : Z) (c : cntx) (x : blk_dims) : prog unit :=
  pfor32_ 0 (Nb x) 1 (fun n =>
    let ms := snake (odd2 n) (Mb x) in
    let* n_cb := g2_ncb32 x (nr c) n in
    let* n1 := g2_n1_32 x N n in
    pfor_ne_ (sn_start ms) (sn_end ms) (sn_inc ms) (fun m =>
      let ks := snake (inner_rev n m) (Kb x) in
      let* m_cb := g2_mcb32 x (mr c) m in
      let* m1 := g2_m1_32 x M m in
      let* p_used := pint (g2_pum x m * g2_pun x n) in
      pfor_ne_ (sn_start ks) (sn_end ks) (sn_inc ks) (fun k =>
        let* A_offset := pint (m * pm x * m_c x * K + k * k_c x) in
        let* B_offset := pint (n * pn x * n_c x + k * k_c x * N) in
        (if (k =? sn_start ks) && negb (m =? sn_start ms) then PRet tt
         else g2_packB32 B N c x n_cb B_offset k) ;;;
        (if (k =? sn_start ks) && (m =? sn_start ms) && negb (n =? 0) then PRet tt
         else g2_packA32 A K c x m_cb A_offset k) ;;;
        ppar_for32 0 p_used 1 (g2_core32 ar c x n m k)) ;;;
      let* C_offset := pint (m * pm x * m_c x * N + n * pn x * n_c x) in
      ppar_for32 0 p_used 1 (g2_unpack32 C M N c x n m n1 m1 C_offset))).

(** src/cake_sgemm.cpp:179-247 *)
Definition cake_sgemm_2d32 (F : fpenv) (ar : arch) (q : cntx) (rows : Z) (M N K p : Z) (oc : option cntx)
           (mcu kcu ncu : Z) : prog unit :=
  let* c := get_ctx S q oc in
  palloc xbuf 1 false None ;;;
  let* x := lift S (init_block_dims_2d32 F M N K p rows c KMN mcu kcu ncu) in
  let* sz := pint (pm x * m_c x * k_c x) in
  palloc (BufAp 0) sz true None ;;;
  let* sz := pint (pn x * n_c x * k_c x) in
  palloc BufBp sz true None ;;;
  let* sz := pint (m_c x * n_c x) in
  alloc_Cp S p sz ;;;
  schedule_KMN_2d32 ar (BufA, 0) (BufB, 0) (BufC, 0) M N K c x ;;;
  pfree (BufAp 0) ;;;
  free_Cp S p ;;;
  pfree BufBp ;;;
  pfree xbuf.

(** ** The grid for small matrices: src/cake_sgemm_k_first.cpp:159-271 *)

(** lines 206-252, with the unused n1 of lines 217 and 220 *)
Definition sm_core32 (ar : arch) (N : Z) (c : cntx) (x : blk_dims) (k core : Z) : thr unit :=
  let kt := blk_kt x k in
  (let+ ci := tint (core / pn x) in
   let+ cj := tint (core rem pn x) in
   let+ _ := (if (cj =? pn x - 1) && truthy (n_pad x) then tint (N - (N rem n_c x)) else tint (cj * n_c x)) in
   let+ a_ind := tint (ci * m_c x * kt) in
   let+ b_ind := tint (cj * n_c x * kt) in
   tile_loops32 S (cake_sgemm_ukernel S ar)
     (BufAp 0, 0) a_ind (BufBp, 0) b_ind (BufCp core, 0) IxAdd
     (sm_mt x core) (sm_nt x core) kt (mr c) (nr c))%thr.

(** lines 256-268 *)
Definition sm_unpack32 (C : ptr) (M N : Z) (c : cntx) (x : blk_dims) (core : Z) : thr unit :=
  (let+ ci := tint (core / pn x) in
   let+ cj := tint (core rem pn x) in
   let+ o := tint (ci * m_c x * N + cj * n_c x) in
   let+ n1 := tint (cj * n_c x) in
   let+ m2 := tint (ci * m_c x) in
   unpack_ob_C_single_buf32 S (padd C o) (BufCp core, 0) M N 0 n1 m2 (sm_mt x core) (sm_nt x core) (mr c) (nr c) ;;+
   let+ sz := tint (m_c x * n_c x) in
   memset0 S (BufCp core, 0) sz)%thr.

(** lines 159-271 *)
Definition schedule_KMN_2d_small32 (ar : arch) (A B C : ptr) (M N K p : Z) (c : cntx) (x : blk_dims)
  : prog unit :=
  (pfor32_ 0 (Kb x) 1 (fun k =>
     let kt := blk_kt x k in
     ppar_for32 0 (N_padded x) (nr c) (fun n2 =>
       (let+ b := tint (k * k_c x * N + n2) in
        let+ d := tint (n2 * kt) in
        pack_B_nr_x_kc S (padd B b) (BufBp, d) N kt (nr c))%thr) ;;;
     ppar_for32 0 (M_padded x) (mr c) (fun m3 =>
       (let+ a := tint (k * k_c x + m3 * K) in
        let+ d := tint (m3 * kt) in
        pack_A_mr_x_kc S (padd A a) (BufAp 0, d) K kt (mr c))%thr) ;;;
     ppar_for32 0 p 1 (sm_core32 ar N c x k)) ;;;
   ppar_for32 0 p 1 (sm_unpack32 C M N c x))%prog.

(** src/cake_sgemm.cpp:253-318 *)
Definition cake_sgemm_2d_small32 (F : fpenv) (ar : arch) (q : cntx) (rows : Z) (M N K p : Z)
           (oc : option cntx) : prog unit :=
  let* c := get_ctx S q oc in
  palloc xbuf 1 false None ;;;
  let* x := lift S (init_block_dims_2d_small32 F M N K p rows c KMN) in
  let* sz := pint (M_padded x * k_c x) in
  palloc (BufAp 0) sz true None ;;;
  let* sz := pint (k_c x * N_padded x) in
  palloc BufBp sz true None ;;;
  let* sz := pint (m_c x * n_c x) in
  alloc_Cp S p sz ;;;
  schedule_KMN_2d_small32 ar (BufA, 0) (BufB, 0) (BufC, 0) M N K p c x ;;;
  pfree (BufAp 0) ;;;
  free_Cp S p ;;;
  pfree BufBp ;;;
  pfree xbuf.

End Int.
