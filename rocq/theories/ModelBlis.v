(** * The packing kernels taken from BLIS: src/kernels/haswell/blis_pack_haswell.cpp,
      src/kernels/armv8/blis_pack_armv8.cpp, and their choice in include/packing.h.

    Definitions only.  No Makefile of the repository defines the macros that select them
    (Makefile:184 defines BLIS_ARMV8_PACK where packing.h tests USE_BLIS_ARMV8_PACK); a user who
    defines USE_BLIS_HASWELL_PACK or USE_BLIS_ARMV8_PACK gets them in place of CAKE's.

    Byte offsets are divided by 4 (elements).  Loads and stores of several lanes are sequences of
    single ones; in each block below all loads come before all stores, which in the code are
    partly interleaved: source and destination are different objects. *)

From Coq Require Import ZArith List Bool.
From Verif Require Import Lang ModelSizing ModelKernel ModelPack ModelTrans.
Import ListNotations.
Open Scope Z_scope.
Open Scope thr_scope.

Section Blis.

Variable S : scalar.
Notation T := (elt S).
Notation thr := (thr T).
(** A register of any width: lanes 0, 1, ... *)
Notation reg := (Z -> T).

(** [n] rows of [w] elements at distance [inca] *)
Definition load_rows (a : ptr) (inca n w : Z) : thr (Z -> reg) :=
  tfor 0 n 1 (fun (_ _ : Z) => zero S) (fun j r =>
    let+ v := load_vec S 1 (padd a (j * inca)) w in
    TRet (fun i => if i =? j then v else r i)).

(** stores in order: (offset, number of lanes, register) *)
Definition stores (p : ptr) (l : list (Z * Z * reg)) : thr unit :=
  fold_right (fun s t => store_vec S (padd p (fst (fst s))) (snd (fst s)) (snd s) ;;+ t) (TRet tt) l.

(** vblendps: bit e of imm selects lane e of the second register *)
Definition blend (a b : reg) (imm : Z) : reg := fun e => if Z.testbit imm e then b e else a e.

(** vextractf128(imm(0x1), ...) *)
Definition high128 (a : reg) : reg := fun e => a (e + 4).

(** the upper two lanes of an xmm register, as vmovhpd stores them *)
Definition high64 (a : reg) : reg := fun e => a (e + 2).

(** blis_pack_haswell.cpp:155-187 (and 495-527, 534-566, 573-605, 612-644): rows 0-3 of a group,
    8 columns; [ld] is 6 or 16.  In AT&T order the last operand is the destination:
    vunpcklps(ymm6, ymm4, ymm0) is ymm0 = unpacklo(ymm4, ymm6). *)
Definition group4_haswell (a p : ptr) (inca ld : Z) : thr unit :=
  let+ r := load_rows a inca 4 8 in
  let l0 := unpacklo S (r 0) (r 1) in
  let l1 := unpacklo S (r 2) (r 3) in
  let l2 := shuffle S l0 l1 78 in (* 0x4e *)
  let c0 := blend l0 l2 204 in (* 0xcc *)
  let c1 := blend l1 l2 51 in (* 0x33 *)
  let h0 := unpackhi S (r 0) (r 1) in
  let h1 := unpackhi S (r 2) (r 3) in
  let h2 := shuffle S h0 h1 78 in
  let c2 := blend h0 h2 204 in
  let c3 := blend h1 h2 51 in
  stores p [ (0 * ld, 4, c0); (4 * ld, 4, high128 c0); (1 * ld, 4, c1); (5 * ld, 4, high128 c1);
             (2 * ld, 4, c2); (6 * ld, 4, high128 c2); (3 * ld, 4, c3); (7 * ld, 4, high128 c3) ].

(** blis_pack_haswell.cpp:189-205: rows 4-5 of the 6-row panel *)
Definition group2_haswell (a p : ptr) (inca : Z) : thr unit :=
  let+ r := load_rows (padd a (4 * inca)) inca 2 8 in
  let l := unpacklo S (r 0) (r 1) in
  let h := unpackhi S (r 0) (r 1) in
  stores p [ (0 * 6 + 4, 2, l); (1 * 6 + 4, 2, high64 l); (4 * 6 + 4, 2, high128 l); (5 * 6 + 4, 2, high64 (high128 l));
             (2 * 6 + 4, 2, h); (3 * 6 + 4, 2, high64 h); (6 * 6 + 4, 2, high128 h); (7 * 6 + 4, 2, high64 (high128 h)) ].

(** one column of [mnr] elements that are contiguous in the source (blis_pack_haswell.cpp:266-269,
    324-328, 730-733, 787-791; blis_pack_armv8.cpp:94-98, 241-247) *)
Definition copy_column (a p : ptr) (mnr : Z) : thr unit :=
  let+ v := load_vec S 1 a mnr in store_vec S p mnr v.

(** one column of [mnr] elements at distance [inca] (blis_pack_haswell.cpp:226-238, 665-703;
    blis_pack_armv8.cpp:171-181, 341-356) *)
Definition gather_column (a p : ptr) (inca mnr : Z) : thr unit :=
  let+ r := load_rows a inca mnr 1 in store_vec S p mnr (fun i => r i 0).

(** the k loops: [k_iter] blocks of [b] columns, then [k_left] columns; the pointers advance by
    b*lda, b*ldp and lda, ldp (blis_pack_haswell.cpp:147-244 and 258-332, 483-708 and 722-795;
    blis_pack_armv8.cpp:92-102, 120-184, 239-251, 273-359) *)
Definition k_loops (b k lda ldp : Z) (a p : ptr) (block column : ptr -> ptr -> thr unit) : thr unit :=
  let+ st := tfor 0 (Z.quot k b) 1 (a, p) (fun _ st =>
      block (fst st) (snd st) ;;+ TRet (padd (fst st) (b * lda), padd (snd st) (b * ldp))) in
  let+ _ := tfor 0 (Z.rem k b) 1 st (fun _ st =>
      column (fst st) (snd st) ;;+ TRet (padd (fst st) lda, padd (snd st) ldp)) in
  TRet tt.

(** eight columns one after the other: the unrolled body of blis_pack_haswell.cpp:266-304 and
    730-769 *)
Definition columns8 (lda mnr : Z) (a p : ptr) : thr unit :=
  tfor_ 0 8 1 (fun j => copy_column (padd a (j * lda)) (padd p (j * mnr)) mnr).

(** blis_pack_haswell.cpp:37-365.  [unit]: whether vucomiss finds kappa equal to 1.0; nothing is
    done otherwise, nor if the panel is not full, nor if neither stride is 1.  ldp0 is not read. *)
Definition spackm_haswell_6xk (cdim0 k0 : Z) (unit : bool) (a : ptr) (inca0 lda0 : Z) (p : ptr) : thr Datatypes.unit :=
  let gs := negb (inca0 =? 1) && negb (lda0 =? 1) in
  if (cdim0 =? 6) && negb gs then
    if unit then
      if inca0 =? 1
      then k_loops 8 k0 lda0 6 a p (columns8 lda0 6) (fun a p => copy_column a p 6)
      else k_loops 8 k0 lda0 6 a p
             (fun a p => group4_haswell a p inca0 6 ;;+ group2_haswell a p inca0)
             (fun a p => gather_column a p inca0 6)
    else TRet tt
  else TRet tt.

(** blis_pack_haswell.cpp:372-828.  The four groups of four rows are a loop. *)
Definition spackm_haswell_16xk (cdim0 k0 : Z) (unit : bool) (a : ptr) (inca0 lda0 : Z) (p : ptr) : thr Datatypes.unit :=
  let gs := negb (inca0 =? 1) && negb (lda0 =? 1) in
  if (cdim0 =? 16) && negb gs then
    if unit then
      if inca0 =? 1
      then k_loops 8 k0 lda0 16 a p (columns8 lda0 16) (fun a p => copy_column a p 16)
      else k_loops 8 k0 lda0 16 a p
             (fun a p => tfor_ 0 4 1 (fun g => group4_haswell (padd a (g * (4 * inca0))) (padd p (g * 4)) inca0 16))
             (fun a p => gather_column a p inca0 16)
    else TRet tt
  else TRet tt.

(** vtrn1q_f32, vtrn2q_f32, vtrn1q_f64, vtrn2q_f64 of Arm's reference *)
Definition trn1_32 (a b : reg) : reg := fun e => if e mod 2 =? 0 then a e else b (e - 1).
Definition trn2_32 (a b : reg) : reg := fun e => if e mod 2 =? 0 then a (e + 1) else b e.
Definition trn1_64 (a b : reg) : reg := fun e => if e <? 2 then a e else b (e - 2).
Definition trn2_64 (a b : reg) : reg := fun e => if e <? 2 then a (e + 2) else b e.

(** blis_pack_armv8.cpp:134-141 and the same for the other groups: four rows of four *)
Definition network4 (v0 v1 v2 v3 : reg) : Z -> reg :=
  let vt0 := trn1_32 v0 v1 in
  let vt1 := trn2_32 v0 v1 in
  let vt2 := trn1_32 v2 v3 in
  let vt3 := trn2_32 v2 v3 in
  fun j => match j with
  | 0 => trn1_64 vt0 vt2
  | 1 => trn1_64 vt1 vt3
  | 2 => trn2_64 vt0 vt2
  | _ => trn2_64 vt1 vt3
  end.

(** blis_pack_armv8.cpp:122-166 (8 rows) and 275-336 (12 rows): [g] groups of four rows, four
    columns, stored column by column *)
Definition block_armv8 (g inca ldp : Z) (a p : ptr) : thr unit :=
  let+ r := load_rows a inca (4 * g) 4 in
  let c q := network4 (r (4 * q)) (r (4 * q + 1)) (r (4 * q + 2)) (r (4 * q + 3)) in
  tfor_ 0 4 1 (fun j => tfor_ 0 g 1 (fun q => store_vec S (padd p (j * ldp + 4 * q)) 4 (c q j))).

(** blis_pack_armv8.cpp:49-189 ([g] = 2) and 197-362 ([g] = 3), the same text with 8 and 12 rows.
    kappa is not read. *)
Definition spackm_armv8 (g cdim0 k0 : Z) (a : ptr) (inca0 lda0 : Z) (p : ptr) (ldp0 : Z) : thr unit :=
  let gs := negb (inca0 =? 1) && negb (lda0 =? 1) in
  if (cdim0 =? 4 * g) && negb gs then
    if inca0 =? 1
    then k_loops 1 k0 lda0 ldp0 a p (fun a p => copy_column a p (4 * g)) (fun a p => TRet tt)
    else k_loops 4 k0 lda0 ldp0 a p (block_armv8 g inca0 ldp0) (fun a p => gather_column a p inca0 (4 * g))
  else TRet tt.

(** The macro that selects the packing kernels, include/packing.h:93-101, 117-125. *)
Inductive packer : Type := CakePack | BlisHaswellPack | BlisArmv8Pack.

(** include/packing.h:83-103 *)
Definition A_packing_kernel (pk : packer) (cdim0 k0 : Z) (unit : bool) (a : ptr) (inca0 lda0 : Z) (p : ptr) (ldp0 : Z)
  : thr Datatypes.unit :=
  match pk with
  | CakePack => pack_A_mr_x_kc S a p inca0 k0 cdim0
  | BlisArmv8Pack => spackm_armv8 2 cdim0 k0 a inca0 lda0 p ldp0
  | BlisHaswellPack => spackm_haswell_6xk cdim0 k0 unit a inca0 lda0 p
  end.

(** include/packing.h:107-127 *)
Definition B_packing_kernel (pk : packer) (cdim0 k0 : Z) (unit : bool) (a : ptr) (inca0 lda0 : Z) (p : ptr) (ldp0 : Z)
  : thr Datatypes.unit :=
  match pk with
  | CakePack => pack_B_nr_x_kc S a p lda0 k0 cdim0
  | BlisArmv8Pack => spackm_armv8 3 cdim0 k0 a inca0 lda0 p ldp0
  | BlisHaswellPack => spackm_haswell_16xk cdim0 k0 unit a inca0 lda0 p
  end.

End Blis.
