(** * The floating-point expressions of src/block_sizing.cpp in IEEE 754 arithmetic.

    Definitions only.  [ieee] is the instance of [fpenv] that evaluates each expression the way
    the C++ source writes it: binary64 and binary32 operations rounded to nearest even, operands
    converted by the usual arithmetic conversions.  Simplification: no expression is contracted
    to a fused multiply-add. *)

From Coq Require Import ZArith Bool.
From Flocq Require Import Core BinarySingleNaN.
From Verif Require Import ModelSizing ModelDouble.
Open Scope Z_scope.

Definition dsub (x y : double) : double := @Bminus 53 1024 prec53 emax1024 mode_NE x y.

(** float *)
Definition single : Set := binary_float 24 128.
Definition prec24 : Prec_gt_0 24 := eq_refl.
Definition emax128 : Prec_lt_emax 24 128 := eq_refl.

(** (float) n for an int n *)
Definition single_of_int (n : Z) : single := binary_normalize 24 128 prec24 emax128 mode_NE n 0 false.

(** (float) x for a double x *)
Definition single_of_double (x : double) : single :=
  match x with
  | B754_zero s => B754_zero s
  | B754_infinity s => B754_infinity s
  | B754_nan => B754_nan
  | B754_finite s m e _ => binary_normalize 24 128 prec24 emax128 mode_NE (cond_Zopp s (Zpos m)) e s
  end.

(** (double) x for a float x *)
Definition double_of_single (x : single) : double :=
  match x with
  | B754_zero s => B754_zero s
  | B754_infinity s => B754_infinity s
  | B754_nan => B754_nan
  | B754_finite s m e _ => binary_normalize 53 1024 prec53 emax1024 mode_NE (cond_Zopp s (Zpos m)) e s
  end.

Definition ssub (x y : single) : single := @Bminus 24 128 prec24 emax128 mode_NE x y.
Definition sdiv (x y : single) : single := @Bdiv 24 128 prec24 emax128 mode_NE x y.

(** roundf: halfway cases away from zero *)
Definition sround (x : single) : single := @Bnearbyint 24 128 emax128 mode_NA x.

(** (int) x for a float x *)
Definition int_of_single (x : single) : option Z := to_int (double_of_single x).

(** Where [fpenv] has a plain int and the cast is undefined, the instance has 0; the theorems
    about the instance exclude these cases. *)
Definition or0 (o : option Z) : Z := match o with Some v => v | None => 0 end.

(** lines 318-319: b = 2*nr; (int) ((-b + sqrt(b*b + 4*(((double) L2) / (2*type_size)))) / 2.0) *)
Definition ieee_mcL2 (nr L2 : Z) : option Z :=
  let b := 2 * nr in
  let q := ddiv (of_int L2) (of_int 8) in
  let d := dadd (of_int (b * b)) (dmul (of_int 4) q) in
  to_int (ddiv (dadd (of_int (- b)) (dsqrt d)) (of_int 2)).

(** lines 329-330: (int) sqrt((((double) L3) / (2*type_size)) / (t * (1 + 1.0 + 1.0*t))) *)
Definition ieee_mcL3 (L3 t : Z) : option Z :=
  let q := ddiv (of_int L3) (of_int 8) in
  let w := dmul (of_int t) (dadd (of_int 2) (dmul (of_int 1) (of_int t))) in
  to_int (dsqrt (ddiv q w)).

(** line 336: alpha_n = ((double) mc_L3) / mc_L2 *)
Definition ieee_alpha (al : Z * Z) : double := ddiv (of_int (fst al)) (of_int (snd al)).

(** alpha_n*q*x, associating to the left *)
Definition ieee_scaled (al : Z * Z) (q x : Z) : double :=
  dmul (dmul (ieee_alpha al) (of_int q)) (of_int x).

(** lines 434-462: a cut-off such as (2.0*D) / (1.0 + (D * ((2.0/k) - (1.0/m)))), converted to
    float; [num] is the dividend, [c1] and [c2] the constants *)
Definition ieee_cut (num : double) (D : Z) (c1 : Z) (k : single) (c2 : Z) (m : single) : single :=
  single_of_double
    (ddiv num (dadd (of_int 1)
       (dmul (of_int D) (dsub (ddiv (of_int c1) (double_of_single k))
                              (ddiv (of_int c2) (double_of_single m)))))).

(** K_cut_M and K_cut_N, lines 443-444 *)
Definition ieee_K_cut (D p mc : Z) : single :=
  let k := single_of_int (p * mc) in ieee_cut (dmul (of_int 2) (of_int D)) D 2 k 1 k.

(** N_cut_M and M_cut_N, lines 447-450 *)
Definition ieee_D_cut (D p mc : Z) (al : Z * Z) : single :=
  let m := single_of_double (ieee_scaled al p mc) in ieee_cut (of_int D) D 1 m 1 m.

(** the condition (E <= E_cut_D) && (K <= K_cut_D), lines 455 and 457 *)
Definition ieee_first (D E K p mc : Z) (al : Z * Z) : bool :=
  Bleb (single_of_int E) (ieee_D_cut D p mc al) && Bleb (single_of_int K) (ieee_K_cut D p mc).

(** line 675: (int) ((-n_r + sqrt(1.0*n_r*n_r + 4.0*2*(((double) L2) / 4.0))) / (2.0*2)) *)
Definition ieee_mc2d (nr L2 : Z) : option Z :=
  let nn := dmul (dmul (of_int 1) (of_int nr)) (of_int nr) in
  let w := dmul (dmul (of_int 4) (of_int 2)) (ddiv (of_int L2) (of_int 4)) in
  to_int (ddiv (dadd (of_int (- nr)) (dsqrt (dadd nn w))) (dmul (of_int 2) (of_int 2))).

(** line 663: kc_max = ((L1 / type_size) - m_r*n_r) / (m_r + n_r), in float *)
Definition ieee_kcmax (L1 mr nr : Z) : option Z :=
  int_of_single (sdiv (ssub (sdiv (single_of_int L1) (single_of_int 4)) (single_of_int (mr * nr)))
                      (single_of_int (mr + nr))).

(** line 606: (int) roundf(sqrt(((double) p*N) / M)) *)
Definition ieee_pn (p N M : Z) : option Z :=
  int_of_single (sround (single_of_double (dsqrt (ddiv (dmul (of_int p) (of_int N)) (of_int M))))).

Definition ieee : fpenv :=
  FP (fun nr L2 => or0 (ieee_mcL2 nr L2))
     (fun L3 t => or0 (ieee_mcL3 L3 t))
     (fun al q x => to_int (ieee_scaled al q x))
     (fun M N K p mc al => ieee_first M N K p mc al)
     (fun M N K p mc al => ieee_first N M K p mc al)
     (fun nr L2 => or0 (ieee_mc2d nr L2))
     (fun L1 mr nr => or0 (ieee_kcmax L1 mr nr))
     (fun p N M => or0 (ieee_pn p N M)).
