(** * Concrete calls, for examples and refutations. *)

From Coq Require Import ZArith List Bool.
From Verif Require Import Lang ModelSizing ModelKernel ModelPack ModelSched ModelTop Exec.
Open Scope Z_scope.

(** Integer matrices *)
Definition Zs : scalar := Scalar Z 0 (fun a b c => a * b + c).
Definition Znz (b : Zs) : bool := negb (Z.eqb b 0).

(** Memory holding three objects A, B, C of the given lengths; the contents of A and B are
    given per element index, C holds [fc]. *)
Definition mem3 (la lb lc : Z) (fa fb fc : Z -> option Z) : mem Z :=
  Mem (fun b => match b with
                | BufA => Some (BInfo la false) | BufB => Some (BInfo lb false)
                | BufC => Some (BInfo lc false) | _ => None end)
      (fun b i => match b with BufA => fa i | BufB => fb i | BufC => fc i | _ => None end).

(** A = i+1, B = 2i-3, C uninitialised: exactly M*K, K*N, M*N elements *)
Definition wA (i : Z) : Z := i + 1.
Definition wB (i : Z) : Z := 2 * i - 3.
Definition wmem (M N K : Z) : mem Z :=
  mem3 (M * K) (K * N) (M * N) (fun i => Some (wA i)) (fun i => Some (wB i)) (fun _ => None).

(** The context of an x86 machine: 6x16 kernel, 32K/256K/8M caches, 4 cores *)
Definition wctx : cntx := Cntx (0, 1) 6 16 0 0 32768 262144 8388608 4.

(** Values for the floating point results of the sizing code. *)
Definition wF : fpenv :=
  FP (fun _ _ => 180) (fun _ _ => 510) (fun a q x => Some (fst a * (q * x) / snd a))
     (fun _ _ _ _ _ _ => false) (fun _ _ _ _ _ _ => false)
     (fun _ _ => 90) (fun _ _ _ => 362) (fun _ _ _ => 1).

(** the same with the comparisons of derive_schedule done on exact numbers *)
Definition wFs : fpenv :=
  FP (fp_mcL2 wF) (fp_mcL3 wF) (fp_mul wF)
     (fun M N K p mc _ => (N <=? M) && (K * (p * mc + M) <=? 2 * M * (p * mc)))
     (fun M N K p mc _ => (M <=? N) && (K * (p * mc + N) <=? 2 * N * (p * mc)))
     (fp_mc2d wF) (fp_kcmax wF) (fp_pn wF).

(** element [i] of C after the (sequential) run; [None]: no value or no normal end *)
Definition outC {R} (o : outcome Z R) (i : Z) : option Z :=
  match o with Done _ m => dat m BufC i | _ => None end.
