(** * The generator of the table of core grids: python/grid_gen.py.

    Definitions only.  get_num_cores (lines 7-11), which reads /proc/cpuinfo and lscpu at
    installation, is left out: the number of cores p is any number. *)

From Coq Require Import ZArith List Bool.
From Verif Require Import Lang ModelGen.
Import ListNotations.
Open Scope Z_scope.

(** python/grid_gen.py:14-16, factors(n).  [isq n] stands for int(n**0.5), a floating-point
    power.  Simplification: sorted(set(..)) is left out, since the caller only goes through
    the members. *)
Definition factors (isq : Z -> Z) (n : Z) : list Z :=
  flat_map (fun i => if n mod i =? 0 then [i; n / i] else []) (py_range 1 (isq n + 1) 1).

(** Python's q[i] = 1; [None] is IndexError (indices below 0 would count from the end; they
    are counted as errors, too) *)
Definition py_set (q : list Z) (i : Z) : option (list Z) :=
  if (0 <=? i) && (i <? Z.of_nat (length q))
  then Some (firstn (Z.to_nat i) q ++ 1 :: skipn (Z.to_nat (i + 1)) q) else None.

(** lines 29-31: one row, for n of p cores *)
Definition grid_row (isq : Z -> Z) (p n : Z) : option (list Z) :=
  fold_left (fun q f => match q with Some q => py_set q (f - 1) | None => None end)
            (factors isq n) (Some (repeat 0 (Z.to_nat p))).

(** lines 28-32: all rows, or an exception *)
Fixpoint all_rows (isq : Z -> Z) (p : Z) (ns : list Z) : option (list (list Z)) :=
  match ns with
  | [] => Some []
  | n :: ns' => match grid_row isq p n, all_rows isq p ns' with
                | Some q, Some t => Some (q :: t)
                | _, _ => None
                end
  end.

(** The printed array: grid_dims[t_rows][t_cols] = {t_tab}. *)
Record grid_array : Set := GridArray { t_rows : Z; t_cols : Z; t_tab : list (list Z) }.

(** lines 19-40, gen_factor_table(p, alpha).  [r] stands for int(round(alpha*p)).  Writing the
    text in front of include/tiling.h is left out. *)
Definition gen_factor_table (isq : Z -> Z) (p r : Z) : option grid_array :=
  let p_min := Z.max 1 r in
  let ns := py_range p_min (p + 1) 1 in
  match all_rows isq p ns with
  | Some t => Some (GridArray (Z.of_nat (length ns)) p (rev t))
  | None => None
  end.

(** grid_dims[i][j] of the compiled table; [None] outside the declared array *)
Definition array_at (g : grid_array) (i j : Z) : option Z :=
  if (0 <=? i) && (i <? t_rows g) && (0 <=? j) && (j <? t_cols g) then
    match nth_error (t_tab g) (Z.to_nat i) with
    | Some row => nth_error row (Z.to_nat j)
    | None => None
    end
  else None.
