(** * Specification of block sizing. *)

From Coq Require Import ZArith List Bool.
From Verif Require Import ModelSizing.
Open Scope Z_scope.

(** One dimension of the iteration space, cut into blocks and each block into shares of
    cores: block [b] starts at index b*step, the share of core [c] starts c*cstep(b)
    further on. *)
Record dimension : Type := Dim {
  d_len : Z;                (* the indices are 0 .. d_len-1 *)
  d_blocks : Z;
  d_step : Z;
  d_cores : Z -> Z;         (* cores working on a block *)
  d_cstep : Z -> Z;
  d_share : Z -> Z -> Z }.  (* size of a core's share of a block *)

(** Index [i] is the [o]-th of the share of core [c] in block [b]. *)
Definition at_place (d : dimension) (i b c o : Z) : Prop :=
  0 <= b < d_blocks d /\ 0 <= c < d_cores d b /\ 0 <= o < d_share d b c /\
  i = b * d_step d + c * d_cstep d b + o.

(** Every index has exactly one place, no place lies outside, and every core that takes
    part in a block has something to do. *)
Definition exact_cover (p : Z) (d : dimension) : Prop :=
  (forall i, 0 <= i < d_len d -> exists b c o, at_place d i b c o) /\
  (forall i b c o, at_place d i b c o -> 0 <= i < d_len d) /\
  (forall i b c o b' c' o', at_place d i b c o -> at_place d i b' c' o' -> b = b' /\ c = c' /\ o = o') /\
  (forall b, 0 <= b < d_blocks d -> 1 <= d_cores d b <= p) /\
  (forall b c, 0 <= b < d_blocks d -> 0 <= c < d_cores d b -> 0 < d_share d b c).

(** Block [b] of [nb] is the padded last one. *)
Definition padded (b nb pad : Z) : bool := (b =? nb - 1) && negb (pad =? 0).

(** The three dimensions as the fields of the sizing structure describe them. *)
Definition rows (p : Z) (x : blk_dims) : dimension :=
  let last b := padded b (Mb x) (m_pad x) in
  match sch x with
  | KMN => Dim (M_padded x) (Mb x) (p * m_c x) (fun b => if last b then p_l x else p)
               (fun b => if last b then m_c1 x else m_c x)
               (fun b c => if last b then (if c =? p_l x - 1 then m_c1_last_core x else m_c1 x) else m_c x)
  | MKN => Dim (M_padded x) (Mb x) (m_c x) (fun _ => 1) (fun _ => 0) (fun b _ => if last b then m_c1 x else m_c x)
  | _ => Dim (M_padded x) (Mb x) (p * m_c x) (fun _ => 1) (fun _ => 0) (fun b _ => if last b then m_c1 x else p * m_c x)
  end.

Definition columns (x : blk_dims) : dimension :=
  Dim (N_padded x) (Nb x) (n_c x) (fun _ => 1) (fun _ => 0)
      (fun b _ => if padded b (Nb x) (n_pad x) then n_c1 x else n_c x).

Definition depth (K p : Z) (x : blk_dims) : dimension :=
  let last b := padded b (Kb x) (k_pad x) in
  match sch x with
  | KMN => Dim K (Kb x) (k_c x) (fun _ => 1) (fun _ => 0) (fun b _ => if last b then k_c1 x else k_c x)
  | _ => Dim K (Kb x) (p * k_c x) (fun b => if last b then p_l x else p)
             (fun b => if last b then k_c1 x else k_c x)
             (fun b c => if last b then (if c =? p_l x - 1 then k_c1_last_core x else k_c1 x) else k_c x)
  end.
