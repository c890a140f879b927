(** * Specification: tiles that do not suit the register tile. *)

From Coq Require Import ZArith.
From Verif Require Import ModelSizing SpecTop.
Open Scope Z_scope.

(** Rows of a full block: p cores have mcu rows each, or one core works on mcu rows at a
    time. *)
Definition block_rows (s : sched) (p mcu : Z) : Z := match s with MKN => mcu | _ => p * mcu end.

(** Rows handled as one piece: those of one core, or of the whole block in the N-first
    schedule. *)
Definition piece_rows (s : sched) (p mcu : Z) : Z := match s with NKM => p * mcu | _ => mcu end.

(** At least one full block is used, and its pieces are not whole numbers of register tiles. *)
Definition misfit (s : sched) (p m_r n_r M N mcu ncu : Z) : Prop :=
  block_rows s p mcu <= M /\ ~ (m_r | piece_rows s p mcu) \/ ncu <= N /\ ~ (n_r | ncu).

From Verif Require Import ModelUtil.

(** The points a search by the autotuner can visit from [start]: each is a proposal made at a
    point visited before. *)
Inductive explored (M K N pm pn : Z) (c : cntx) (start : Z * Z * Z) : Z * Z * Z -> Prop :=
  | Start : explored M K N pm pn c start start
  | Propose m_c k_c n_c dm dk dn : explored M K N pm pn c start (m_c, k_c, n_c) ->
      explored M K N pm pn c start (get_candidate M K N pm pn c m_c k_c n_c dm dk dn).

(** Rows and columns of C a core of the K-first schedule works on at a time, in whole register
    tiles: those of the tile asked for, or the whole matrix shared evenly by the cores when it
    is smaller than one block. *)
Definition share_rows (p m_r M mcu : Z) : Z :=
  if M <? p * mcu then ceil_div (ceil_div M m_r) p * m_r else mcu.
Definition share_columns (n_r N ncu : Z) : Z := if N <? ncu then round_up N n_r else ncu.

(** They fit the mcu*ncu elements the call allocates for them. *)
Definition share_fits (p m_r n_r M N mcu ncu : Z) : Prop :=
  share_rows p m_r M mcu * share_columns n_r N ncu <= mcu * ncu.
