(** * The functions of the header for small matrices, and schedule() with its flags. *)

From Coq Require Import ZArith List Bool Lia.
From Verif Require Import Lang Spec SpecTop SpecAlloc SpecTouch Witness ModelSizing ModelKernel ModelPack ModelSched
     ModelNoop Noop_facts.
Import ListNotations.
Open Scope Z_scope.

(** C79.  cake_gemm_small says it has multiplied the matrices, but has changed nothing. *)
Theorem C79_gemm_small_refuted :
  forall S (m : mem (elt S)), always (cake_gemm_small S) m (fun r m' => r = true /\ same_mem m m').
Proof. intros S m. exact (ret_same S true (fun r => r = true) m eq_refl). Qed.
Print Assumptions C79_gemm_small_refuted.

(** The three schedules for small matrices end and leave the memory as it was, whatever the plan,
    the number of cores and the schedule of the threads: nothing is multiplied. *)
Theorem C79_small_schedules :
  forall S p c x (m : mem (elt S)), mr c <> 0 -> nr c <> 0 ->
  always (schedule_KMN_small S p c x) m (fun _ m' => same_mem m m') /\
  always (schedule_MKN_small S p c x) m (fun _ m' => same_mem m m') /\
  always (schedule_NKM_small S p c x) m (fun _ m' => same_mem m m').
Proof.
  intros S p c x m Hm Hn. split; [now apply KMN_small_quiet|]. split; [now apply MKN_small_quiet|now apply NKM_small_quiet].
Qed.
Print Assumptions C79_small_schedules.

(** With a context whose register tile has no columns, such as one of zeros, they divide by zero. *)
Theorem C79_no_columns_refuted :
  forall S p c x (m : mem (elt S)), nr c = 0 -> 0 < Nb x -> 0 < Mb x -> 0 < Kb x -> 0 < p_l x -> 0 < p ->
  always_undefined (schedule_KMN_small S p c x) m /\
  always_undefined (schedule_MKN_small S p c x) m /\
  always_undefined (schedule_NKM_small S p c x) m.
Proof. exact small_zero. Qed.
Print Assumptions C79_no_columns_refuted.

(** schedule() does nothing either if one of its flags is set or the schedule is KMN, ... *)
Theorem C79_flags :
  forall S ar A_p B_p C_p M N K p c x s sparse small (m : mem (elt S)),
  s <> NA -> s = KMN \/ sparse = true \/ small = true ->
  always (schedule_flags S ar A_p B_p C_p M N K p c x s sparse small) m (fun _ m' => same_mem m m').
Proof. exact flags_quiet. Qed.
Print Assumptions C79_flags.

(** ... ends the program if it is none of the three, and otherwise runs the schedule of C02 and C03. *)
Theorem C79_dispatch :
  forall S ar A_p B_p C_p M N K p c x (m : mem (elt S)),
  (forall sparse small, always_exits (schedule_flags S ar A_p B_p C_p M N K p c x NA sparse small) m) /\
  schedule_flags S ar A_p B_p C_p M N K p c x MKN false false = schedule_MKN S ar A_p B_p C_p M N K p c x /\
  schedule_flags S ar A_p B_p C_p M N K p c x NKM false false = schedule_NKM S ar A_p B_p C_p M N K p c x /\
  forall s, schedule_flags S ar A_p B_p C_p M N K p c x s false false = schedule S ar A_p B_p C_p M N K p c x s.
Proof.
  intros. split; [intros; apply flags_exit|]. split; [reflexivity|]. split; [reflexivity|]. intros []; reflexivity.
Qed.
Print Assumptions C79_dispatch.

(** A plan of cake_sgemm for 12 x 33 x 9 on two cores, M-first, with blocks in all three dimensions *)
Example C79_applies :
  exists x c1, init_block_dims wF 12 33 9 2 wctx MKN 6 10 16 = CRet (x, c1) /\ mr c1 <> 0 /\ nr c1 <> 0 /\
    0 < Mb x /\ 0 < Kb x /\ 0 < Nb x /\ 0 < p_l x.
Proof. do 2 eexists. split; [vm_compute; reflexivity|]. repeat split; cbn; lia. Qed.
