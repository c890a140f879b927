(** * C08, C12, C13: what every call of every multiplication function leaves untouched.

    No legality is assumed: whatever the sizes, tiles, schedule, flags, core count and memory, if the
    call comes to its end then the following holds. *)

From Coq Require Import ZArith List Bool Lia.
From Verif Require Import Lang Spec SpecTop SpecEvery ModelSizing ModelTop Exec Exec_facts Witness Witness_facts
     SpecOnline Refute_facts Grid_call_facts EveryCall_facts.
Open Scope Z_scope.

(** C12.  A, B and every other object of the caller but C keep their contents. *)
Theorem C12_every_call :
  forall S oc R (call : prog (elt S) R), gemm_call S oc R call ->
  forall m r m', pexec call m (Done r m') ->
  (forall i, dat m' BufA i = dat m BufA i) /\ (forall i, dat m' BufB i = dat m BufB i) /\
  (forall b i, ~ own b -> b <> BufC -> dat m' b i = dat m b i).
Proof. exact every_inputs. Qed.
Print Assumptions C12_every_call.

(** C13.  With a context of the caller the live objects after the call are those before. *)
Theorem C13_every_call :
  forall S c R (call : prog (elt S) R), gemm_call S (Some c) R call ->
  forall m r m', pexec call m (Done r m') -> forall b, live m' b = live m b.
Proof. exact every_live. Qed.
Print Assumptions C13_every_call.

(** With a NULL context exactly one new object stays: the context made by the call. *)
Theorem C13_every_null_call :
  forall S R (call : prog (elt S) R), gemm_call S None R call ->
  forall m r m', pexec call m (Done r m') ->
  live m (BufX 1) = None /\ live m' (BufX 1) <> None /\ forall b, b <> BufX 1 -> live m' b = live m b.
Proof. exact every_null. Qed.
Print Assumptions C13_every_null_call.

(** Calls that come to their end: M-first with beta and a NULL context; a plain A passed off as packed;
    and the other four functions. *)
Definition ends {V R} (P : prog V R) (m : mem V) : Prop := exists r m', pexec P m (Done r m').

Example C12_C13_apply :
  ends (cake_sgemm Zs wF haswell wctx Znz 6 16 5 1 None false false 1 1 MKN 6 5 16) (wmemC 6 16 5) /\
  ends (cake_sgemm Zs wF haswell wctx Znz 13 32 5 2 (Some wctx) true false 1 0 KMN 6 2 16) (wmemC 24 32 5) /\
  ends (cake_sgemm_2d Zs wFr haswell wctx 4 12 32 5 4 (Some wctx) 6 2 16) (wmem 12 32 5) /\
  ends (cake_sgemm_2d_small Zs wFr haswell wctx 4 18 48 5 4 (Some wctx)) (wmem 18 48 5) /\
  ends (cake_sgemm_online Zs false wF haswell wctx 36 32 5 2 (Some wctx) 6 2 16) (wmem 36 32 5) /\
  ends (cake_sgemm_test Zs wF haswell wctx Znz 6 16 1 1 (Some wctx) false false 1 1) (wmemC 6 16 1).
Proof.
  repeat split.
  all: match goal with |- ends ?P ?m => unfold ends; destruct (pseqexec P m) as [r m'| |] eqn:E;
         [exists r, m'; rewrite <- E; apply pseqexec_sound|exfalso|exfalso] end.
  all: apply (f_equal (fun o => match o with Done _ _ => true | _ => false end)) in E; vm_compute in E; discriminate E.
Qed.

(** C08.  For every call, legal or not: unless some interleaving is undefined (a data race is), all
    interleavings end the same way and leave the same memory.  In particular running the iterations one
    after the other does. *)
Theorem C08_every_call :
  forall S oc R (call : prog (elt S) R), gemm_call S oc R call ->
  forall m, ~ pexec call m Undef ->
  forall o1 o2, pexec call m o1 -> pexec call m o2 ->
  (exists r m1 m2, o1 = Done r m1 /\ o2 = Done r m2 /\ same_mem m1 m2) \/ (o1 = Exited /\ o2 = Exited).
Proof. exact every_det. Qed.
Print Assumptions C08_every_call.

(** The legal calls not covered by [C08_deterministic], [C05_online_deterministic] and
    [C06_grid_deterministic]: M-first and N-first with beta, and the small grid. *)
Theorem C08_M_first_beta :
  forall S F ar q (nz : elt S -> bool) M N K p c alpha beta mcu kcu ncu t,
  legal F ar MKN c M N K p mcu kcu ncu -> nz beta = true -> tail_ok c K p mcu kcu ncu t ->
  forall A B C0 m0, caller m0 M N K A B -> B_rim m0 N K (nr c) t -> holds m0 BufC M N C0 ->
  forall o1 o2,
  pexec (cake_sgemm S F ar q nz M N K p (Some c) false false alpha beta MKN mcu kcu ncu) m0 o1 ->
  pexec (cake_sgemm S F ar q nz M N K p (Some c) false false alpha beta MKN mcu kcu ncu) m0 o2 ->
  exists r m1 m2, o1 = Done r m1 /\ o2 = Done r m2 /\ same_mem m1 m2.
Proof. exact M_beta_det. Qed.
Print Assumptions C08_M_first_beta.

Theorem C08_N_first_beta :
  forall S F ar q (nz : elt S -> bool) M N K p c alpha beta mcu kcu ncu x c1,
  legal F ar NKM c M N K p mcu kcu ncu -> nz beta = true ->
  init_block_dims F M N K p c NKM mcu kcu ncu = CRet (x, c1) ->
  n_first_C_fits M N p (mr c) (nr c) (m_c x) (n_c x) ->
  forall A B C0 m0, caller m0 M N K A B -> holds m0 BufC M N C0 -> B_rim m0 N K (nr c) (k_tail K p (k_c x)) ->
  forall o1 o2,
  pexec (cake_sgemm S F ar q nz M N K p (Some c) false false alpha beta NKM mcu kcu ncu) m0 o1 ->
  pexec (cake_sgemm S F ar q nz M N K p (Some c) false false alpha beta NKM mcu kcu ncu) m0 o2 ->
  exists r m1 m2, o1 = Done r m1 /\ o2 = Done r m2 /\ same_mem m1 m2.
Proof. exact N_beta_det. Qed.
Print Assumptions C08_N_first_beta.

Theorem C08_small_grid :
  forall S F ar q rows M N K p pn c, legal_small F ar rows c M N K p pn ->
  forall A B m0, caller m0 M N K A B -> A_rim m0 M K (mr c) -> B_rim m0 N K (nr c) 0 ->
  forall o1 o2,
  pexec (cake_sgemm_2d_small S F ar q rows M N K p (Some c)) m0 o1 ->
  pexec (cake_sgemm_2d_small S F ar q rows M N K p (Some c)) m0 o2 ->
  exists r m1 m2, o1 = Done r m1 /\ o2 = Done r m2 /\ same_mem m1 m2.
Proof. exact small_grid_det. Qed.
Print Assumptions C08_small_grid.

(** Their hypotheses are met by the calls of [C15_applies], [C16_applies] and [C07_applies]. *)
