(** * Properties of calls that run out of memory. *)

From Coq Require Import ZArith List Bool Lia.
From Verif Require Import Lang Spec SpecTop SpecOnline SpecTouch SpecAlloc ModelAlloc ModelSizing ModelKernel ModelPack ModelSched ModelTop Exec
     Exec_facts Witness Witness_facts Refute_facts Grid_call_facts CallAll_facts Alloc_facts AllocCall_facts AllocOut_facts.
Open Scope Z_scope.

(** C65.  The memory for the packed copies of A and B is requested, and the answer tested.  Of a
    call that is right when there is memory (whatever that means: any Q):
    - if a copy the call asks for is refused, every execution ends by exit(1) - none is
      undefined, none returns with a wrong or unfinished C;
    - if none is refused, the call is as right as before; in particular operands given already
      packed need no memory.
    The objects refused are in fl; they are not objects of the caller. *)
Theorem C65_no_memory_for_copies :
  forall S F ar q (nz : elt S -> bool) M N K p oc packedA packedB alpha beta s mcu kcu ncu m0 Q fl,
  let call := cake_sgemm S F ar q nz M N K p oc packedA packedB alpha beta s mcu kcu ncu in
  always call m0 Q -> only_copies fl -> (forall b, fl b = true -> live m0 b = None) ->
  ((packedA = false /\ fl (BufAp 0) = true) \/ (packedB = false /\ fl BufBp = true) ->
     always_exits (out_of_memory fl call) m0) /\
  ((packedA = true \/ fl (BufAp 0) = false) -> (packedB = true \/ fl BufBp = false) ->
     always (out_of_memory fl call) m0 Q).
Proof.
  intros S F ar q nz M N K p oc pa pb alpha beta s mcu kcu ncu m0 Q fl call HA Hfl HL. split.
  - intros H. apply (oom_always_exits fl call m0 Q HA); auto; [now apply sgemm_tested|now apply sgemm_exit].
  - intros HA' HB'. unfold call. rewrite sgemm_same; auto.
Qed.
Print Assumptions C65_no_memory_for_copies.

(** The same for the other entry points.  cake_sgemm_online has one copy of A per core. *)
Theorem C65_no_memory_online :
  forall S so F ar q M N K p oc mcu kcu ncu (m0 : mem (elt S)) Q fl,
  let call := cake_sgemm_online S so F ar q M N K p oc mcu kcu ncu in
  always call m0 Q -> only_copies fl -> (forall b, fl b = true -> live m0 b = None) ->
  ((exists i, 0 <= i < p /\ fl (BufAp i) = true) \/ fl BufBp = true -> always_exits (out_of_memory fl call) m0) /\
  ((forall i, 0 <= i < p -> fl (BufAp i) = false) -> fl BufBp = false -> always (out_of_memory fl call) m0 Q).
Proof.
  intros S so F ar q M N K p oc mcu kcu ncu m0 Q fl call HA Hfl HL. split.
  - intros H. apply (oom_always_exits fl call m0 Q HA); auto; [now apply online_tested|now apply online_exit].
  - intros HA' HB'. unfold call. rewrite online_same; auto.
Qed.
Print Assumptions C65_no_memory_online.

Theorem C65_no_memory_2d :
  forall S F ar q rows M N K p oc mcu kcu ncu (m0 : mem (elt S)) Q fl,
  let call := cake_sgemm_2d S F ar q rows M N K p oc mcu kcu ncu in
  always call m0 Q -> only_copies fl -> (forall b, fl b = true -> live m0 b = None) ->
  (fl (BufAp 0) = true \/ fl BufBp = true -> always_exits (out_of_memory fl call) m0) /\
  (fl (BufAp 0) = false -> fl BufBp = false -> always (out_of_memory fl call) m0 Q).
Proof.
  intros S F ar q rows M N K p oc mcu kcu ncu m0 Q fl call HA Hfl HL. split.
  - intros H. apply (oom_always_exits fl call m0 Q HA); auto; [now apply g2_tested|now apply g2_exit].
  - intros HA' HB'. unfold call. rewrite g2_same; auto.
Qed.
Print Assumptions C65_no_memory_2d.

Theorem C65_no_memory_2d_small :
  forall S F ar q rows M N K p oc (m0 : mem (elt S)) Q fl,
  let call := cake_sgemm_2d_small S F ar q rows M N K p oc in
  always call m0 Q -> only_copies fl -> (forall b, fl b = true -> live m0 b = None) ->
  (fl (BufAp 0) = true \/ fl BufBp = true -> always_exits (out_of_memory fl call) m0) /\
  (fl (BufAp 0) = false -> fl BufBp = false -> always (out_of_memory fl call) m0 Q).
Proof.
  intros S F ar q rows M N K p oc m0 Q fl call HA Hfl HL. split.
  - intros H. apply (oom_always_exits fl call m0 Q HA); auto; [now apply small_tested|now apply small_exit].
  - intros HA' HB'. unfold call. rewrite small_same; auto.
Qed.
Print Assumptions C65_no_memory_2d_small.

(** A call of each that computes the product when there is memory, and what happens when the
    copy of B, or the copy of A, is refused. *)
Definition noB (b : buf) : bool := match b with BufBp => true | _ => false end.
Definition noA (b : buf) : bool := match b with BufAp _ => true | _ => false end.
Definition gone {V R} (o : outcome V R) : bool := match o with Exited => true | _ => false end.

Example C65_copies_applies :
  only_copies noB /\ only_copies noA /\ (forall b, noB b = true -> live (wmem 13 33 5) b = None) /\
  (forall b, noA b = true -> live (wmem 13 33 5) b = None) /\
  legal wF haswell KMN wctx 13 33 5 2 6 2 16 /\
  caller (wmem 13 33 5) 13 33 5 (fun i k => wA (i * 5 + k)) (fun k j => wB (k * 33 + j)) /\
  gone (pseqexec (out_of_memory noB (wrun 1 0 KMN 13 33 5 2 6 2 16)) (wmem 13 33 5)) = true /\
  gone (pseqexec (out_of_memory noA (cake_sgemm_online Zs false wF haswell wctx 36 32 5 2 (Some wctx) 6 2 16)) (wmem 36 32 5)) = true /\
  gone (pseqexec (out_of_memory noB (cake_sgemm_2d Zs wFr haswell wctx 4 36 48 5 4 (Some wctx) 6 2 16)) (wmem 36 48 5)) = true /\
  gone (pseqexec (out_of_memory noA (cake_sgemm_2d_small Zs wFr haswell wctx 4 18 48 5 4 (Some wctx))) (wmem 18 48 5)) = true.
Proof.
  split; [intros [ | | |i| |i|i] H; discriminate H || auto|].
  split; [intros [ | | |i| |i|i] H; discriminate H || (right; now exists i)|].
  split; [intros [ | | |i| |i|i] H; discriminate H || reflexivity|].
  split; [intros [ | | |i| |i|i] H; discriminate H || reflexivity|].
  split; [apply w_legal; reflexivity || discriminate|split; [apply w_caller|]].
  vm_compute. auto.
Qed.

(** M-first and N-first with beta <> 0 request the packed C the same way, tested. *)
Theorem C65_no_memory_for_C :
  forall S F ar q (nz : elt S -> bool) M N K p c packedA packedB alpha beta s mcu kcu ncu m0 Q fl,
  let call := cake_sgemm S F ar q nz M N K p (Some c) packedA packedB alpha beta s mcu kcu ncu in
  legal F ar s c M N K p mcu kcu ncu -> s = MKN \/ s = NKM -> nz beta = true ->
  always call m0 Q -> (forall i, fl (BufX i) = false) -> (forall b, fl b = true -> live m0 b = None) ->
  fl (BufCp 0) = true -> always_exits (out_of_memory fl call) m0.
Proof. intros. eapply no_aligned_accumulator; eauto. Qed.
Print Assumptions C65_no_memory_for_C.

(** But the accumulators of the K-first schedule, and the packed C of the others when beta = 0,
    are requested by calloc without a test: "no call is undefined for lack of memory" does not
    hold.  If the (first) accumulator is refused, every call of positive sizes is undefined in
    every execution - it does not end by exit, nor return. *)
Theorem C65_no_memory_for_accumulator :
  forall S F ar q (nz : elt S -> bool) M N K p c packedA packedB alpha beta s mcu kcu ncu m0 fl,
  legal F ar s c M N K p mcu kcu ncu -> 0 < M -> 0 < N -> 0 < K -> s = KMN \/ nz beta = false ->
  (forall b, fl b = true -> exists i, b = BufCp i) -> live m0 (BufCp 0) = None -> fl (BufCp 0) = true ->
  always_undefined (out_of_memory fl
    (cake_sgemm S F ar q nz M N K p (Some c) packedA packedB alpha beta s mcu kcu ncu)) m0.
Proof. intros. now apply no_accumulator. Qed.
Print Assumptions C65_no_memory_for_accumulator.

Definition noC (b : buf) : bool := match b with BufCp i => i =? 0 | _ => false end.
Definition wrong {V R} (o : outcome V R) : bool := match o with Undef => true | _ => false end.

Example C65_C_applies :
  legal wF haswell MKN wctx 13 32 5 2 6 2 16 /\ legal wF haswell KMN wctx 13 33 5 2 6 2 16 /\
  (forall b, noC b = true -> exists i, b = BufCp i) /\ (forall b, noC b = true -> live (wmem 13 33 5) b = None) /\
  gone (pseqexec (out_of_memory noC (wrun 1 1 MKN 13 32 5 2 6 2 16)) (wmem 13 32 5)) = true /\
  wrong (pseqexec (out_of_memory noC (wrun 1 0 MKN 13 32 5 2 6 2 16)) (wmem 13 32 5)) = true /\
  wrong (pseqexec (out_of_memory noC (wrun 1 0 NKM 13 32 5 2 6 2 16)) (wmem 13 32 5)) = true /\
  wrong (pseqexec (out_of_memory noC (wrun 1 0 KMN 13 33 5 2 6 2 16)) (wmem 13 33 5)) = true.
Proof.
  split; [apply w_legal; reflexivity || discriminate|].
  split; [apply w_legal; reflexivity || discriminate|].
  split; [intros [ | | |i| |i|i] H; discriminate H || (now exists i)|].
  split; [intros [ | | |i| |i|i] H; discriminate H || reflexivity|].
  vm_compute. auto.
Qed.
