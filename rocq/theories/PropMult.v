(** * Properties of cake_sgemm: correctness, memory safety, races, leaks.

    Each theorem is the statement of a property of /verif/properties.jsonl (its number is
    in its name).  The words used are defined in Spec.v and SpecTop.v; the program is
    [cake_sgemm] of ModelTop.v.  Beside each theorem an [Example] shows a concrete call
    that meets its hypotheses. *)

From Coq Require Import ZArith List Bool Lia.
From Verif Require Import Lang Spec SpecTop ModelSizing ModelTop Exec Witness Witness_facts SpecTouch NfOver_facts
     Mult_facts Refute_facts Misc_facts Alpha_facts.
Open Scope Z_scope.

(** C01.  K-first schedule: every execution ends normally, and element (i,j) of C is the
    accumulation of A[i][k]*B[k][j] over every k exactly once. *)
Theorem C01_K_first_product :
  forall S F ar q (nz : elt S -> bool) M N K p c alpha beta mcu kcu ncu,
  legal F ar KMN c M N K p mcu kcu ncu ->
  exists ord c', orders K ord /\ same_ctx c c' /\
    forall A B m0, caller m0 M N K A B ->
      always (cake_sgemm S F ar q nz M N K p (Some c) false false alpha beta KMN mcu kcu ncu) m0
        (fun r m' => r = c' /\ holds m' BufC M N (product S A B ord) /\ only_C_changed m0 m' M N).
Proof. intros; eapply K_first_ok; eauto. Qed.
Print Assumptions C01_K_first_product.

Example C01_applies :
  legal wF haswell KMN wctx 13 33 5 2 6 2 16 /\
  caller (wmem 13 33 5) 13 33 5 (fun i k => wA (i * 5 + k)) (fun k j => wB (k * 33 + j)) /\
  outC (pseqexec (wrun 1 0 KMN 13 33 5 2 6 2 16) (wmem 13 33 5)) (12 * 33 + 32) = Some 61455.
Proof. split; [apply w_legal; reflexivity || discriminate|split; [apply w_caller|vm_compute; reflexivity]]. Qed.

(** C02, C03.  M-first and N-first schedules, beta = 0. *)
Theorem C02_M_first_product :
  forall S F ar q (nz : elt S -> bool) M N K p c alpha beta mcu kcu ncu t,
  legal F ar MKN c M N K p mcu kcu ncu -> nz beta = false -> tail_ok c K p mcu kcu ncu t ->
  exists ord c', orders K ord /\ same_ctx c c' /\
    forall A B m0, caller m0 M N K A B -> B_rim m0 N K (nr c) t ->
      always (cake_sgemm S F ar q nz M N K p (Some c) false false alpha beta MKN mcu kcu ncu) m0
        (fun r m' => r = c' /\ holds m' BufC M N (product S A B ord) /\ only_C_changed m0 m' M N).
Proof.
  intros S F ar q nz M N K p c alpha beta mcu kcu ncu t L Hb Ht.
  destruct (plain_ok S F ar q nz M N K p c alpha beta MKN mcu kcu ncu L (Some c) t eq_refl (or_intror Hb) Ht) as (ord & c' & H1 & H2 & H3).
  exists ord, c'. split; [exact H1|split; [exact H2|]]. intros A B m0 Hc Hr. exact (H3 A B m0 Hc (fun _ => Hr)).
Qed.
Print Assumptions C02_M_first_product.

Example C02_applies :
  legal wF haswell MKN wctx 13 32 5 2 6 2 16 /\ tail_ok wctx 5 2 6 2 16 0 /\
  caller (wmem 13 32 5) 13 32 5 (fun i k => wA (i * 5 + k)) (fun k j => wB (k * 32 + j)) /\
  B_rim (wmem 13 32 5) 32 5 16 0 /\
  outC (pseqexec (wrun 1 0 MKN 13 32 5 2 6 2 16) (wmem 13 32 5)) (12 * 32 + 31) = Some 59545.
Proof.
  split; [apply w_legal; reflexivity || discriminate|split; [left; reflexivity|split; [apply w_caller|split]]].
  - apply w_rim; [reflexivity|exists 2; reflexivity].
  - vm_compute; reflexivity.
Qed.

Theorem C03_N_first_product :
  forall S F ar q (nz : elt S -> bool) M N K p c alpha beta mcu kcu ncu t,
  legal F ar NKM c M N K p mcu kcu ncu -> nz beta = false -> tail_ok c K p mcu kcu ncu t ->
  exists ord c', orders K ord /\ same_ctx c c' /\
    forall A B m0, caller m0 M N K A B -> B_rim m0 N K (nr c) t ->
      always (cake_sgemm S F ar q nz M N K p (Some c) false false alpha beta NKM mcu kcu ncu) m0
        (fun r m' => r = c' /\ holds m' BufC M N (product S A B ord) /\ only_C_changed m0 m' M N).
Proof.
  intros S F ar q nz M N K p c alpha beta mcu kcu ncu t L Hb Ht.
  destruct (plain_ok S F ar q nz M N K p c alpha beta NKM mcu kcu ncu L (Some c) t eq_refl (or_intror Hb) Ht) as (ord & c' & H1 & H2 & H3).
  exists ord, c'. split; [exact H1|split; [exact H2|]]. intros A B m0 Hc Hr. exact (H3 A B m0 Hc (fun _ => Hr)).
Qed.
Print Assumptions C03_N_first_product.

Example C03_applies :
  legal wF haswell NKM wctx 13 32 5 2 6 2 16 /\ tail_ok wctx 5 2 6 2 16 (k_tail 5 2 2) /\ k_tail 5 2 2 = 1 /\
  caller (wmem 13 32 5) 13 32 5 (fun i k => wA (i * 5 + k)) (fun k j => wB (k * 32 + j)) /\
  B_rim (wmem 13 32 5) 32 5 16 1 /\
  outC (pseqexec (wrun 1 0 NKM 13 32 5 2 6 2 16) (wmem 13 32 5)) (12 * 32 + 31) = Some 59545.
Proof.
  split; [apply w_legal; reflexivity || discriminate|split; [right; split; [apply w_user|]; reflexivity|]].
  split; [reflexivity|split; [apply w_caller|split]].
  - apply w_rim; [reflexivity|exists 2; reflexivity].
  - vm_compute; reflexivity.
Qed.

(** C04.  When sums can be reordered, C is the mathematical product for every schedule
    (also the automatically chosen one), thread count and tile size ... *)
Theorem C04_mathematical_product :
  forall S F ar q (nz : elt S -> bool) M N K p c alpha beta s mcu kcu ncu t add mul A B m0,
  sums S add mul -> legal F ar s c M N K p mcu kcu ncu -> s = KMN \/ nz beta = false -> tail_ok c K p mcu kcu ncu t ->
  caller m0 M N K A B -> (s <> KMN -> B_rim m0 N K (nr c) t) ->
  always (cake_sgemm S F ar q nz M N K p (Some c) false false alpha beta s mcu kcu ncu) m0
    (fun _ m' => holds m' BufC M N (matmul S add mul A B K)).
Proof. exact semiring_ok. Qed.
Print Assumptions C04_mathematical_product.

(** ... so two calls that differ in all of these leave the same C. *)
Theorem C04_configuration_independent :
  forall S F1 F2 ar1 ar2 q1 q2 (nz : elt S -> bool) M N K p1 p2 c1 c2 alpha1 beta1 alpha2 beta2 s1 s2
         mcu1 kcu1 ncu1 mcu2 kcu2 ncu2 t1 t2 add mul A B m1 m2 o1 o2,
  sums S add mul -> s1 = KMN \/ nz beta1 = false -> s2 = KMN \/ nz beta2 = false ->
  legal F1 ar1 s1 c1 M N K p1 mcu1 kcu1 ncu1 -> tail_ok c1 K p1 mcu1 kcu1 ncu1 t1 ->
  legal F2 ar2 s2 c2 M N K p2 mcu2 kcu2 ncu2 -> tail_ok c2 K p2 mcu2 kcu2 ncu2 t2 ->
  caller m1 M N K A B -> (s1 <> KMN -> B_rim m1 N K (nr c1) t1) ->
  caller m2 M N K A B -> (s2 <> KMN -> B_rim m2 N K (nr c2) t2) ->
  pexec (cake_sgemm S F1 ar1 q1 nz M N K p1 (Some c1) false false alpha1 beta1 s1 mcu1 kcu1 ncu1) m1 o1 ->
  pexec (cake_sgemm S F2 ar2 q2 nz M N K p2 (Some c2) false false alpha2 beta2 s2 mcu2 kcu2 ncu2) m2 o2 ->
  exists r1 r2 m1' m2', o1 = Done r1 m1' /\ o2 = Done r2 m2' /\
    forall i, 0 <= i < M * N -> dat m1' BufC i = dat m2' BufC i.
Proof. exact calls_agree. Qed.
Print Assumptions C04_configuration_independent.

Example C04_applies :
  sums Zs Z.add Z.mul /\
  legal wF haswell NA wctx 13 32 5 2 0 0 0 /\ legal wF haswell NKM wctx 13 32 5 3 6 2 16 /\
  matmul Zs Z.add Z.mul (fun i k => wA (i * 5 + k)) (fun k j => wB (k * 32 + j)) 5 12 31 = 59545 /\
  outC (pseqexec (wrun 1 0 NKM 13 32 5 3 6 2 16) (wmem 13 32 5)) (12 * 32 + 31) = Some 59545.
Proof.
  split; [split; [reflexivity|split; [exact Z.add_comm|exact Z.add_assoc]]|].
  split; [apply w_legal_auto; reflexivity || discriminate|split; [apply w_legal; reflexivity || discriminate|]].
  split; vm_compute; reflexivity.
Qed.

(** C08.  Whatever the interleaving of the iterations of the parallel loops, there is no
    data race (a race would be an [Undef] outcome) and the final memory is the same. *)
Theorem C08_deterministic :
  forall S F ar q (nz : elt S -> bool) M N K p c alpha beta s mcu kcu ncu t A B m0,
  legal F ar s c M N K p mcu kcu ncu -> tail_ok c K p mcu kcu ncu t ->
  caller m0 M N K A B -> (s <> KMN -> B_rim m0 N K (nr c) t) -> s = KMN \/ nz beta = false ->
  forall o1 o2,
  pexec (cake_sgemm S F ar q nz M N K p (Some c) false false alpha beta s mcu kcu ncu) m0 o1 ->
  pexec (cake_sgemm S F ar q nz M N K p (Some c) false false alpha beta s mcu kcu ncu) m0 o2 ->
  exists r m1 m2, o1 = Done r m1 /\ o2 = Done r m2 /\ same_mem m1 m2.
Proof. exact any_det. Qed.
Print Assumptions C08_deterministic.

Example C08_applies :
  legal wF haswell KMN wctx 13 33 5 2 6 2 16 /\ tail_ok wctx 5 2 6 2 16 0 /\
  caller (wmem 13 33 5) 13 33 5 (fun i k => wA (i * 5 + k)) (fun k j => wB (k * 33 + j)).
Proof. split; [apply w_legal; reflexivity || discriminate|split; [left; reflexivity|apply w_caller]]. Qed.

(** C09, C36.  K-first: with operands of exactly the documented sizes no execution reads
    or writes out of bounds, reads an uninitialised float, makes a misaligned vector load,
    races or frees twice: there is an execution and every execution ends normally. *)
Theorem C09_K_first_memory_safe :
  forall S F ar q (nz : elt S -> bool) M N K p c alpha beta mcu kcu ncu A B m0,
  legal F ar KMN c M N K p mcu kcu ncu -> caller m0 M N K A B ->
  (exists o, pexec (cake_sgemm S F ar q nz M N K p (Some c) false false alpha beta KMN mcu kcu ncu) m0 o) /\
  forall o, pexec (cake_sgemm S F ar q nz M N K p (Some c) false false alpha beta KMN mcu kcu ncu) m0 o ->
    exists r m', o = Done r m'.
Proof.
  intros S F ar q nz M N K p c alpha beta mcu kcu ncu A B m0 L Hc.
  exact (any_safe S F ar q nz M N K p c alpha beta KMN mcu kcu ncu 0 A B m0 L (or_introl eq_refl) Hc
           (fun H => match H eq_refl with end) (or_introl eq_refl)).
Qed.
Print Assumptions C09_K_first_memory_safe.

Example C09_applies :
  legal wF haswell KMN wctx 7 17 3 4 0 0 0 /\
  caller (wmem 7 17 3) 7 17 3 (fun i k => wA (i * 3 + k)) (fun k j => wB (k * 17 + j)).
Proof. split; [apply w_legal_auto; reflexivity || discriminate|apply w_caller]. Qed.

(** C10.  M-first and N-first: safe when the elements of B past column N that the packing
    touches exist; in particular, with operands of exactly the documented sizes, when N is
    a multiple of n_r. *)
Theorem C10_MN_first_memory_safe :
  forall S F ar q (nz : elt S -> bool) M N K p c alpha beta s mcu kcu ncu t A B m0,
  s = MKN \/ s = NKM -> legal F ar s c M N K p mcu kcu ncu -> nz beta = false ->
  tail_ok c K p mcu kcu ncu t -> caller m0 M N K A B ->
  (nr c | N) \/ B_rim m0 N K (nr c) t ->
  (exists o, pexec (cake_sgemm S F ar q nz M N K p (Some c) false false alpha beta s mcu kcu ncu) m0 o) /\
  forall o, pexec (cake_sgemm S F ar q nz M N K p (Some c) false false alpha beta s mcu kcu ncu) m0 o ->
    exists r m', o = Done r m'.
Proof. exact MN_safe. Qed.
Print Assumptions C10_MN_first_memory_safe.

Example C10_applies :
  legal wF haswell MKN wctx 7 32 3 4 0 0 0 /\ (nr wctx | 32) /\
  caller (wmem 7 32 3) 7 32 3 (fun i k => wA (i * 3 + k)) (fun k j => wB (k * 32 + j)).
Proof. split; [apply w_legal_auto; reflexivity || discriminate|split; [exists 2; reflexivity|apply w_caller]]. Qed.

(** Without that the claim is false: for a 1 x 17 result the packing of B reads past its
    end, whichever of the two schedules is used. *)
Theorem C10_MN_first_memory_safe_refuted :
  forall s, s = MKN \/ s = NKM ->
  exists M N K p A B m0, legal wF haswell s wctx M N K p 6 1 16 /\ caller m0 M N K A B /\
    pexec (cake_sgemm Zs wF haswell wctx Znz M N K p (Some wctx) false false 1 0 s 6 1 16) m0 Undef.
Proof. exact MN_unsafe. Qed.
Print Assumptions C10_MN_first_memory_safe_refuted.

(** C12.  A and B are unchanged, of C exactly the M*N result elements change, and no other
    object of the caller changes. *)
Theorem C12_only_C_written :
  forall S F ar q (nz : elt S -> bool) M N K p c alpha beta s mcu kcu ncu t A B m0,
  legal F ar s c M N K p mcu kcu ncu -> tail_ok c K p mcu kcu ncu t ->
  caller m0 M N K A B -> (s <> KMN -> B_rim m0 N K (nr c) t) -> s = KMN \/ nz beta = false ->
  forall r m', pexec (cake_sgemm S F ar q nz M N K p (Some c) false false alpha beta s mcu kcu ncu) m0 (Done r m') ->
  (forall i, dat m' BufA i = dat m0 BufA i) /\ (forall i, dat m' BufB i = dat m0 BufB i) /\
  (forall i, ~ (0 <= i < M * N) -> dat m' BufC i = dat m0 BufC i) /\
  (forall b i, live m0 b <> None -> b <> BufC -> dat m' b i = dat m0 b i).
Proof. exact any_only_C. Qed.
Print Assumptions C12_only_C_written.

(** C13.  With a context of the caller the live objects after the call are those before. *)
Theorem C13_no_leak :
  forall S F ar q (nz : elt S -> bool) M N K p c alpha beta s mcu kcu ncu t A B m0,
  legal F ar s c M N K p mcu kcu ncu -> tail_ok c K p mcu kcu ncu t ->
  caller m0 M N K A B -> (s <> KMN -> B_rim m0 N K (nr c) t) -> s = KMN \/ nz beta = false ->
  forall r m', pexec (cake_sgemm S F ar q nz M N K p (Some c) false false alpha beta s mcu kcu ncu) m0 (Done r m') ->
  forall b, live m' b = live m0 b.
Proof. exact any_live. Qed.
Print Assumptions C13_no_leak.

(** With a NULL context exactly one object, the context made by the call, stays allocated. *)
Theorem C13_null_context_leaks_one :
  forall S F ar q (nz : elt S -> bool) M N K p c alpha beta s mcu kcu ncu t A B m0,
  legal F ar s c M N K p mcu kcu ncu -> tail_ok c K p mcu kcu ncu t ->
  caller m0 M N K A B -> (s <> KMN -> B_rim m0 N K (nr c) t) -> c = q -> s = KMN \/ nz beta = false ->
  always (cake_sgemm S F ar q nz M N K p None false false alpha beta s mcu kcu ncu) m0
    (fun r m' => live m' (BufX 1) <> None /\ live m0 (BufX 1) = None /\
                 forall b, b <> BufX 1 -> live m' b = live m0 b).
Proof. exact null_leaks. Qed.
Print Assumptions C13_null_context_leaks_one.

(** A call with a NULL context computes the product as well. *)
Theorem C01_null_context_product :
  forall S F ar q (nz : elt S -> bool) M N K p c alpha beta s mcu kcu ncu t A B m0,
  legal F ar s c M N K p mcu kcu ncu -> tail_ok c K p mcu kcu ncu t ->
  caller m0 M N K A B -> (s <> KMN -> B_rim m0 N K (nr c) t) -> c = q -> s = KMN \/ nz beta = false ->
  exists ord, orders K ord /\
  always (cake_sgemm S F ar q nz M N K p None false false alpha beta s mcu kcu ncu) m0
    (fun r m' => holds m' BufC M N (product S A B ord) /\
     (forall i, dat m' BufA i = dat m0 BufA i) /\ (forall i, dat m' BufB i = dat m0 BufB i)).
Proof. exact null_ok. Qed.
Print Assumptions C01_null_context_product.

(** C14.  C = alpha*A*B + beta*C is not what is computed: neither alpha nor (K-first) beta
    is used. *)
Theorem C14_alpha_beta_refuted :
  exists alpha M N K A B C0 m0, legal wF haswell KMN wctx M N K 1 6 1 16 /\
    caller m0 M N K A B /\ holds m0 BufC M N C0 /\
    (~ always (cake_sgemm Zs wF haswell wctx Znz M N K 1 (Some wctx) false false alpha 0 KMN 6 1 16) m0
        (fun _ m' => holds m' BufC M N (fun i j => alpha * matmul Zs Z.add Z.mul A B K i j + 0 * C0 i j))) /\
    (~ always (cake_sgemm Zs wF haswell wctx Znz M N K 1 (Some wctx) false false 1 1 KMN 6 1 16) m0
        (fun _ m' => holds m' BufC M N (fun i j => 1 * matmul Zs Z.add Z.mul A B K i j + 1 * C0 i j))).
Proof. exact alpha_beta_wrong. Qed.
Print Assumptions C14_alpha_beta_refuted.

(** alpha has no influence on any execution, whatever the other arguments. *)
Theorem C14_alpha_ignored :
  forall S F ar q (nz : elt S -> bool) M N K p oc pa pb alpha alpha' beta s mcu kcu ncu m o,
  pexec (cake_sgemm S F ar q nz M N K p oc pa pb alpha beta s mcu kcu ncu) m o <->
  pexec (cake_sgemm S F ar q nz M N K p oc pa pb alpha' beta s mcu kcu ncu) m o.
Proof. exact alpha_ignored. Qed.
Print Assumptions C14_alpha_ignored.

(** What is computed instead, for every alpha and beta, in arithmetic whose sums can be
    reordered: A*B; with M-first and beta <> 0, A*B + C. *)
Theorem C14_computed :
  forall S add mul, sums S add mul -> (forall a, add (zero S) a = a) ->
  forall F ar q (nz : elt S -> bool) M N K p c alpha beta s mcu kcu ncu t A B C0 m0,
  legal F ar s c M N K p mcu kcu ncu -> s = KMN \/ s = MKN \/ nz beta = false -> tail_ok c K p mcu kcu ncu t ->
  caller m0 M N K A B -> (s <> KMN -> B_rim m0 N K (nr c) t) -> holds m0 BufC M N C0 ->
  always (cake_sgemm S F ar q nz M N K p (Some c) false false alpha beta s mcu kcu ncu) m0
    (fun _ m' => holds m' BufC M N (fun i j =>
       let ab := matmul S add mul A B K i j in
       match s with KMN => ab | _ => if nz beta then add ab (C0 i j) else ab end) /\ only_C_changed m0 m' M N).
Proof. exact beta_result. Qed.
Print Assumptions C14_computed.

(** So C = alpha*A*B + beta*C is computed only where the two happen to be equal. *)
Theorem C14_alpha_beta_iff :
  forall S add mul, sums S add mul -> (forall a, add (zero S) a = a) ->
  forall F ar q (nz : elt S -> bool) M N K p c alpha beta s mcu kcu ncu t A B C0 m0,
  legal F ar s c M N K p mcu kcu ncu -> s = KMN \/ s = MKN \/ nz beta = false -> tail_ok c K p mcu kcu ncu t ->
  caller m0 M N K A B -> (s <> KMN -> B_rim m0 N K (nr c) t) -> holds m0 BufC M N C0 ->
  let ab i j := matmul S add mul A B K i j in
  (always (cake_sgemm S F ar q nz M N K p (Some c) false false alpha beta s mcu kcu ncu) m0
     (fun _ m' => holds m' BufC M N (fun i j => add (mul alpha (ab i j)) (mul beta (C0 i j)))) <->
   forall i j, 0 <= i < M -> 0 <= j < N -> add (mul alpha (ab i j)) (mul beta (C0 i j)) =
     match s with KMN => ab i j | _ => if nz beta then add (ab i j) (C0 i j) else ab i j end).
Proof. exact alpha_beta_iff. Qed.
Print Assumptions C14_alpha_beta_iff.

Example C14_applies :
  sums Zs Z.add Z.mul /\ (forall a, 0 + a = a) /\ legal wF haswell MKN wctx 13 32 5 2 6 2 16 /\
  caller (wmemC 13 32 5) 13 32 5 (fun i k => wA (i * 5 + k)) (fun k j => wB (k * 32 + j)) /\
  holds (wmemC 13 32 5) BufC 13 32 (fun i j => 100 + (i * 32 + j)) /\ B_rim (wmemC 13 32 5) 32 5 16 0.
Proof.
  split; [split; [reflexivity|split; intros; cbn; ring]|split; [reflexivity|]].
  split; [apply w_legal; reflexivity || discriminate|split; [apply wC_caller|split; [apply wC_holds|]]].
  apply w_rim; [reflexivity|exists 2; reflexivity].
Qed.

(** C15.  M-first with beta <> 0: C becomes C + A*B. *)
Theorem C15_M_first_accumulates :
  forall S F ar q (nz : elt S -> bool) M N K p c alpha beta mcu kcu ncu t,
  legal F ar MKN c M N K p mcu kcu ncu -> nz beta = true -> tail_ok c K p mcu kcu ncu t ->
  exists ord c', orders K ord /\ same_ctx c c' /\
    forall A B C0 m0, caller m0 M N K A B -> B_rim m0 N K (nr c) t -> holds m0 BufC M N C0 ->
      always (cake_sgemm S F ar q nz M N K p (Some c) false false alpha beta MKN mcu kcu ncu) m0
        (fun r m' => r = c' /\ holds m' BufC M N (product_plus S A B C0 ord) /\ only_C_changed m0 m' M N).
Proof. exact M_first_plus. Qed.
Print Assumptions C15_M_first_accumulates.

Example C15_applies :
  legal wF haswell MKN wctx 13 32 5 2 6 2 16 /\ Znz 1 = true /\
  caller (wmemC 13 32 5) 13 32 5 (fun i k => wA (i * 5 + k)) (fun k j => wB (k * 32 + j)) /\
  holds (wmemC 13 32 5) BufC 13 32 (fun i j => 100 + (i * 32 + j)) /\
  B_rim (wmemC 13 32 5) 32 5 16 0 /\
  outC (pseqexec (wrun 1 1 MKN 13 32 5 2 6 2 16) (wmemC 13 32 5)) (12 * 32 + 31) = Some (100 + (12 * 32 + 31) + 59545).
Proof.
  split; [apply w_legal; reflexivity || discriminate|split; [reflexivity|split; [apply wC_caller|split; [apply wC_holds|split]]]].
  - apply w_rim; [reflexivity|exists 2; reflexivity].
  - vm_compute; reflexivity.
Qed.

(** C16.  N-first with beta <> 0: the same when pack_C puts the blocks of C where the
    schedule looks for them (SpecTop.n_first_C_fits) ... *)
Theorem C16_N_first_accumulates :
  forall S F ar q (nz : elt S -> bool) M N K p c alpha beta mcu kcu ncu t,
  legal F ar NKM c M N K p mcu kcu ncu -> nz beta = true ->
  user_tiles c mcu kcu ncu -> n_first_C_fits M N p (mr c) (nr c) mcu ncu ->
  tail_ok c K p mcu kcu ncu t ->
  exists ord c', orders K ord /\ same_ctx c c' /\
    forall A B C0 m0, caller m0 M N K A B -> B_rim m0 N K (nr c) t -> holds m0 BufC M N C0 ->
      always (cake_sgemm S F ar q nz M N K p (Some c) false false alpha beta NKM mcu kcu ncu) m0
        (fun r m' => r = c' /\ holds m' BufC M N (product_plus S A B C0 ord) /\ only_C_changed m0 m' M N).
Proof. exact N_first_plus. Qed.
Print Assumptions C16_N_first_accumulates.

(** ... also with the tiles the library chooses ... *)
Theorem C16_N_first_accumulates_any_tiles :
  forall S F ar q (nz : elt S -> bool) M N K p c alpha beta mcu kcu ncu x c1,
  legal F ar NKM c M N K p mcu kcu ncu -> nz beta = true ->
  init_block_dims F M N K p c NKM mcu kcu ncu = CRet (x, c1) ->
  n_first_C_fits M N p (mr c) (nr c) (m_c x) (n_c x) ->
  exists ord, orders K ord /\ forall A B C0 m0, caller m0 M N K A B -> holds m0 BufC M N C0 ->
    B_rim m0 N K (nr c) (k_tail K p (k_c x)) ->
    always (cake_sgemm S F ar q nz M N K p (Some c) false false alpha beta NKM mcu kcu ncu) m0
      (fun r m' => same_ctx c r /\ holds m' BufC M N (product_plus S A B C0 ord) /\ only_C_changed m0 m' M N).
Proof. exact nf_plus_ok. Qed.
Print Assumptions C16_N_first_accumulates_any_tiles.

(** ... and only then: in every other case all executions are undefined (an element of the
    packed C is read that was never written), for every work with M, K > 0. *)
Theorem C16_otherwise_undefined :
  forall S F ar s q (nz : elt S -> bool) M N K p c alpha beta mcu kcu ncu x c1 A B m0,
  legal F ar s c M N K p mcu kcu ncu -> nz beta = true -> 0 < M -> 0 < K ->
  init_block_dims F M N K p c s mcu kcu ncu = CRet (x, c1) -> sch x = NKM -> caller m0 M N K A B ->
  ~ n_first_C_fits M N p (mr c) (nr c) (m_c x) (n_c x) ->
  always_undefined (cake_sgemm S F ar q nz M N K p (Some c) false false alpha beta s mcu kcu ncu) m0.
Proof. exact nf_undefined. Qed.
Print Assumptions C16_otherwise_undefined.

Theorem C16_exactly_when :
  forall S F ar q (nz : elt S -> bool) M N K p c alpha beta mcu kcu ncu A B C0 m0,
  legal F ar NKM c M N K p mcu kcu ncu -> user_tiles c mcu kcu ncu -> nz beta = true -> 0 < M -> 0 < K ->
  caller m0 M N K A B -> holds m0 BufC M N C0 ->
  (~ pexec (cake_sgemm S F ar q nz M N K p (Some c) false false alpha beta NKM mcu kcu ncu) m0 Undef <->
   n_first_C_fits M N p (mr c) (nr c) mcu ncu /\ B_rim m0 N K (nr c) (k_tail K p kcu)).
Proof. exact nf_iff_user. Qed.
Print Assumptions C16_exactly_when.

(** whole blocks; and one row of two blocks, both partial; and neither *)
Example C16_applies :
  legal wF haswell NKM wctx 12 32 5 2 6 2 16 /\ user_tiles wctx 6 2 16 /\
  n_first_C_fits 12 32 2 6 16 6 16 /\
  outC (pseqexec (wrun 1 1 NKM 12 32 5 2 6 2 16) (wmemC 12 32 5)) (11 * 32 + 31) = Some (100 + (11 * 32 + 31) + 54870) /\
  n_first_C_fits 5 48 2 6 16 6 32 /\
  (exists v, outC (pseqexec (wrun 1 1 NKM 5 48 5 2 6 2 32) (wmemC 5 48 5)) (4 * 48 + 47) = Some v) /\
  ~ n_first_C_fits 13 32 2 6 16 6 16.
Proof.
  split; [apply w_legal; reflexivity || discriminate|split; [apply w_user; reflexivity|]].
  split; [right; left; split; [exists 1|exists 2]; reflexivity|split; [vm_compute; reflexivity|]].
  split; [right; right; vm_compute; repeat split; discriminate|]. split; [eexists; vm_compute; reflexivity|].
  intros [H|[([u H] & _)|(H & _)]]; [now vm_compute in H| |now vm_compute in H].
  change (18 = u * 12) in H. lia.
Qed.

(** The claim without the condition: with a partial last block of rows, and with a partial last
    block of columns, the call has undefined behaviour. *)
Theorem C16_N_first_accumulates_refuted :
  (exists m0 A B C0, legal wF haswell NKM wctx 13 32 1 2 6 1 16 /\ caller m0 13 32 1 A B /\ holds m0 BufC 13 32 C0 /\
     (nr wctx | 32) /\
     pexec (cake_sgemm Zs wF haswell wctx Znz 13 32 1 2 (Some wctx) false false 1 1 NKM 6 1 16) m0 Undef) /\
  (exists m0 A B C0, user_tiles wctx 6 1 32 /\ caller m0 12 48 1 A B /\ holds m0 BufC 12 48 C0 /\ (nr wctx | 48) /\
     pexec (cake_sgemm Zs wF haswell wctx Znz 12 48 1 1 (Some wctx) false false 1 1 NKM 6 1 32) m0 Undef).
Proof. exact N_first_plus_wrong. Qed.
Print Assumptions C16_N_first_accumulates_refuted.

(** C37.  Degenerate sizes. *)
Theorem C37_empty_result_writes_nothing :
  forall S F ar q (nz : elt S -> bool) M N K p c alpha beta s mcu kcu ncu t A B m0,
  legal F ar s c M N K p mcu kcu ncu -> tail_ok c K p mcu kcu ncu t ->
  caller m0 M N K A B -> (s <> KMN -> B_rim m0 N K (nr c) t) ->
  M = 0 \/ N = 0 -> s = KMN \/ nz beta = false ->
  always (cake_sgemm S F ar q nz M N K p (Some c) false false alpha beta s mcu kcu ncu) m0
    (fun r m' => (forall b, live m' b = live m0 b) /\ forall b i, live m0 b <> None -> dat m' b i = dat m0 b i).
Proof. exact empty_MN. Qed.
Print Assumptions C37_empty_result_writes_nothing.

Theorem C37_empty_sum_gives_zero :
  forall S F ar q (nz : elt S -> bool) M N K p c alpha beta s mcu kcu ncu t A B m0,
  legal F ar s c M N K p mcu kcu ncu -> tail_ok c K p mcu kcu ncu t ->
  caller m0 M N K A B -> (s <> KMN -> B_rim m0 N K (nr c) t) ->
  K = 0 -> s = KMN \/ nz beta = false ->
  always (cake_sgemm S F ar q nz M N K p (Some c) false false alpha beta s mcu kcu ncu) m0
    (fun r m' => holds m' BufC M N (fun _ _ => zero S)).
Proof. exact empty_K. Qed.
Print Assumptions C37_empty_sum_gives_zero.

Example C37_applies :
  legal wF haswell KMN wctx 0 17 5 3 0 0 0 /\ legal wF haswell MKN wctx 7 32 0 3 6 2 16 /\
  caller (wmem 0 17 5) 0 17 5 (fun i k => wA (i * 5 + k)) (fun k j => wB (k * 17 + j)) /\
  caller (wmem 7 32 0) 7 32 0 (fun i k => wA (i * 0 + k)) (fun k j => wB (k * 32 + j)) /\
  B_rim (wmem 7 32 0) 32 0 16 0 /\
  outC (pseqexec (wrun 1 0 MKN 7 32 0 3 6 2 16) (wmem 7 32 0)) 5 = Some 0.
Proof.
  split; [apply w_legal_auto; reflexivity || discriminate|split; [apply w_legal; reflexivity || discriminate|]].
  split; [apply w_caller|split; [apply w_caller|split]].
  - apply w_rim; [reflexivity|exists 2; reflexivity].
  - vm_compute; reflexivity.
Qed.

(** C40.  A second identical call leaves the same C and the same context ... *)
Theorem C40_idempotent :
  forall S F ar q (nz : elt S -> bool) M N K p c alpha beta s mcu kcu ncu t,
  s = KMN \/ nz beta = false -> legal F ar s c M N K p mcu kcu ncu -> tail_ok c K p mcu kcu ncu t ->
  exists ord c', orders K ord /\
   forall A B m0, caller m0 M N K A B -> (s <> KMN -> B_rim m0 N K (nr c) t) ->
   always (cake_sgemm S F ar q nz M N K p (Some c) false false alpha beta s mcu kcu ncu) m0
    (fun r m' => r = c' /\ holds m' BufC M N (product S A B ord) /\ only_C_changed m0 m' M N) /\
   always (pbind (cake_sgemm S F ar q nz M N K p (Some c) false false alpha beta s mcu kcu ncu) (fun c1 =>
             cake_sgemm S F ar q nz M N K p (Some c1) false false alpha beta s mcu kcu ncu)) m0
    (fun r m' => r = c' /\ holds m' BufC M N (product S A B ord) /\ only_C_changed m0 m' M N).
Proof. exact twice_ok. Qed.
Print Assumptions C40_idempotent.

(** ... and C does not depend on what it, or any other memory, contained before. *)
Theorem C40_garbage_independent :
  forall S F ar q (nz : elt S -> bool) M N K p c alpha beta s mcu kcu ncu t A B m1 m2 o1 o2,
  s = KMN \/ nz beta = false -> legal F ar s c M N K p mcu kcu ncu -> tail_ok c K p mcu kcu ncu t ->
  caller m1 M N K A B -> (s <> KMN -> B_rim m1 N K (nr c) t) ->
  caller m2 M N K A B -> (s <> KMN -> B_rim m2 N K (nr c) t) ->
  let P := cake_sgemm S F ar q nz M N K p (Some c) false false alpha beta s mcu kcu ncu in
  pexec P m1 o1 -> pexec P m2 o2 ->
  exists r m1' m2', o1 = Done r m1' /\ o2 = Done r m2' /\
    forall i, 0 <= i < M * N -> dat m1' BufC i = dat m2' BufC i.
Proof. exact garbage_independent. Qed.
Print Assumptions C40_garbage_independent.

Example C40_applies :
  caller (wmem 13 33 5) 13 33 5 (fun i k => wA (i * 5 + k)) (fun k j => wB (k * 33 + j)) /\
  caller (wmemC 13 33 5) 13 33 5 (fun i k => wA (i * 5 + k)) (fun k j => wB (k * 33 + j)) /\
  dat (wmem 13 33 5) BufC 0 <> dat (wmemC 13 33 5) BufC 0.
Proof. split; [apply w_caller|split; [apply wC_caller|discriminate]]. Qed.

(** C23.  With caller-given tiles that are multiples of the register tile the result is
    A*B (instance of C01..C03: [user_tiles] implies [tiles_ok]); stated for K-first. *)
Theorem C23_user_tiles_K_first :
  forall S F ar q (nz : elt S -> bool) M N K p c alpha beta mcu kcu ncu,
  arch_ok ar -> ctx_ok ar c -> 0 <= M -> 0 <= N -> 0 <= K -> 0 < p ->
  0 < mcu -> 0 < kcu -> 0 < ncu -> (mr c | mcu) -> (nr c | ncu) ->
  exists ord, orders K ord /\
    forall A B m0, caller m0 M N K A B ->
      always (cake_sgemm S F ar q nz M N K p (Some c) false false alpha beta KMN mcu kcu ncu) m0
        (fun _ m' => holds m' BufC M N (product S A B ord)).
Proof. exact user_tiles_ok. Qed.
Print Assumptions C23_user_tiles_K_first.

(** For other tile sizes it is false: m_c = 4 with 6-row kernels, n_c = 10 with 16-column
    kernels. *)
Theorem C23_user_tiles_refuted :
  (exists m0 A B, caller m0 8 1 1 A B /\
     pexec (cake_sgemm Zs wF haswell wctx Znz 8 1 1 1 (Some wctx) false false 1 0 KMN 4 1 16) m0 Undef) /\
  (exists m0 A B, caller m0 1 20 1 A B /\
     pexec (cake_sgemm Zs wF haswell wctx Znz 1 20 1 1 (Some wctx) false false 1 0 KMN 6 1 10) m0 Undef).
Proof. exact unaligned_tiles_wrong. Qed.
Print Assumptions C23_user_tiles_refuted.

(** C21.  History: after any sequence of calls on the same context (each may change the
    context only through block-size computation) the behaviour of a call is that with the
    original context: same tiles, same schedule, same executions. *)
Theorem C21_history_independent :
  forall S F ar q (nz : elt S -> bool) M N K p c c2 pa pb alpha beta s mcu kcu ncu,
  later_ctx F c c2 ->
  init_block_dims F M N K p c2 s mcu kcu ncu = init_block_dims F M N K p c s mcu kcu ncu /\
  forall m o,
  pexec (cake_sgemm S F ar q nz M N K p (Some c2) pa pb alpha beta s mcu kcu ncu) m o <->
  pexec (cake_sgemm S F ar q nz M N K p (Some c) pa pb alpha beta s mcu kcu ncu) m o.
Proof. exact later_exec. Qed.
Print Assumptions C21_history_independent.

Example C21_applies : exists c2, later_ctx wF wctx c2 /\ c2 <> wctx.
Proof. exact w_later. Qed.

(** C22.  A schedule asked for is the one used; without a request one of the three is
    chosen, never "none", and the exit(1) on an unknown schedule is never reached. *)
Theorem C22_schedule_selection :
  (forall F M N K p c s mcu kcu ncu x c',
     init_block_dims F M N K p c s mcu kcu ncu = CRet (x, c') -> sch x <> NA /\ (s <> NA -> sch x = s)) /\
  (forall S F ar q (nz : elt S -> bool) M N K p oc pa pb alpha beta s mcu kcu ncu m,
     ~ pexec (cake_sgemm S F ar q nz M N K p oc pa pb alpha beta s mcu kcu ncu) m Exited).
Proof. exact schedule_selection. Qed.
Print Assumptions C22_schedule_selection.

Example C22_applies :
  (exists x c', init_block_dims wFs 100 100 300 2 wctx NA 0 0 0 = CRet (x, c') /\ sch x = KMN) /\
  (exists x c', init_block_dims wFs 200 100 50 2 wctx NA 0 0 0 = CRet (x, c') /\ sch x = MKN) /\
  (exists x c', init_block_dims wFs 100 200 50 2 wctx NA 0 0 0 = CRet (x, c') /\ sch x = NKM).
Proof. split; [|split]; (do 2 eexists; split; [vm_compute; reflexivity|reflexivity]). Qed.

(** C30.  lcm returns the least common multiple of two positive integers (with enough
    steps its loop ends). *)
Theorem C30_lcm :
  forall a b, 0 < a -> 0 < b ->
  exists r fuel0, (forall fuel, (fuel0 <= fuel)%nat -> lcm fuel a b = Some r) /\
    0 < r /\ (a | r) /\ (b | r) /\ (forall z, 0 < z -> (a | z) -> (b | z) -> r <= z).
Proof. exact lcm_ok. Qed.
Print Assumptions C30_lcm.

Example C30_applies : lcm 20 6 16 = None /\ lcm 100 6 16 = Some 48.
Proof. split; reflexivity. Qed.

(** C41.  The order is chosen by the documented rule. *)
Theorem C41_set_schedule :
  forall s M N K, (s <> NA -> set_schedule s M N K = s) /\ set_schedule s M N K <> NA /\
  (s = NA -> forall t, set_schedule s M N K = t ->
    match t with
    | MKN => 2 * K <= M /\ N <= M
    | NKM => 2 * K <= N /\ M <= N /\ ~ (2 * K <= M /\ N <= M) /\ ~ (M <= K /\ N <= K)
    | KMN => ~ (2 * K <= M /\ N <= M) /\ ((M <= K /\ N <= K) \/ ~ (2 * K <= N /\ M <= N))
    | NA => False
    end).
Proof. exact set_schedule_ok. Qed.
Print Assumptions C41_set_schedule.
