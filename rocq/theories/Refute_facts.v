(** * Executions that show where the code falls short of the full property. *)

From Coq Require Import ZArith List Bool Lia.
From Verif Require Import Lang Spec SpecTop ModelSizing ModelKernel ModelPack ModelSched ModelTop Exec Exec_facts
     Witness Witness_facts Mult_facts.
Import ListNotations.
Open Scope Z_scope.

(** C as well: C[i] = 100 + i *)
Definition wmemC (M N K : Z) : mem Z :=
  mem3 (M * K) (K * N) (M * N) (fun i => Some (wA i)) (fun i => Some (wB i)) (fun i => Some (100 + i)).

Lemma wC_caller M N K : caller (wmemC M N K) M N K (fun i k => wA (i * K + k)) (fun k j => wB (k * N + j)).
Proof.
  unfold caller, wmemC, mem3. repeat split; try (eexists; split; [reflexivity|cbn; lia]);
  try (intros i j _ _; reflexivity).
  intros b Hb. destruct b; cbn in Hb; (contradiction || reflexivity).
Qed.
Lemma wC_holds M N K : holds (wmemC M N K) BufC M N (fun i j => 100 + (i * N + j)).
Proof. intros i j _ _. reflexivity. Qed.

Definition wrun (al be : Z) (s : sched) (M N K p mc kc nc : Z) : prog Z cntx :=
  cake_sgemm Zs wF haswell wctx Znz M N K p (Some wctx) false false al be s mc kc nc.

(** a run that ends with another value in C than the specification's *)
Lemma refute_by_value {R} (P : prog Z R) (m : mem Z) M N f i j v :
  0 <= i < M -> 0 <= j < N ->
  outC (pseqexec P m) (i * N + j) = Some v -> v <> f i j ->
  ~ always P m (fun _ m' => holds m' BufC M N f).
Proof.
  intros Hi Hj Hv Hne. apply (not_always P m _ (pseqexec P m) (pseqexec_sound P m)).
  intros r m' E H. rewrite E in Hv. cbn in Hv. rewrite (H i j Hi Hj) in Hv. congruence.
Qed.

Lemma refute_by_undef {R} (P : prog Z R) (m : mem Z) Q :
  match pseqexec P m with Undef => true | _ => false end = true -> pexec P m Undef /\ ~ always P m Q.
Proof.
  intros H. pose proof (pseqexec_sound P m) as X. destruct (pseqexec P m); try discriminate.
  split; [exact X|]. eapply not_always; [exact X|]. discriminate.
Qed.

Lemma MN_unsafe s : s = MKN \/ s = NKM ->
  exists M N K p A B m0, legal wF haswell s wctx M N K p 6 1 16 /\ caller m0 M N K A B /\
    pexec (cake_sgemm Zs wF haswell wctx Znz M N K p (Some wctx) false false 1 0 s 6 1 16) m0 Undef.
Proof.
  intros Hs. exists 1, 17, 2, 1, (fun i k => wA (i * 2 + k)), (fun k j => wB (k * 17 + j)), (wmem 1 17 2).
  split; [apply w_legal; lia|split; [apply w_caller|]].
  apply (refute_by_undef _ (wmem 1 17 2) (fun _ _ => True)).
  destruct Hs as [-> | ->]; vm_compute; reflexivity.
Qed.

Lemma alpha_beta_wrong :
  exists alpha M N K A B C0 m0, legal wF haswell KMN wctx M N K 1 6 1 16 /\
    caller m0 M N K A B /\ holds m0 BufC M N C0 /\
    (~ always (cake_sgemm Zs wF haswell wctx Znz M N K 1 (Some wctx) false false alpha 0 KMN 6 1 16) m0
        (fun _ m' => holds m' BufC M N (fun i j => alpha * matmul Zs Z.add Z.mul A B K i j + 0 * C0 i j))) /\
    (~ always (cake_sgemm Zs wF haswell wctx Znz M N K 1 (Some wctx) false false 1 1 KMN 6 1 16) m0
        (fun _ m' => holds m' BufC M N (fun i j => 1 * matmul Zs Z.add Z.mul A B K i j + 1 * C0 i j))).
Proof.
  exists 2, 1, 1, 1, (fun i k => wA (i * 1 + k)), (fun k j => wB (k * 1 + j)), (fun i j => 100 + (i * 1 + j)), (wmemC 1 1 1).
  split; [apply w_legal; lia|split; [apply wC_caller|split; [apply wC_holds|split]]].
  - apply (refute_by_value _ _ 1 1 _ 0 0 (-3)); try lia; vm_compute; reflexivity || discriminate.
  - apply (refute_by_value _ _ 1 1 _ 0 0 (-3)); try lia; vm_compute; reflexivity || discriminate.
Qed.

Lemma N_first_plus_wrong :
  (exists m0 A B C0, legal wF haswell NKM wctx 13 32 1 2 6 1 16 /\ caller m0 13 32 1 A B /\ holds m0 BufC 13 32 C0 /\
     (nr wctx | 32) /\
     pexec (cake_sgemm Zs wF haswell wctx Znz 13 32 1 2 (Some wctx) false false 1 1 NKM 6 1 16) m0 Undef) /\
  (exists m0 A B C0, user_tiles wctx 6 1 32 /\ caller m0 12 48 1 A B /\ holds m0 BufC 12 48 C0 /\ (nr wctx | 48) /\
     pexec (cake_sgemm Zs wF haswell wctx Znz 12 48 1 1 (Some wctx) false false 1 1 NKM 6 1 32) m0 Undef).
Proof.
  split.
  - exists (wmemC 13 32 1). do 3 eexists.
    split; [apply w_legal; lia|split; [apply wC_caller|split; [apply wC_holds|split; [exists 2; reflexivity|]]]].
    apply (refute_by_undef _ (wmemC 13 32 1) (fun _ _ => True)). vm_compute; reflexivity.
  - exists (wmemC 12 48 1). do 3 eexists.
    split; [|split; [apply wC_caller|split; [apply wC_holds|split; [exists 3; reflexivity|]]]].
    + unfold user_tiles. cbn. repeat split; try lia; [exists 1; lia|exists 2; lia].
    + apply (refute_by_undef _ (wmemC 12 48 1) (fun _ _ => True)). vm_compute; reflexivity.
Qed.

Lemma unaligned_tiles_wrong :
  (exists m0 A B, caller m0 8 1 1 A B /\
     pexec (cake_sgemm Zs wF haswell wctx Znz 8 1 1 1 (Some wctx) false false 1 0 KMN 4 1 16) m0 Undef) /\
  (exists m0 A B, caller m0 1 20 1 A B /\
     pexec (cake_sgemm Zs wF haswell wctx Znz 1 20 1 1 (Some wctx) false false 1 0 KMN 6 1 10) m0 Undef).
Proof.
  split.
  - exists (wmem 8 1 1). do 2 eexists. split; [apply w_caller|].
    apply (refute_by_undef _ (wmem 8 1 1) (fun _ _ => True)). vm_compute; reflexivity.
  - exists (wmem 1 20 1). do 2 eexists. split; [apply w_caller|].
    apply (refute_by_undef _ (wmem 1 20 1) (fun _ _ => True)). vm_compute; reflexivity.
Qed.
