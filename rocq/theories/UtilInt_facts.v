(** * Utilities with 32-bit ints. *)

From Coq Require Import ZArith List Bool Lia.
From Verif Require Import Lang SpecTouch ModelSizing ModelKernel ModelPack ModelSched ModelUtil ModelTrans ModelTests ModelInt ModelUtilInt
     Sizing_facts Example_facts Int_facts IntPack_facts IntTile_facts DeadCode_facts.
Open Scope Z_scope.

Local Transparent tload pbind.

Section UtilInt.

Variable S : scalar.
Notation T := (elt S).

Lemma tsame_eq {R} (P : R -> Prop) (t t' : thr T R) : tsame P t t' -> t = t'.
Proof. now intros [H _]. Qed.

Lemma psame_eq {R} (P : R -> Prop) (t t' : prog T R) : psame P t t' -> t = t'.
Proof. now intros [H _]. Qed.

Lemma pub_undefined {R} m : always_undefined (PUB : prog T R) m.
Proof. split; [constructor|intros o Ho; now inversion Ho]. Qed.

Lemma fail_undefined m : always_undefined (pseq (TFail : thr T unit)) m.
Proof.
  unfold pseq. apply (Example_facts.all_faulty_undefined S); [discriminate|].
  intros t [<-|[]]. now constructor.
Qed.

Lemma mul_safe a b : 0 <= a -> 0 <= b -> a * b < 2 ^ 31 -> isafe (IxMul a b) = true.
Proof. intros. cbn [isafe ival andb]. apply in_int_ok. nia. Qed.

Lemma mul_unsafe a b : 2 ^ 31 <= a * b -> isafe (IxMul a b) = false.
Proof. intros. cbn [isafe ival andb]. unfold in_int. apply andb_false_iff. right. apply Z.ltb_ge. lia. Qed.

Lemma index_safe i w j h : 0 <= w -> 0 <= i < h -> 0 <= j < w -> h * w <= 2 ^ 31 -> isafe (IxAdd (IxMul i w) j) = true.
Proof.
  intros Hw Hi Hj L. pose proof (row_bound i w (j + 1) h Hw ltac:(lia) ltac:(lia)).
  assert (0 <= i * w) by nia. cbn [isafe ival andb]. rewrite !in_int_ok by lia. reflexivity.
Qed.

Lemma index_safe' i w j h : 0 <= w -> 0 <= i < h -> 0 <= j < w -> h * w <= 2 ^ 31 -> isafe (IxAdd j (IxMul i w)) = true.
Proof.
  intros Hw Hi Hj L. pose proof (row_bound i w (j + 1) h Hw ltac:(lia) ltac:(lia)).
  assert (0 <= i * w) by nia. cbn [isafe ival andb]. rewrite !in_int_ok by lia. reflexivity.
Qed.

Theorem rand_init_32 elem mat rd r c : 0 <= r -> 0 <= c -> r * c < 2 ^ 31 ->
  rand_init32 S elem mat rd r c = rand_init S elem mat rd r c.
Proof.
  intros Hr Hc L. apply (tsame_eq (fun _ => True)).
  unfold rand_init32, rand_init. apply ts_int; [now apply mul_safe|]. cbn [ival].
  apply ts_for_; try nia; [apply divide_1|]. intros. now apply ts_eq.
Qed.

Theorem rand_init_over elem mat rd r c : 2 ^ 31 <= r * c -> rand_init32 S elem mat rd r c = TFail.
Proof. intros L. unfold rand_init32, tint. now rewrite mul_unsafe. Qed.

Theorem transpose_32 At A M K : 0 <= M < 2 ^ 31 -> 0 <= K < 2 ^ 31 -> M * K <= 2 ^ 31 ->
  transpose32 S At A M K = transpose S At A M K.
Proof.
  intros HM HK L. unfold transpose32, transpose. f_equal.
  apply (tsame_eq (fun _ => True)).
  apply ts_for_; try lia; [apply divide_1|]. intros k K0 K1 _.
  apply ts_for_; try lia; [apply divide_1|]. intros m M0 M1 _.
  apply ts_int; [apply (index_safe m K k M); lia|]. cbn [ival].
  apply ts_bind with (P := fun _ => True); [split; [reflexivity|unfold pload, tload; cbn; auto]|]. intros v _.
  apply ts_int; [apply (index_safe' k M m K); lia|]. cbn [ival]. now apply ts_eq.
Qed.

Lemma index_over i w j : 2 ^ 31 <= i * w + j -> isafe (IxAdd (IxMul i w) j) = false.
Proof.
  intros. cbn [isafe ival andb]. apply andb_false_iff. right. unfold in_int. apply andb_false_iff. right. apply Z.ltb_ge. lia.
Qed.

Theorem transpose_over At A M K m : 0 <= M -> 0 <= K -> 2 ^ 31 < M * K -> always_undefined (transpose32 S At A M K) m.
Proof.
  intros HM HK L. assert (0 < M) by nia. assert (0 < K) by nia. apply dead_undefined, dead_seq.
  apply (tdead_for S K _ (K - 1)); [lia|]. apply (tdead_for S M _ (M - 1)); [lia|].
  apply tdead_int. left. apply index_over. nia.
Qed.

Variable far : T -> T -> bool.

Lemma load_same p i : tsame (fun _ => True) (pload S p i) (pload S p i).
Proof. split; [reflexivity|unfold pload, tload; cbn; auto]. Qed.

Lemma mat_equals_32 C Ck M N : 0 <= M < 2 ^ 31 -> 0 <= N < 2 ^ 31 -> M * N < 2 ^ 31 ->
  tsame (fun _ => True) (mat_equals32 S far C Ck M N) (mat_equals S far C Ck M N).
Proof.
  intros HM HN L. unfold mat_equals32, mat_equals.
  apply ts_bind with (P := fun _ => True); [|intros; now apply ts_ret].
  eapply ts_weak; [|intros; exact I].
  apply (ts_for (fun m (r : Z * bool) => fst r = m * N)); try lia; [apply divide_1|reflexivity|].
  intros m r M0 M1 _ Hr. eapply ts_weak.
  { apply (ts_for (fun n (r : Z * bool) => fst r = m * N + n)); try lia; [apply divide_1|].
    intros n (ind1 & correct) N0 N1 _ Hi. cbn [fst] in Hi. subst ind1.
    apply ts_bind with (P := fun _ => True); [apply load_same|]. intros a _.
    apply ts_bind with (P := fun _ => True); [apply load_same|]. intros b _.
    pose proof (row_bound m N (n + 1) M ltac:(lia) ltac:(lia) ltac:(lia)). assert (0 <= m * N) by nia.
    assert (m * N + n + 1 < 2 ^ 31 \/ 2 ^ 31 <= m * N + n + 1) as [Q|Q] by lia; [|lia].
    apply ts_int; [cbn [isafe ival andb]; apply in_int_ok; lia|]. cbn [ival]. apply ts_ret; [reflexivity|]. cbn [fst]. lia. }
  cbv beta. intros r' ->. lia.
Qed.

Lemma ck_row_32 A B Ck M N K k m : 0 <= m < M -> 0 <= k < K -> 0 <= N < 2 ^ 31 ->
  M * N < 2 ^ 31 -> (N = 0 \/ M * K <= 2 ^ 31) -> (M = 0 \/ K * N <= 2 ^ 31) ->
  tsame (fun _ => True) (ck_row32 S A B Ck N K k m) (ck_row S A B Ck N K k m).
Proof.
  intros Hm Hk HN L1 L2 L3. unfold ck_row32, ck_row. apply ts_for_; try lia; [apply divide_1|]. intros n N0 N1 _.
  apply ts_int; [apply (index_safe m N n M); lia|]. cbn [ival].
  apply ts_bind with (P := fun _ => True); [apply load_same|]. intros c _.
  apply ts_int; [apply (index_safe m K k M); lia|]. cbn [ival].
  apply ts_bind with (P := fun _ => True); [apply load_same|]. intros a _.
  apply ts_int; [apply (index_safe k N n K); lia|]. cbn [ival].
  apply ts_bind with (P := fun _ => True); [apply load_same|]. intros b _. now apply ts_eq.
Qed.

Variables (add : T -> T -> T) (ok bad : T).

Theorem checker_32 A B C N M K : 0 <= M < 2 ^ 31 -> 0 <= N < 2 ^ 31 -> 0 <= K < 2 ^ 31 ->
  M * N < 2 ^ 31 -> (N = 0 \/ M * K <= 2 ^ 31) -> (M = 0 \/ K * N <= 2 ^ 31) ->
  cake_sgemm_checker32 S far ok bad A B C N M K = cake_sgemm_checker S far ok bad A B C N M K.
Proof.
  intros HM HN HK L1 L2 L3. apply (psame_eq (fun _ => True)).
  unfold cake_sgemm_checker32, cake_sgemm_checker. apply ps_int; [apply mul_safe; lia|]. cbn [ival].
  apply ps_bind with (P := fun _ => True); [now apply ps_eq|]. intros _ _.
  apply ps_bind with (P := fun _ => True).
  { apply ps_for_; try lia; [apply divide_1|]. intros k K0 K1 _. apply ps_par; try lia; [apply divide_1|].
    intros m M0 M1 _. apply ck_row_32 with (M := M); lia. }
  intros _ _. apply ps_bind with (P := fun _ => True); [|intros; now apply ps_eq].
  apply ps_eq. f_equal. f_equal. apply mat_equals_32; lia.
Qed.

Theorem checker_over A B C N M K : 2 ^ 31 <= M * N -> cake_sgemm_checker32 S far ok bad A B C N M K = PUB.
Proof. intros L. unfold cake_sgemm_checker32, pint. now rewrite mul_unsafe. Qed.

Theorem checker_operand_over A B C N M K m : 0 < M -> 0 < N -> 0 <= K -> 2 ^ 31 < M * K \/ 2 ^ 31 < K * N ->
  always_undefined (cake_sgemm_checker32 S far ok bad A B C N M K) m.
Proof.
  intros HM HN HK L. assert (0 < K) by (destruct L; nia). apply dead_undefined. unfold cake_sgemm_checker32, pint.
  destruct (isafe (IxMul M N)); [|exact I]. cbn [pbind].
  apply dead_bind_r; [exact I|]. intros _. apply dead_bind_l.
  apply (pdead_for S K _ (K - 1)); [lia|intros; apply noexit_par|].
  apply (pdead_par S M _ (M - 1)); [lia|]. unfold ck_row32. apply (tdead_for S N _ (N - 1)); [lia|].
  apply tdead_int. right. apply tdead_bind_r. intros c. apply tdead_int.
  destruct L as [L|L]; [left; apply index_over; nia|right].
  apply tdead_bind_r. intros a. apply tdead_int. left. apply index_over. nia.
Qed.

Theorem add_checker_32 C_arr C M N p : 0 <= M -> 0 <= N -> 0 <= p < 2 ^ 31 -> M * N < 2 ^ 31 ->
  add_checker32 S far add ok bad C_arr C M N p = add_checker S far add ok bad C_arr C M N p.
Proof.
  intros HM HN Hp L. apply (psame_eq (fun _ => True)).
  unfold add_checker32, add_checker. apply ps_int; [apply mul_safe; lia|]. cbn [ival]. assert (0 <= M * N) by nia.
  apply ps_bind with (P := fun _ => True); [now apply ps_eq|]. intros _ _.
  apply ps_bind with (P := fun _ => True).
  { apply ps_eq. f_equal.
    apply (tsame_eq (fun _ => True)).
    apply ts_for_; try lia; [apply divide_1|]. intros c _ _ _. apply ts_for_; try lia; [apply divide_1|].
    intros i _ _ _. now apply ts_eq. }
  intros _ _. apply ps_bind with (P := fun _ => True); [|intros; now apply ps_eq].
  apply ps_eq. f_equal. f_equal.
  apply (tsame_eq (fun _ => True)).
  unfold add_compare32, add_compare. apply ts_bind with (P := fun _ => True); [|intros; now apply ts_ret].
  eapply ts_weak; [|intros; exact I].
  apply (ts_for (fun i (r : Z * bool) => fst r = i)); try lia; [apply divide_1|reflexivity|].
  intros i (ind1 & correct) I0 I1 _ Hi. cbn [fst] in Hi. subst ind1.
  apply ts_bind with (P := fun _ => True); [apply load_same|]. intros a _.
  apply ts_bind with (P := fun _ => True); [apply load_same|]. intros b _.
  apply ts_int; [cbn [isafe ival andb]; apply in_int_ok; lia|]. cbn [ival]. apply ts_ret; [reflexivity|]. cbn [fst]. lia.
Qed.

Theorem add_checker_over C_arr C M N p : 2 ^ 31 <= M * N -> add_checker32 S far add ok bad C_arr C M N p = PUB.
Proof. intros L. unfold add_checker32, pint. now rewrite mul_unsafe. Qed.

End UtilInt.
