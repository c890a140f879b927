(** * transpose_mat with 32-bit ints. *)

From Coq Require Import ZArith List Bool Lia.
From Verif Require Import Lang SpecTouch ModelSizing ModelKernel ModelPack ModelTrans ModelInt ModelTransInt SpecUtilInt
     Sizing_facts Trans_facts Int_facts IntPack_facts DeadCode_facts UtilInt_facts.
Open Scope Z_scope.
Local Transparent tfor pfor tload.

Section Loops.
Context {V : Type}.

Lemma loop_count_any lo hi step : 0 < step ->
  Z.of_nat (loop_count lo hi step) = 0 \/ lo + Z.of_nat (loop_count lo hi step) * step <= hi + step - 1.
Proof.
  intros Hs. unfold loop_count. destruct (Z_le_gt_dec ((hi - lo + step - 1) / step) 0) as [H|H]; [left; lia|right].
  rewrite Z2Nat.id by lia. pose proof (Z.mul_div_le (hi - lo + step - 1) step Hs). rewrite Z.mul_comm. lia.
Qed.

Lemma counter_any lo hi step : 0 < step -> lo < 2 ^ 31 -> hi + step <= 2 ^ 31 -> counter_ok lo hi step = true.
Proof. intros Hs Hl Hh. unfold counter_ok. apply Z.ltb_lt. destruct (loop_count_any lo hi step Hs) as [E|E]; [rewrite E|]; lia. Qed.

Lemma ts_any lo hi step (f g : Z -> thr V unit) : 0 < step -> lo < 2 ^ 31 -> hi + step <= 2 ^ 31 ->
  (forall i, lo <= i < hi -> (step | i - lo) -> tsame (fun _ => True) (f i) (g i)) ->
  tsame (fun _ => True) (tfor32_ lo hi step f) (tfor_ lo hi step g).
Proof.
  intros Hs Hl Hh H. unfold tfor32_, tfor_, tfor. rewrite counter_any by auto. destruct (Z.ltb_spec 0 step); [|lia].
  apply (ts_iter (fun _ _ => True)); auto. intros j s J1 J2 J3 _. apply H; auto.
  destruct (loop_count_any lo hi step Hs) as [E|E]; [rewrite E in J2|]; lia.
Qed.

Lemma ps_any lo hi step (f g : Z -> prog V unit) : 0 < step -> lo < 2 ^ 31 -> hi + step <= 2 ^ 31 ->
  (forall i, lo <= i < hi -> (step | i - lo) -> psame (fun _ => True) (f i) (g i)) ->
  psame (fun _ => True) (pfor32_ lo hi step f) (pfor_ lo hi step g).
Proof.
  intros Hs Hl Hh H. unfold pfor32_, pfor_, pfor. rewrite counter_any by auto. destruct (Z.ltb_spec 0 step); [|lia].
  apply (ps_iter (fun _ _ => True)); auto. intros j s J1 J2 J3 _. apply H; auto.
  destruct (loop_count_any lo hi step Hs) as [E|E]; [rewrite E in J2|]; lia.
Qed.

Lemma ps_par_any lo hi step (f g : Z -> thr V unit) : 0 < step -> lo < 2 ^ 31 -> hi + step <= 2 ^ 31 ->
  (forall i, lo <= i < hi -> (step | i - lo) -> tsame (fun _ => True) (f i) (g i)) ->
  psame (fun _ => True) (ppar_for32 lo hi step f) (ppar_for lo hi step g).
Proof.
  intros Hs Hl Hh H. apply ps_eq. unfold ppar_for32, ppar_for. rewrite counter_any by auto.
  destruct (Z.ltb_spec 0 step); [|lia]. f_equal. apply map_ext_in. intros j Hj.
  destruct (in_zseq _ _ _ _ Hj) as (d & Hd & ->). apply H; [|exists d; ring].
  assert ((d + 1) * step <= Z.of_nat (loop_count lo hi step) * step) by (apply Z.mul_le_mono_nonneg_r; lia).
  assert (0 <= d * step) by (apply Z.mul_nonneg_nonneg; lia). destruct (loop_count_any lo hi step Hs) as [E|E]; lia.
Qed.
End Loops.

Section TransInt.

Variable S : scalar.
Notation T := (elt S).

Lemma tleaf_any {R} (t : thr T R) : tleaf (fun _ => True) t.
Proof. induction t; cbn; auto. Qed.

Lemma ts_self {R} (t : thr T R) : tsame (fun _ => True) t t.
Proof. split; [reflexivity|apply tleaf_any]. Qed.

Lemma ts_8 {R} (s : R) f g : (forall i s, 0 <= i < 8 -> tsame (fun _ => True) (f i s) (g i s)) ->
  tsame (fun _ => True) (tfor (V := T) 0 8 1 s f) (tfor 0 8 1 s g).
Proof.
  intros H. unfold tfor. change (0 <? 1) with true. cbv iota.
  apply (ts_iter (fun _ _ => True)); [exact I| |lia]. intros j r J1 J2 _ _. apply H.
  change (loop_count 0 8 1) with 8%nat in J2. lia.
Qed.

Lemma t8x8_32 A B lda ldb : 0 <= lda -> 0 <= ldb -> 7 * lda < 2 ^ 31 -> 7 * ldb < 2 ^ 31 ->
  tsame (fun _ => True) (transpose_8x8_32 S A B lda ldb) (transpose_8x8 S A B lda ldb).
Proof.
  intros Ha Hb La Lb. unfold transpose_8x8_32, transpose_8x8. apply ts_bind with (P := fun _ => True).
  - apply ts_8. intros j r Hj. assert (j * lda <= 7 * lda) by (apply Z.mul_le_mono_nonneg_r; lia). apply ts_int; [apply mul_safe; lia|]. cbn [ival]. apply ts_self.
  - intros r _. unfold tfor_. apply ts_8. intros i _ Hi.
    assert (i * ldb <= 7 * ldb) by (apply Z.mul_le_mono_nonneg_r; lia). apply ts_int; [apply mul_safe; lia|]. cbn [ival]. apply ts_self.
Qed.

Lemma add_safe a b : - 2 ^ 31 <= a + b < 2 ^ 31 -> isafe (IxAdd a b) = true.
Proof. intros. cbn [isafe ival andb]. apply in_int_ok. lia. Qed.
Lemma sub_safe a b : - 2 ^ 31 <= a - b < 2 ^ 31 -> isafe (IxSub a b) = true.
Proof. intros. cbn [isafe ival andb]. apply in_int_ok. lia. Qed.
Lemma muladd_safe a b c : 0 <= a -> 0 <= b -> 0 <= c -> a * b + c < 2 ^ 31 -> isafe (IxAdd (IxMul a b) c) = true.
Proof. intros. assert (0 <= a * b) by (apply Z.mul_nonneg_nonneg; lia). cbn [isafe ival andb]. rewrite !in_int_ok by lia. reflexivity. Qed.

Lemma mxn_32 A B lda ldb m n : 0 <= lda -> 0 <= ldb -> m < 2 ^ 31 -> n < 2 ^ 31 ->
  n <= 0 \/ n * lda + m <= 2 ^ 31 -> m <= 0 \/ m * ldb + n <= 2 ^ 31 ->
  tsame (fun _ => True) (transpose_mxn32 S A B lda ldb m n) (transpose_mxn S A B lda ldb m n).
Proof.
  intros Ha Hb Hm Hn L1 L2. unfold transpose_mxn32, transpose_mxn.
  apply ts_any; try lia. intros i Hi _. apply ts_any; try lia. intros j Hj _.
  assert (j * lda <= n * lda) by (apply Z.mul_le_mono_nonneg_r; lia). assert (i * ldb <= m * ldb) by (apply Z.mul_le_mono_nonneg_r; lia).
  apply ts_int; [apply muladd_safe; lia|]. cbn [ival].
  apply ts_bind with (P := fun _ => True); [apply ts_self|]. intros v _.
  apply ts_int; [apply muladd_safe; lia|]. cbn [ival]. apply ts_self.
Qed.

Lemma tile8_le t : -8 < t -> 0 < tile8 t <= Z.max 8 t.
Proof.
  intros Ht. unfold tile8. destruct (Z.eqb_spec (Z.quot t 8 * 8) 0) as [E|E]; [lia|].
  destruct (Z_lt_le_dec t 0).
  - exfalso. apply E. replace t with (- - t) by lia. rewrite Z.quot_opp_l, Z.quot_small by lia. reflexivity.
  - rewrite Z.quot_div_nonneg in * by lia. pose proof (Z.mul_div_le t 8 ltac:(lia)). pose proof (Z.div_pos t 8). lia.
Qed.

Theorem transpose_mat_32 A At K N Kt Nt : 0 <= K -> 0 <= N -> -8 < Kt -> -8 < Nt ->
  (K + Z.max 8 Kt) * N + N + Z.max 8 Nt <= 2 ^ 31 -> (N + Z.max 8 Nt) * K + K + Z.max 8 Kt <= 2 ^ 31 ->
  transpose_mat32 S A At K N Kt Nt = transpose_mat S A At K N Kt Nt.
Proof.
  intros HK HN H1 H2 L1 L2. apply (psame_eq S (fun _ => True)). unfold transpose_mat32, transpose_mat.
  pose proof (tile8_le Kt H1) as TK. pose proof (tile8_le Nt H2) as TN.
  pose proof (proj2 (Trans_facts.tile8_pos Kt H1)) as E1. pose proof (proj2 (Trans_facts.tile8_pos Nt H2)) as E2.
  set (kt := tile8 Kt) in *. set (nt := tile8 Nt) in *. clearbody kt nt.
  assert (M1 : (K + kt) * N <= (K + Z.max 8 Kt) * N) by (apply Z.mul_le_mono_nonneg_r; lia).
  assert (M2 : (N + nt) * K <= (N + Z.max 8 Nt) * K) by (apply Z.mul_le_mono_nonneg_r; lia).
  assert (L1' : (K + kt) * N + N + nt <= 2 ^ 31) by lia. assert (L2' : (N + nt) * K + K + kt <= 2 ^ 31) by lia.
  clear L1 L2 M1 M2.
  assert (P1 : 0 <= (K + kt) * N) by (apply Z.mul_nonneg_nonneg; lia). assert (P2 : 0 <= (N + nt) * K) by (apply Z.mul_nonneg_nonneg; lia).
  apply ps_any; try lia. intros k Hk _. apply ps_par_any; try lia. intros n Hn _.
  unfold transpose_cols32, transpose_cols. apply ts_int; [apply add_safe; lia|]. cbn [ival].
  apply ts_for_; try lia. { replace (n + nt - n) with nt by ring. exact E2. }
  intros nn N1 N2 _. apply ts_int; [apply add_safe; lia|]. cbn [ival].
  apply ts_for_; try lia. { replace (k + kt - k) with kt by ring. exact E1. }
  intros kk K1 K2 _.
  apply ts_int; [apply add_safe; lia|]. cbn [ival]. apply ts_int; [apply add_safe; lia|]. cbn [ival].
  assert (kk * N <= (K + kt) * N) by (apply Z.mul_le_mono_nonneg_r; lia). assert (nn * K <= (N + nt) * K) by (apply Z.mul_le_mono_nonneg_r; lia).
  apply ts_int; [apply muladd_safe; lia|]. cbn [ival]. apply ts_int; [apply muladd_safe; lia|]. cbn [ival].
  destruct ((N <? nn + 8) || (K <? kk + 8)) eqn:Q.
  - apply ts_int; [apply sub_safe; lia|]. cbn [ival]. apply ts_int; [apply sub_safe; lia|]. cbn [ival].
    assert ((K - kk) * N <= (K + kt) * N) by (apply Z.mul_le_mono_nonneg_r; lia).
    assert ((N - nn) * K <= (N + nt) * K) by (apply Z.mul_le_mono_nonneg_r; lia). apply mxn_32; lia.
  - apply orb_false_iff in Q. destruct Q as (Q1 & Q2). apply Z.ltb_ge in Q1, Q2. 
    assert (7 * N <= (K + kt) * N) by (apply Z.mul_le_mono_nonneg_r; lia).
    assert (7 * K <= (N + nt) * K) by (apply Z.mul_le_mono_nonneg_r; lia). apply t8x8_32; lia.
Qed.

Lemma count_gt lo hi step d : 0 < step -> 0 <= d -> lo + d * step < hi -> d < Z.of_nat (loop_count lo hi step).
Proof.
  intros Hs Hd H. unfold loop_count.
  assert (d + 1 <= (hi - lo + step - 1) / step) by (apply Z.div_le_lower_bound; lia). lia.
Qed.

Lemma tdead_any lo hi step d (f : Z -> thr T unit) : 0 < step -> 0 <= d -> lo + d * step < hi -> tdead S (f (lo + d * step)) ->
  tdead S (tfor32_ lo hi step f).
Proof.
  intros Hs Hd H D. unfold tfor32_. destruct (counter_ok lo hi step); [|exact I]. unfold tfor_, tfor.
  destruct (Z.ltb_spec 0 step); [|lia]. pose proof (count_gt lo hi step d Hs Hd H) as Hn.
  remember (loop_count lo hi step) as n eqn:En. clear En H.
  revert lo d Hd D Hn. induction n as [|n IH]; intros lo' d Hd D Hn; [lia|]. cbn [titer].
  destruct (Z.eq_dec d 0) as [->|Nz].
  - apply tdead_bind_l. now replace (lo' + 0 * step) with lo' in D by ring.
  - apply tdead_bind_r. intros []. apply (IH (lo' + step) (d - 1)); try lia.
    now replace (lo' + step + (d - 1) * step) with (lo' + d * step) by ring.
Qed.

Lemma pdead_any lo hi step d (f : Z -> prog T unit) : 0 < step -> 0 <= d -> lo + d * step < hi -> (forall i, noexit S (f i)) ->
  pdead S (f (lo + d * step)) -> pdead S (pfor32_ lo hi step f).
Proof.
  intros Hs Hd H E D. unfold pfor32_. destruct (counter_ok lo hi step); [|exact I]. unfold pfor_, pfor.
  destruct (Z.ltb_spec 0 step); [|lia]. pose proof (count_gt lo hi step d Hs Hd H) as Hn.
  remember (loop_count lo hi step) as n eqn:En. clear En H.
  revert lo d Hd D Hn. induction n as [|n IH]; intros lo' d Hd D Hn; [lia|]. cbn [piter].
  destruct (Z.eq_dec d 0) as [->|Nz].
  - apply dead_bind_l. now replace (lo' + 0 * step) with lo' in D by ring.
  - apply dead_bind_r; auto. intros []. apply (IH (lo' + step) (d - 1)); try lia.
    now replace (lo' + step + (d - 1) * step) with (lo' + d * step) by ring.
Qed.

Lemma pdead_par_0 hi step (f : Z -> thr T unit) : 0 < step -> 0 < hi -> tdead S (f 0) -> pdead S (ppar_for32 0 hi step f).
Proof.
  intros Hs Hh D. unfold ppar_for32. destruct (counter_ok 0 hi step); [|exact I]. unfold ppar_for.
  destruct (Z.ltb_spec 0 step); [|lia]. left. exists (f 0). split; [|exact D]. apply in_map.
  pose proof (count_gt 0 hi step 0 Hs ltac:(lia) ltac:(lia)). destruct (loop_count 0 hi step); [lia|now left].
Qed.

Lemma noexit_par_any lo hi step (f : Z -> thr T unit) : noexit S (ppar_for32 lo hi step f).
Proof.
  unfold ppar_for32. destruct (counter_ok lo hi step); [|exact I]. unfold ppar_for.
  destruct (0 <? step); [exact I|]. destruct (lo <? hi); exact I.
Qed.

Lemma tile8_tile t : -8 < t -> tile8 t = tile_of t.
Proof. intros Ht. unfold tile_of. destruct (tile8_ge t Ht). destruct (tile8_eq t Ht); lia. Qed.

(** The last row of blocks of the last tile starts at a row whose offset is not an int. *)
Theorem transpose_mat_over A At K N Kt Nt m : 0 < K -> 0 < N -> -8 < Kt -> -8 < Nt -> 2 ^ 31 <= last_block K Kt * N ->
  always_undefined (transpose_mat32 S A At K N Kt Nt) m.
Proof.
  intros HK HN H1 H2 L. apply dead_undefined. unfold transpose_mat32.
  destruct (tile8_pos Kt H1) as (T1 & q & Eq). destruct (tile8_pos Nt H2) as (T2 & _). unfold last_block in L. rewrite <- tile8_tile in L by auto.
  set (kt := tile8 Kt) in *. set (nt := tile8 Nt) in *. clearbody kt nt.
  assert (0 <= (K - 1) / kt) by (apply Z.div_pos; lia). pose proof (Z.mul_div_le (K - 1) kt T1).
  set (d := (K - 1) / kt) in *. clearbody d.
  apply (pdead_any 0 K kt d); try lia; [intros; apply noexit_par_any|].
  apply pdead_par_0; auto. unfold transpose_cols32. apply tdead_int. right. cbn [ival].
  apply (tdead_any 0 (0 + nt) 8 0); try lia. apply tdead_int. right. cbn [ival].
  apply (tdead_any (0 + d * kt) (0 + d * kt + kt) 8 (q - 1)); try lia.
  apply tdead_int. right. apply tdead_int. right. apply tdead_int. left. apply index_over.
  replace (0 + d * kt + (q - 1) * 8) with (d * kt + kt - 8) by lia. lia.
Qed.

End TransInt.
