(** * Machines that meet, or miss, the hypotheses of PropDouble.v *)

From Coq Require Import ZArith List Bool Lia.
From Verif Require Import Lang Spec SpecTop SpecTile SpecOnline ModelSizing ModelKernel ModelSched ModelTop ModelDouble ModelIEEE
     Double_facts Witness Witness_facts Machine_facts.
Open Scope Z_scope.

Lemma ceil_double_exact a b : 0 <= a < 2 ^ 31 -> 0 < b < 2 ^ 31 ->
  exists n, ceil_double a b = Some n /\ (n - 1) * b < a <= n * b.
Proof.
  intros Ha Hb. exists (ceil_div a b). split; [now apply ceil_double_spec|]. unfold ceil_div.
  pose proof (Z.div_mod (a + b - 1) b ltac:(lia)). pose proof (Z.mod_pos_bound (a + b - 1) b ltac:(lia)). nia.
Qed.

Theorem ieee_legal ar s c M N K p mcu kcu ncu :
  machine c -> arch_ok ar -> ctx_for ar s c -> 2 * bytes (mr c) (mr c) (nr c) <= L2 c ->
  0 <= M -> 0 <= N -> 0 <= K -> 0 < p -> fits_int c M p -> mcu = 0 \/ kcu = 0 \/ ncu = 0 ->
  legal ieee ar s c M N K p mcu kcu ncu.
Proof. intros. repeat (split; [assumption|]). right. now apply ieee_auto. Qed.

Lemma wL2 : L2_side wctx 165.
Proof. vm_compute. repeat split; congruence. Qed.

Lemma wL3 : L3_side wctx 209.
Proof. vm_compute. repeat split; congruence. Qed.

Lemma w_is_machine : machine wctx.
Proof. vm_compute. repeat split; congruence. Qed.

Lemma w_machine :
  machine wctx /\ 2 * bytes (mr wctx) (mr wctx) (nr wctx) <= L2 wctx /\ fits_int wctx 100000 4 /\
  ctx_for haswell KMN wctx /\ L2_side wctx 165 /\ L3_side wctx 209.
Proof.
  split; [exact w_is_machine|]. split; [vm_compute; discriminate|]. split; [|split; [|split; [exact wL2|exact wL3]]].
  - split; [reflexivity|]. intros n2 n3 H2 H3. rewrite (L2_side_unique _ _ _ w_is_machine H2 wL2).
    rewrite (L3_side_unique _ _ _ w_is_machine H3 wL3). reflexivity.
  - vm_compute; repeat split; congruence.
Qed.

Definition tiny : cntx := Cntx (1, 1) (mr wctx) (nr wctx) (m_map wctx) (n_map wctx) 1024 1536 4096 1.

Lemma w_tiny : machine tiny /\ L2_side tiny 5 /\ 5 < mr tiny.
Proof. vm_compute. repeat split; congruence. Qed.

Definition bigL3 : cntx := Cntx (1, 1) (mr wctx) (nr wctx) (m_map wctx) (n_map wctx) 32768 262144 33554432 4.

Lemma w_L2_NKM : exists c M N K p x c', machine c /\ 2 * bytes (mr c) (mr c) (nr c) <= L2 c /\ 0 < M /\ 0 < N /\ 0 < K /\ p = ncores c /\
    init_block_dims ieee M N K p c NA 0 0 0 = CRet (x, c') /\ sch x = NKM /\
    L2 c < bytes (m_c x) (k_c x) (nr c).
Proof.
  exists bigL3, 1000, 2000, 900, 4. do 2 eexists. split; [vm_compute; repeat split; congruence|]. split; [vm_compute; discriminate|].
  do 3 (split; [reflexivity|]). split; [reflexivity|]. split; [vm_compute; reflexivity|]. split; reflexivity.
Qed.

Definition bigL2 : cntx := Cntx (1, 1) (mr wctx) (nr wctx) (m_map wctx) (n_map wctx) 32768 1048576 1441792 1.

Lemma w_L3 : exists c M N K x c', machine c /\ 2 * bytes (mr c) (mr c) (nr c) <= L2 c <= L3 c /\ ncores c = 1 /\
    init_block_dims ieee M N K 1 c KMN 0 0 0 = CRet (x, c') /\ L3 c < 2 * bytes (m_c x) (k_c x) (n_c x).
Proof.
  exists bigL2, 2000, 2000, 2000. do 2 eexists. split; [vm_compute; repeat split; congruence|].
  split; [vm_compute; split; discriminate|]. split; [reflexivity|]. split; [vm_compute; reflexivity|reflexivity].
Qed.

Lemma w_schedule : exists M N K p n2 x c', L2_side wctx n2 /\ 0 < M < 2 ^ 24 /\ 0 < N < 2 ^ 24 /\ 0 < K < 2 ^ 24 /\ p = ncores wctx /\
    init_block_dims ieee M N K p wctx NA 0 0 0 = CRet (x, c') /\
    sch x <> choice M N K (p * tile_for M p (mr wctx) (round_down n2 (mr wctx))).
Proof.
  exists 37525, 1, 1274, 4, 165. do 2 eexists. split; [exact wL2|]. do 3 (split; [split; reflexivity|]). split; [reflexivity|].
  split; [vm_compute; reflexivity|vm_compute; discriminate].
Qed.

Lemma w_2d : exists c M N K p x, machine c /\ 0 < M /\ 0 < N /\ 0 < K /\ p = ncores c /\
    init_block_dims_2d ieee M N K p (ncores c) c KMN 0 0 0 = CRet x /\
    L2 c < 4 * (m_c x * k_c x + k_c x * nr c + m_c x * n_c x).
Proof.
  exists wctx, 2000, 2000, 2000, 4. eexists. split; [exact w_is_machine|]. do 4 (split; [reflexivity|]).
  split; [vm_compute; reflexivity|reflexivity].
Qed.

Lemma w_grid : exists p N M, 0 < M < 2 ^ 31 /\ 0 < p /\ 0 < N < 2 ^ 31 /\ p * N < 2 ^ 31 /\ ~ nearest_root (p * N) M (fp_pn ieee p N M).
Proof.
  exists 4, (9 * 400000 + 2), (16 * 400000 + 4). do 4 (split; [vm_compute; repeat split; congruence|]).
  intros (_ & A & B). revert A B. vm_compute. intros A B. try discriminate A. now specialize (B eq_refl).
Qed.
