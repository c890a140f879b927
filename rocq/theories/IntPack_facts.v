(** * The block packers in 32-bit arithmetic. *)

From Coq Require Import ZArith List Bool Lia.
From Verif Require Import Lang ModelSizing ModelKernel ModelPack ModelSched ModelInt Sizing_facts Int_facts.
Open Scope Z_scope.

Ltac gr := cbn [grows leaf ival];
  repeat match goal with
  | |- _ /\ _ => split
  | |- True \/ _ => left; exact I
  | |- False \/ _ => right
  end.
(** [safe] leaves the bound on the final value *)
Ltac safe := apply ix_ok; [gr; try lia|cbn [ival]].

Section P.
Variable S : scalar.

Lemma pack_ob_A_32 A A_p M K m1 m2 m_c k_c m_r :
  0 < m_r -> (m_r | m_c) -> 0 <= m_c -> 0 <= k_c <= K -> 0 <= m1 -> 0 <= m2 ->
  m1 + m2 + m_c < 2 ^ 31 -> m_c * K < 2 ^ 31 -> K < 2 ^ 31 ->
  tsame (fun _ => True) (pack_ob_A_single_buf32 S A A_p M K m1 m2 m_c k_c m_r)
    (pack_ob_A_single_buf S A A_p M K m1 m2 m_c k_c m_r).
Proof.
  intros Hr Hd Hm Hk H1 H2 L1 L2 L3. unfold pack_ob_A_single_buf32, pack_ob_A_single_buf.
  eapply ts_bind; [|intros; now apply ts_ret].
  apply (ts_for (fun m3 ind => ind = m3 * k_c)); try lia. { now rewrite Z.sub_0_r. }
  intros m3 ind Hm0 Hm3 _ ->.
  eapply ts_weak.
  { apply (ts_for (fun i ind => ind = m3 * k_c + i * m_r)); try lia; [apply divide_1|].
    intros i ind Hi0 Hi _ ->. eapply ts_weak.
    { apply (ts_for (fun j ind => ind = m3 * k_c + i * m_r + j)); try lia; [apply divide_1|].
      intros j ind Hj0 Hj _ ->.
      assert (B : m3 * k_c + i * m_r + j + 1 <= m_c * K).
      { assert ((m3 + m_r) * k_c <= m_c * K) by nia. nia. }
      eapply ts_bind with (P := fun _ => True).
      - apply ts_int; [safe; lia|]. cbn [ival]. unfold copy0.
        destruct (M <=? m1 + m2 + m3 + j); [now apply ts_eq|].
        apply ts_int; [|now apply ts_eq]. safe; try nia.
      - intros _ _. apply ts_int_ret; [safe; lia|reflexivity|lia]. }
    cbv beta; intros; lia. }
  cbv beta; intros; lia.
Qed.

Lemma pack_ob_B_32 B B_p K N Np n1 k_c n_c n_r pad_n :
  0 < n_r -> (n_r | n_c) -> 0 <= n_c -> 0 <= k_c <= K -> 0 <= n1 -> 0 <= N <= Np ->
  n1 + n_c <= Np -> K * Np < 2 ^ 31 -> Np < 2 ^ 31 -> K < 2 ^ 31 ->
  tsame (fun _ => True) (pack_ob_B_single_buf32 S B B_p K N n1 k_c n_c n_r pad_n)
    (pack_ob_B_single_buf S B B_p K N n1 k_c n_c n_r pad_n).
Proof.
  intros Hr Hd Hm Hk H1 H2 L1 L2 L3 L4. unfold pack_ob_B_single_buf32, pack_ob_B_single_buf.
  eapply ts_bind; [|intros; now apply ts_ret].
  apply (ts_for (fun n2 ind => ind = n2 * k_c)); try lia. { now rewrite Z.sub_0_r. }
  intros n2 ind Hm0 Hm3 _ ->.
  eapply ts_weak.
  { apply (ts_for (fun i ind => ind = n2 * k_c + i * n_r)); try lia; [apply divide_1|].
    intros i ind Hi0 Hi _ ->. eapply ts_weak.
    { apply (ts_for (fun j ind => ind = n2 * k_c + i * n_r + j)); try lia; [apply divide_1|].
      intros j ind Hj0 Hj _ ->.
      assert (B1 : n2 * k_c + i * n_r + j + 1 <= K * Np).
      { assert ((n2 + n_r) * k_c <= Np * K) by nia. nia. }
      assert (B2 : n2 + i * N + j < K * Np).
      { assert (i * N <= (K - 1) * Np) by nia. nia. }
      eapply ts_bind with (P := fun _ => True).
      - eapply ts_weak. 
        { eapply ts_bind with (P := fun o => o = (pad_n && (N <=? n1 + n2 + j))%bool)
            (t' := TRet (pad_n && (N <=? n1 + n2 + j))%bool) (f' := fun o => copy0 S o B_p (n2 * k_c + i * n_r + j) B (n2 + i * N + j)).
          - destruct pad_n; [|now apply ts_ret]. apply ts_int; [safe; lia|]. now apply ts_ret.
          - intros o _. unfold copy0. destruct o; [now apply ts_eq|].
            apply ts_int; [safe; lia|now apply ts_eq]. }
        auto.
      - intros _ _. apply ts_int_ret; [safe; lia|reflexivity|lia]. }
    cbv beta; intros; lia. }
  cbv beta; intros; lia.
Qed.

Lemma pack_ob_C_32 C C_p M N Mp Np m1 n1 m2 m_c n_c m_r n_r pad_m pad_n :
  0 < m_r -> 0 < n_r -> (m_r | m_c) -> (n_r | n_c) -> 0 <= m_c -> 0 <= n_c ->
  0 <= m1 -> 0 <= m2 -> 0 <= n1 -> 0 <= N <= Np -> 0 <= M <= Mp ->
  n1 + n_c <= Np -> m1 + m2 + m_c <= Mp -> Mp * Np < 2 ^ 31 -> Np < 2 ^ 31 -> Mp < 2 ^ 31 ->
  tsame (fun _ => True) (pack_ob_C_single_buf32 S C C_p M N m1 n1 m2 m_c n_c m_r n_r pad_m pad_n)
    (pack_ob_C_single_buf S C C_p M N m1 n1 m2 m_c n_c m_r n_r pad_m pad_n).
Proof.
  intros Hr Hs Hd He Hm Hn H1 H2 H3 LN LM L1 L2 L3 L4 L5. unfold pack_ob_C_single_buf32, pack_ob_C_single_buf.
  eapply ts_bind; [|intros; now apply ts_ret].
  apply (ts_for (fun n2 ind => ind = n2 * m_c)); try lia. { now rewrite Z.sub_0_r. }
  intros n2 ind Ha0 Ha _ ->. eapply ts_weak.
  { apply (ts_for (fun m3 ind => ind = n2 * m_c + m3 * n_r)); try lia. { now rewrite Z.sub_0_r. }
    intros m3 ind Hb0 Hb _ ->. eapply ts_weak.
    { apply (ts_for (fun i ind => ind = n2 * m_c + (m3 + i) * n_r)); try lia; [apply divide_1|].
      intros i ind Hi0 Hi _ ->. eapply ts_weak.
      { apply (ts_for (fun j ind => ind = n2 * m_c + (m3 + i) * n_r + j)); try lia; [apply divide_1|].
        intros j ind Hj0 Hj _ ->.
        assert (B1 : n2 * m_c + (m3 + i) * n_r + j + 1 <= Mp * Np).
        { assert ((n2 + n_r) * m_c <= Np * Mp) by nia. nia. }
        assert (B2 : n2 + m3 * N + i * N + j < Mp * Np).
        { assert ((m3 + i) * N <= (Mp - 1) * Np) by nia. nia. }
        eapply ts_bind with (P := fun _ => True).
        - set (cond := ((pad_m || pad_n) && ((N <=? n1 + n2 + j) || (M <=? m1 + m2 + m3 + i)))%bool).
          eapply ts_weak.
          { eapply ts_bind with (P := fun o => o = cond)
              (t' := TRet cond) (f' := fun o => copy0 S o C_p (n2 * m_c + (m3 + i) * n_r + j) C (n2 + m3 * N + i * N + j)).
            - unfold cond. destruct (pad_m || pad_n)%bool; [|now apply ts_ret].
              apply ts_int; [safe; lia|]. cbn [ival]. destruct (N <=? n1 + n2 + j); [now apply ts_ret|].
              apply ts_int; [safe; lia|]. cbn [ival]. now apply ts_ret.
            - intros o _. unfold copy0. destruct o; [now apply ts_eq|].
              apply ts_int; [safe; lia|now apply ts_eq]. }
          auto.
        - intros _ _. apply ts_int_ret; [safe; lia|reflexivity|lia]. }
      cbv beta; intros; lia. }
    cbv beta; intros; lia. }
  cbv beta; intros; lia.
Qed.

Lemma unpack_ob_C_32 C C_p M N Mp Np m1 n1 m2 m_c n_c m_r n_r :
  0 < m_r -> 0 < n_r -> (m_r | m_c) -> (n_r | n_c) -> 0 <= m_c -> 0 <= n_c ->
  0 <= m1 -> 0 <= m2 -> 0 <= n1 -> 0 <= N <= Np -> 0 <= M <= Mp ->
  n1 + n_c <= Np -> m1 + m2 + m_c <= Mp -> Mp * Np < 2 ^ 31 -> Np < 2 ^ 31 -> Mp < 2 ^ 31 ->
  tsame (fun _ => True) (unpack_ob_C_single_buf32 S C C_p M N m1 n1 m2 m_c n_c m_r n_r)
    (unpack_ob_C_single_buf S C C_p M N m1 n1 m2 m_c n_c m_r n_r).
Proof.
  intros Hr Hs Hd He Hm Hn H1 H2 H3 LN LM L1 L2 L3 L4 L5. unfold unpack_ob_C_single_buf32, unpack_ob_C_single_buf.
  eapply ts_bind; [|intros; now apply ts_ret].
  apply (ts_for (fun n2 ind => ind = n2 * m_c)); try lia. { now rewrite Z.sub_0_r. }
  intros n2 ind Ha0 Ha _ ->. eapply ts_weak.
  { apply (ts_for (fun m3 ind => ind = n2 * m_c + m3 * n_r)); try lia. { now rewrite Z.sub_0_r. }
    intros m3 ind Hb0 Hb _ ->. eapply ts_weak.
    { apply (ts_for (fun i ind => ind = n2 * m_c + (m3 + i) * n_r)); try lia; [apply divide_1|].
      intros i ind Hi0 Hi _ ->. eapply ts_weak.
      { apply (ts_for (fun j ind => ind = n2 * m_c + (m3 + i) * n_r + j)); try lia; [apply divide_1|].
        intros j ind Hj0 Hj _ ->.
        assert (B1 : n2 * m_c + (m3 + i) * n_r + j + 1 <= Mp * Np).
        { assert ((n2 + n_r) * m_c <= Np * Mp) by nia. nia. }
        assert (B2 : n2 + m3 * N + i * N + j < Mp * Np).
        { assert ((m3 + i) * N <= (Mp - 1) * Np) by nia. nia. }
        eapply ts_bind with (P := fun _ => True).
        - apply ts_int; [safe; lia|]. cbn [ival].
          destruct (n1 + n2 + j <? N); [|now apply ts_eq].
          apply ts_int; [safe; lia|]. cbn [ival andb].
          destruct (m1 + m2 + m3 + i <? M); [|now apply ts_eq].
          apply ts_int; [safe; lia|]. now apply ts_eq.
        - intros _ _. apply ts_int_ret; [safe; lia|reflexivity|lia]. }
      cbv beta; intros; lia. }
    cbv beta; intros; lia. }
  cbv beta; intros; lia.
Qed.

End P.
