(** * The M-first and N-first programs in 32-bit arithmetic. *)

From Coq Require Import ZArith List Bool Lia.
From Verif Require Import Lang ModelSizing ModelKernel ModelPack ModelSched ModelTop ModelInt Sizing_facts SizingMN_facts
  Int_facts IntPack_facts IntTile_facts IntK_facts.
Open Scope Z_scope.

Tactic Notation "pos" constr(a) constr(b) := pose proof (mul_ge0 a b ltac:(lia) ltac:(lia)).

Lemma snake_safe rev nb i : 0 <= i < nb -> nb < 2 ^ 31 ->
  let s := snake rev nb in
  isafe (IxAdd (IxV (sn_start s)) (IxMul (IxV i) (IxV (sn_inc s)))) = true /\
  0 <= sn_start s + i * sn_inc s < nb.
Proof.
  intros Hi L. cbv zeta. unfold snake. destruct rev; cbn [sn_start sn_inc fst snd isafe ival];
    rewrite !in_int_ok by lia; split; try reflexivity; lia.
Qed.

(** bounds of the block at row X of the outer and Y of the inner dimension *)
Lemma blk_end X W Y t D E : 0 <= X -> 0 <= W -> 0 <= t -> 0 <= Y -> X + W <= D -> Y + t <= E ->
  0 <= X * E /\ 0 <= W * Y /\ X * E + W * Y + W * t <= D * E.
Proof.
  intros. pose proof (blk_bound X W Y t W D E). pose proof (mul_ge0 X E). pose proof (mul_ge0 W Y). lia.
Qed.

Section MN.
Set Default Proof Using "All".
Variable S : scalar.
Variables (M N K p m_r n_r tM : Z) (mt : Z -> Z) (x : blk_dims).
Hypothesis HM : 0 <= M.
Hypothesis HN : 0 <= N.
Hypothesis HK : 0 <= K.
Hypothesis Hp : 0 < p < 2 ^ 31.
Hypothesis Hmr : 0 < m_r < 2 ^ 31.
Hypothesis Hnr : 0 < n_r < 2 ^ 31.
Hypothesis H : bf M N K p m_r n_r tM mt x.
Hypothesis LM : M_padded x < 2 ^ 31.
Hypothesis LN : N_padded x < 2 ^ 31.
Hypothesis LK : K < 2 ^ 31.
Hypothesis LA : M_padded x * K < 2 ^ 31.
Hypothesis LB : K * N_padded x < 2 ^ 31.
Hypothesis LC : M_padded x * N_padded x < 2 ^ 31.
Hypothesis Lpk : p * k_c x < 2 ^ 31.
Hypothesis LtM : tM < 2 ^ 31.
Hypothesis Ln : n_c x < 2 ^ 31.

Notation Mp := (M_padded x).
Notation Np := (N_padded x).
Notation tK := (p * k_c x).

Lemma b_M m : 0 <= m < Mb x -> 0 < tM /\ 0 < mt m <= tM /\ m * tM + mt m <= Mp /\ (m_r | mt m) /\ m * tM < M /\ 0 <= m * tM.
Proof.
  intros Hm. pose proof (bf_M _ _ _ _ _ _ _ _ _ H) as P. pose proof (bf_tM _ _ _ _ _ _ _ _ _ H).
  pose proof (pt_w _ _ _ _ P m Hm). pose proof (part_end _ _ _ _ P m Hm).
  pose proof (bf_mr _ _ _ _ _ _ _ _ _ H m Hm). pose proof (bf_m1 _ _ _ _ _ _ _ _ _ H m Hm). pos m tM. auto 10.
Qed.

Lemma b_N n : 0 <= n < Nb x ->
  0 < n_c x /\ 0 < blk_nt x n <= n_c x /\ n * n_c x + blk_nt x n <= Np /\ (n_r | blk_nt x n) /\
  blk_n1 x N n = n * n_c x /\ n * n_c x < N /\ 0 <= n * n_c x.
Proof.
  intros Hn. pose proof (bf_N _ _ _ _ _ _ _ _ _ H) as P. pose proof (bf_nc _ _ _ _ _ _ _ _ _ H).
  pose proof (pt_w _ _ _ _ P n Hn). pose proof (part_end _ _ _ _ P n Hn).
  pose proof (bf_nr _ _ _ _ _ _ _ _ _ H n Hn). destruct (bf_n1 _ _ _ _ _ _ _ _ _ H n Hn). pos n (n_c x). auto 10.
Qed.

Lemma b_K k : 0 <= k < Kb x ->
  0 < k_c x /\ 0 < tK /\ 0 < blk_kcb x p k <= tK /\ k * tK + blk_kcb x p k <= K /\ 0 <= k * tK /\
  1 <= blk_pk x p k <= p /\ 0 < core_kx x k.
Proof.
  intros Hk. pose proof (bf_K _ _ _ _ _ _ _ _ _ H) as P. pose proof (bf_kc _ _ _ _ _ _ _ _ _ H).
  pose proof (pt_w _ _ _ _ P k Hk). pose proof (part_end _ _ _ _ P k Hk).
  assert (0 < tK) by lia. pos k (p * k_c x). pose proof (bf_pk _ _ _ _ _ _ _ _ _ H k Hk).
  pose proof (bf_C _ _ _ _ _ _ _ _ _ H k Hk) as PC. pose proof (pt_w _ _ _ _ PC 0 ltac:(lia)).
  repeat split; auto; lia.
Qed.

Lemma b_core k core : 0 <= k < Kb x -> 0 <= core < blk_pk x p k ->
  0 < core_kt x k core <= core_kx x k /\ core * core_kx x k + core_kt x k core <= blk_kcb x p k /\ 0 <= core * core_kx x k.
Proof.
  intros Hk Hc. destruct (b_K k Hk) as (_ & _ & _ & _ & _ & _ & Hx).
  pose proof (bf_C _ _ _ _ _ _ _ _ _ H k Hk) as PC.
  pose proof (pt_w _ _ _ _ PC core Hc). pose proof (part_end _ _ _ _ PC core Hc). pos core (core_kx x k). auto 10.
Qed.

Lemma b_nb : 0 <= Mb x <= Mp /\ 0 <= Nb x <= Np /\ 0 <= Kb x <= K.
Proof.
  pose proof (bf_M _ _ _ _ _ _ _ _ _ H) as PM. pose proof (bf_N _ _ _ _ _ _ _ _ _ H) as PN.
  pose proof (bf_K _ _ _ _ _ _ _ _ _ H) as PK.
  pose proof (nb_le _ _ _ _ PM). pose proof (nb_le _ _ _ _ PN). pose proof (nb_le _ _ _ _ PK).
  pose proof (pt_nb _ _ _ _ PM). pose proof (pt_nb _ _ _ _ PN). pose proof (pt_nb _ _ _ _ PK). lia.
Qed.

Lemma kcb_32 k : 0 <= k < Kb x -> blk_kcb32 S x p k = PRet (blk_kcb x p k).
Proof.
  intros Hk. destruct (b_K k Hk) as (B1 & B2 & B3 & _). unfold blk_kcb32, blk_kcb.
  destruct (is_last k (Kb x) (k_pad x)); auto. unfold pint.
  assert (E : isafe (p * k_c x)%ix = true) by (safe; lia). now rewrite E.
Qed.

Lemma bn1_32 n : 0 <= n < Nb x ->
  blk_n1_32 (pint (V := S)) x N n = PRet (blk_n1 x N n) /\ blk_n1_32 (tint (V := S)) x N n = TRet (blk_n1 x N n).
Proof.
  intros Hn. destruct (b_N n Hn) as (B1 & B2 & B3 & B4 & B5 & B6 & B7). pose proof (bf_Np _ _ _ _ _ _ _ _ _ H).
  unfold blk_n1_32. unfold blk_n1 in *. unfold pint, tint.
  pose proof (Z.rem_bound_pos N (n_c x) HN B1).
  assert (Z.rem N (n_c x) <= N). { rewrite Z.rem_mod_nonneg by lia. apply Z.mod_le; lia. }
  destruct (is_last n (Nb x) (n_pad x)).
  - assert (E : isafe (N - (N rem n_c x))%ix = true) by (safe; lia). now rewrite E.
  - assert (E : isafe (n * n_c x)%ix = true) by (safe; lia). now rewrite E.
Qed.

Lemma packA_cores A A_p m k o A_offset e1 :
  0 <= m < Mb x -> 0 <= k < Kb x -> 0 <= o -> o + blk_kcb x p k * mt m < 2 ^ 31 ->
  A_offset = m * tM * K + k * tK -> isafe e1 = true -> ival e1 = m * tM ->
  psame (fun _ => True)
    (ppar_for32 0 (blk_pk x p k) 1 (fun core =>
      (let+ a := tint (A_offset + core * core_kx x k) in
       let+ ap := tint (o + core * core_kx x k * mt m) in
       let+ m1 := tint e1 in
       pack_ob_A_single_buf32 S (padd A a) (padd A_p ap) M K m1 0 (mt m) (core_kt x k core) m_r)%thr))
    (ppar_for 0 (blk_pk x p k) 1 (fun core =>
       pack_ob_A_single_buf S (padd A (A_offset + core * core_kx x k)) (padd A_p (o + core * core_kx x k * mt m))
         M K (m * tM) 0 (mt m) (core_kt x k core) m_r)).
Proof.
  intros Hm Hk Ho Lo -> E1 E2.
  destruct (b_M m Hm) as (M1 & M2 & M3 & M4 & M5 & M6). destruct (b_K k Hk) as (K1 & K2 & K3 & K4 & K5 & K6 & K7).
  apply ps_par; try lia; [apply divide_1|]. intros core Hc0 Hc1 _.
  destruct (b_core k core Hk ltac:(lia)) as (D1 & D2 & D3).
  pose proof (row_bound (m * tM) K (k * tK + core * core_kx x k) Mp ltac:(lia) ltac:(lia) ltac:(lia)).
  pose proof (prod_bound (core * core_kx x k) (mt m) (blk_kcb x p k) (mt m) ltac:(lia) ltac:(lia)).
  pose proof (prod_bound (mt m) K Mp K ltac:(lia) ltac:(lia)).
  pos (m * tM) K.
  apply ts_int; [safe; lia|]. apply ts_int; [safe; lia|]. apply ts_int; [exact E1|]. rewrite E2. cbn [ival].
  apply pack_ob_A_32; try lia; auto.
Qed.

Lemma packB_block_32 B B_p n k o :
  0 <= n < Nb x -> 0 <= k < Kb x -> 0 <= o -> o + blk_kcb x p k * blk_nt x n < 2 ^ 31 ->
  psame (fun r => r = o + blk_kcb x p k * blk_nt x n)
    (pack_B_block32 S B B_p K N p x n_r n k (blk_n1 x N n) (blk_kcb x p k) o)
    (let nt := blk_nt x n in
     let B_offset := k * p * k_c x * N + n * n_c x in
     ppar_for 0 (blk_pk x p k) 1 (fun core =>
       let kx := core_kx x k in
       pack_ob_B_single_buf S (padd B (B_offset + core * kx * N)) (padd B_p (o + core * kx * nt))
         K N (blk_n1 x N n) (core_kt x k core) nt n_r (core_kpad x k core)) ;;;
     PRet (o + blk_kcb x p k * nt))%prog.
Proof.
  intros Hn Hk Ho Lo. unfold pack_B_block32. cbv zeta.
  destruct (b_N n Hn) as (N1 & N2 & N3 & N4 & N5 & N6 & N7). destruct (b_K k Hk) as (K1 & K2 & K3 & K4 & K5 & K6 & K7).
  pose proof (bf_Np _ _ _ _ _ _ _ _ _ H).
  pose proof (row_bound (k * tK) N (n * n_c x) K ltac:(lia) ltac:(lia) ltac:(lia)).
  pose proof (prod_bound K N K Np ltac:(lia) ltac:(lia)). pos (k * tK) N.
  apply ps_int; [safe; lia|]. cbn [ival].
  eapply ps_bind with (P := fun _ => True).
  - apply ps_par; try lia; [apply divide_1|]. intros core Hc0 Hc1 _.
    destruct (b_core k core Hk ltac:(lia)) as (D1 & D2 & D3).
    pose proof (row_bound (k * tK + core * core_kx x k) N (n * n_c x) K ltac:(lia) ltac:(lia) ltac:(lia)).
    pose proof (prod_bound (core * core_kx x k) (blk_nt x n) (blk_kcb x p k) (blk_nt x n) ltac:(lia) ltac:(lia)).
    pos (core * core_kx x k) N.
    apply ts_int; [safe; lia|]. apply ts_int; [safe; lia|]. cbn [ival].
    apply pack_ob_B_32 with (Np := Np); try lia; auto.
  - intros _ _. apply ps_int_ret; [safe; lia|reflexivity|lia].
Qed.

Notation offM := (off (Mb x) tM Mp).
Notation offN := (off (Nb x) (n_c x) Np).
Notation offK := (off (Kb x) tK K).

Lemma packB_m_32 B B_p : pack_B_m_first32 S B B_p K N p x n_r = pack_B_m_first S B B_p K N p x n_r.
Proof.
  pose proof (bf_N _ _ _ _ _ _ _ _ _ H) as PN. pose proof (bf_K _ _ _ _ _ _ _ _ _ H) as PK. pose proof b_nb.
  assert (E : psame (fun _ => True) (pack_B_m_first32 S B B_p K N p x n_r) (pack_B_m_first S B B_p K N p x n_r)); [|apply E].
  unfold pack_B_m_first32, pack_B_m_first.
  eapply ps_bind; [|intros; now apply ps_ret].
  apply (ps_for (fun n o => o = offN n * K)); try lia; [apply divide_1|now rewrite (off_0 _ _ _ _ PN)|].
  intros n o Hn0 Hn1 _ ->. assert (Hn : 0 <= n < Nb x) by lia.
  destruct (b_N n Hn) as (N1 & N2 & N3 & N4 & N5 & N6 & N7). destruct (bn1_32 n Hn) as [-> _]. cbn [pbind].
  rewrite (off_lt _ _ _ n) by lia. eapply ps_weak.
  { apply (ps_for (fun k o => o = n * n_c x * K + blk_nt x n * offK k)); try lia; [apply divide_1|rewrite (off_0 _ _ _ _ PK); lia|].
    intros k o Hk0 Hk1 _ ->. assert (Hk : 0 <= k < Kb x) by lia.
    destruct (b_K k Hk) as (K1 & K2 & K3 & K4 & K5 & K6 & K7). rewrite (kcb_32 k Hk). cbn [pbind].
    rewrite (off_lt _ _ _ k) by lia. destruct (blk_end (n * n_c x) (blk_nt x n) (k * tK) (blk_kcb x p k) Np K) as (E1 & E2 & E3); try lia.
    eapply ps_weak; [apply packB_block_32; auto; lia|]. cbv beta. intros r ->. rewrite (off_S _ _ _ _ PK) by lia. ring. }
  cbv beta. intros o ->. rewrite (off_S _ _ _ _ PN), off_n by lia. ring.
Qed.

Lemma packB_n_32 B B_p : pack_B_n_first32 S B B_p K N p x n_r = pack_B_n_first S B B_p K N p x n_r.
Proof.
  pose proof (bf_N _ _ _ _ _ _ _ _ _ H) as PN. pose proof (bf_K _ _ _ _ _ _ _ _ _ H) as PK. pose proof b_nb.
  assert (E : psame (fun _ => True) (pack_B_n_first32 S B B_p K N p x n_r) (pack_B_n_first S B B_p K N p x n_r)); [|apply E].
  unfold pack_B_n_first32, pack_B_n_first.
  eapply ps_bind; [|intros; now apply ps_ret].
  apply (ps_for (fun k o => o = offK k * Np)); try lia; [apply divide_1|now rewrite (off_0 _ _ _ _ PK)|].
  intros k o Hk0 Hk1 _ ->. assert (Hk : 0 <= k < Kb x) by lia.
  destruct (b_K k Hk) as (K1 & K2 & K3 & K4 & K5 & K6 & K7). rewrite (kcb_32 k Hk). cbn [pbind].
  rewrite (off_lt _ _ _ k) by lia. eapply ps_weak.
  { apply (ps_for (fun n o => o = k * tK * Np + blk_kcb x p k * offN n)); try lia; [apply divide_1|rewrite (off_0 _ _ _ _ PN); lia|].
    intros n o Hn0 Hn1 _ ->. assert (Hn : 0 <= n < Nb x) by lia.
    destruct (b_N n Hn) as (N1 & N2 & N3 & N4 & N5 & N6 & N7). destruct (bn1_32 n Hn) as [-> _]. cbn [pbind].
    rewrite (off_lt _ _ _ n) by lia. destruct (blk_end (k * tK) (blk_kcb x p k) (n * n_c x) (blk_nt x n) K Np) as (E1 & E2 & E3); try lia.
    eapply ps_weak; [apply packB_block_32; auto; lia|]. cbv beta. intros r ->. rewrite (off_S _ _ _ _ PN) by lia. ring. }
  cbv beta. intros o ->. rewrite (off_S _ _ _ _ PK), off_n by lia. ring.
Qed.

End MN.

Section M.
Variable S : scalar.
Variables (M N K p m_r n_r : Z) (x : blk_dims).
Hypothesis HM : 0 <= M.
Hypothesis HN : 0 <= N.
Hypothesis HK : 0 <= K.
Hypothesis Hp : 0 < p < 2 ^ 31.
Hypothesis Hmr : 0 < m_r < 2 ^ 31.
Hypothesis Hnr : 0 < n_r < 2 ^ 31.
Hypothesis H : bf M N K p m_r n_r (m_c x) (mf_mt x) x.
Hypothesis LM : M_padded x < 2 ^ 31.
Hypothesis LN : N_padded x < 2 ^ 31.
Hypothesis LK : K < 2 ^ 31.
Hypothesis LA : M_padded x * K < 2 ^ 31.
Hypothesis LB : K * N_padded x < 2 ^ 31.
Hypothesis LC : M_padded x * N_padded x < 2 ^ 31.
Hypothesis Lpk : p * k_c x < 2 ^ 31.
Hypothesis LtM : m_c x < 2 ^ 31.
Hypothesis Ln : n_c x < 2 ^ 31.

Notation all L := (L S M N K p m_r n_r (m_c x) (mf_mt x) x HM HN HK Hp Hmr Hnr H LM LN LK LA LB LC Lpk LtM Ln).
Notation Mp := (M_padded x).
Notation Np := (N_padded x).
Notation tK := (p * k_c x).
Notation offM := (off (Mb x) (m_c x) Mp).
Notation offN := (off (Nb x) (n_c x) Np).
Notation offK := (off (Kb x) tK K).

Lemma m_packA_32 A A_p : pack_A_single_buf_m_first32 S A A_p M K p x m_r = pack_A_single_buf_m_first S A A_p M K p x m_r.
Proof.
  pose proof (bf_M _ _ _ _ _ _ _ _ _ H) as PM. pose proof (bf_K _ _ _ _ _ _ _ _ _ H) as PK. pose proof (all b_nb).
  assert (E : psame (fun _ => True) (pack_A_single_buf_m_first32 S A A_p M K p x m_r)
    (pack_A_single_buf_m_first S A A_p M K p x m_r)); [|apply E].
  unfold pack_A_single_buf_m_first32, pack_A_single_buf_m_first.
  eapply ps_bind; [|intros; now apply ps_ret].
  apply (ps_for (fun k o => o = offK k * Mp)); try lia; [apply divide_1|now rewrite (off_0 _ _ _ _ PK)|].
  intros k o Hk0 Hk1 _ ->. assert (Hk : 0 <= k < Kb x) by lia.
  destruct (all b_K k Hk) as (K1 & K2 & K3 & K4 & K5 & K6 & K7). rewrite (all kcb_32 k Hk). cbn [pbind].
  rewrite (off_lt _ _ _ k) by lia. eapply ps_weak.
  { apply (ps_for (fun m o => o = k * tK * Mp + blk_kcb x p k * offM m)); try lia; [apply divide_1|rewrite (off_0 _ _ _ _ PM); lia|].
    intros m o Hm0 Hm1 _ ->. assert (Hm : 0 <= m < Mb x) by lia.
    destruct (all b_M m Hm) as (M1 & M2 & M3 & M4 & M5 & M6).
    rewrite (off_lt _ _ _ m) by lia. destruct (blk_end (k * tK) (blk_kcb x p k) (m * m_c x) (mf_mt x m) K Mp) as (E1 & E2 & E3); try lia.
    pose proof (row_bound (m * m_c x) K (k * tK) Mp ltac:(lia) ltac:(lia) ltac:(lia)). pos (m * m_c x) K.
    apply ps_int; [safe; lia|]. cbn [ival].
    eapply ps_bind; [apply (all packA_cores A A_p m k); auto; try lia; safe; lia|].
    intros _ _. apply ps_int_ret; [safe; lia|reflexivity|].
    cbv beta. rewrite (off_S _ _ _ _ PM) by lia. ring. }
  cbv beta. intros o ->. rewrite (off_S _ _ _ _ PK), off_n by lia. ring.
Qed.

Lemma mm1_32 m : 0 <= m < Mb x -> mf_m1_32 S x M m = TRet (m * m_c x) /\ mf_m1 x M m = m * m_c x.
Proof.
  intros Hm. destruct (all b_M m Hm) as (M1 & M2 & M3 & M4 & M5 & M6). pose proof (bf_Mp _ _ _ _ _ _ _ _ _ H).
  unfold mf_m1_32, mf_m1. pose proof (bf_ml _ _ _ _ _ _ _ _ _ H m Hm) as L. unfold tint.
  pose proof (Z.rem_bound_pos M (m_c x) HM M1).
  assert (Z.rem M (m_c x) <= M). { rewrite Z.rem_mod_nonneg by lia. apply Z.mod_le; lia. }
  destruct (is_last m (Mb x) (m_pad x)).
  - assert (E : isafe (M - (M rem m_c x))%ix = true) by (safe; lia). rewrite E. cbn [ival]. now rewrite L.
  - assert (E : isafe (m * m_c x)%ix = true) by (safe; lia). now rewrite E.
Qed.

Lemma m_C_ix n m : 0 <= n < Nb x -> 0 <= m < Mb x ->
  isafe (Mp * n * n_c x)%ix = true /\ isafe (m * m_c x * N + n * n_c x)%ix = true /\
  isafe (Mp * n * n_c x + m * m_c x * blk_nt x n)%ix = true.
Proof.
  intros Hn Hm. destruct (all b_M m Hm) as (M1 & M2 & M3 & M4 & M5 & M6).
  destruct (all b_N n Hn) as (N1 & N2 & N3 & N4 & N5 & N6 & N7). pose proof (bf_Np _ _ _ _ _ _ _ _ _ H).
  destruct (blk_end (n * n_c x) (blk_nt x n) (m * m_c x) (mf_mt x m) Np Mp) as (E1 & E2 & E3); try lia.
  pos (blk_nt x n) (mf_mt x m). pose proof (row_bound (m * m_c x) N (n * n_c x) Mp ltac:(lia) ltac:(lia) ltac:(lia)).
  pose proof (prod_bound Mp N Mp Np ltac:(lia) ltac:(lia)). repeat split; safe; lia.
Qed.

Lemma m_packC_32 C C_p :
  pack_C_single_buf_m_first32 S C C_p M N p x m_r n_r = pack_C_single_buf_m_first S C C_p M N p x m_r n_r.
Proof.
  pose proof (all b_nb). pose proof (bf_Np _ _ _ _ _ _ _ _ _ H). pose proof (bf_Mp _ _ _ _ _ _ _ _ _ H).
  assert (E : psame (fun _ => True) (pack_C_single_buf_m_first32 S C C_p M N p x m_r n_r)
    (pack_C_single_buf_m_first S C C_p M N p x m_r n_r)); [|apply E].
  unfold pack_C_single_buf_m_first32, pack_C_single_buf_m_first.
  apply ps_for_; try lia; [apply divide_1|]. intros n Hn0 Hn1 _. assert (Hn : 0 <= n < Nb x) by lia.
  destruct (all b_N n Hn) as (N1 & N2 & N3 & N4 & N5 & N6 & N7). destruct (all bn1_32 n Hn) as [-> _]. cbn [pbind].
  apply ps_int; [safe; try lia|].
  { pose proof (prod_bound Mp (n * n_c x) Mp Np ltac:(lia) ltac:(lia)). lia. }
  cbn [ival]. apply ps_par; try lia; [apply divide_1|]. intros m Hm0 Hm1 _. assert (Hm : 0 <= m < Mb x) by lia.
  destruct (all b_M m Hm) as (M1 & M2 & M3 & M4 & M5 & M6). destruct (mm1_32 m Hm) as [-> ->]. cbn [tbind].
  destruct (m_C_ix n m Hn Hm) as (X1 & X2 & X3).
  apply ts_int; [exact X2|]. apply ts_int.
  { destruct (all b_M m Hm) as (_ & _ & _ & _ & _ & _).
    destruct (blk_end (n * n_c x) (blk_nt x n) (m * m_c x) (mf_mt x m) Np Mp) as (E1 & E2 & E3); try lia.
    pos (blk_nt x n) (mf_mt x m). safe; lia. }
  cbn [ival]. apply pack_ob_C_32 with (Mp := Mp) (Np := Np); auto; try lia.
Qed.

Lemma m_unpackC_32 C C_p :
  unpack_C_single_buf_m_first32 S C C_p M N p x m_r n_r = unpack_C_single_buf_m_first S C C_p M N p x m_r n_r.
Proof.
  pose proof (all b_nb). pose proof (bf_Np _ _ _ _ _ _ _ _ _ H). pose proof (bf_Mp _ _ _ _ _ _ _ _ _ H).
  assert (E : psame (fun _ => True) (unpack_C_single_buf_m_first32 S C C_p M N p x m_r n_r)
    (unpack_C_single_buf_m_first S C C_p M N p x m_r n_r)); [|apply E].
  unfold unpack_C_single_buf_m_first32, unpack_C_single_buf_m_first.
  apply ps_for_; try lia; [apply divide_1|]. intros n Hn0 Hn1 _. assert (Hn : 0 <= n < Nb x) by lia.
  destruct (all b_N n Hn) as (N1 & N2 & N3 & N4 & N5 & N6 & N7). destruct (all bn1_32 n Hn) as [-> _]. cbn [pbind].
  apply ps_int; [safe; try lia|].
  { pose proof (prod_bound Mp (n * n_c x) Mp Np ltac:(lia) ltac:(lia)). lia. }
  cbn [ival]. apply ps_par; try lia; [apply divide_1|]. intros m Hm0 Hm1 _. assert (Hm : 0 <= m < Mb x) by lia.
  destruct (all b_M m Hm) as (M1 & M2 & M3 & M4 & M5 & M6). destruct (mm1_32 m Hm) as [-> ->]. cbn [tbind].
  destruct (m_C_ix n m Hn Hm) as (X1 & X2 & X3).
  apply ts_int; [exact X2|]. apply ts_int.
  { destruct (blk_end (n * n_c x) (blk_nt x n) (m * m_c x) (mf_mt x m) Np Mp) as (E1 & E2 & E3); try lia.
    pos (blk_nt x n) (mf_mt x m). safe; lia. }
  cbn [ival]. apply unpack_ob_C_32 with (Mp := Mp) (Np := Np); auto; try lia.
Qed.

Lemma mkn_row_32 ar A_p B_p C_p c n k m :
  mr c = m_r -> nr c = n_r -> 0 <= n < Nb x -> 0 <= k < Kb x -> 0 <= m < Mb x ->
  forall st inc i, m = st + i * inc -> isafe (IxAdd (IxV st) (IxMul (IxV i) (IxV inc))) = true ->
  tsame (fun _ => True) (mkn_row32 S ar A_p B_p C_p K p c x n k (blk_kcb x p k) st inc i)
    (mkn_row S ar A_p B_p C_p K p c x n k m).
Proof.
  intros Em En Hn Hk Hm st inc i Ei Es. unfold mkn_row32, mkn_row. rewrite Em, En.
  destruct (all b_M m Hm) as (M1 & M2 & M3 & M4 & M5 & M6).
  destruct (all b_N n Hn) as (N1 & N2 & N3 & N4 & N5 & N6 & N7).
  destruct (all b_K k Hk) as (K1 & K2 & K3 & K4 & K5 & K6 & K7).
  apply ts_int; [exact Es|]. cbn [ival]. rewrite <- Ei. clear Ei Es.
  apply ts_for_; try lia; [apply divide_1|]. intros core Hc0 Hc1 _.
  destruct (all b_core k core Hk ltac:(lia)) as (D1 & D2 & D3).
  pose proof (bf_Np _ _ _ _ _ _ _ _ _ H) as HNp. pose proof (bf_Mp _ _ _ _ _ _ _ _ _ H) as HMp.
  clear M5 N5 N6.
  set (mt := mf_mt x m) in *. set (nt := blk_nt x n) in *. set (kt := core_kt x k core) in *.
  set (kx := core_kx x k) in *. set (W := blk_kcb x p k) in *.
  pose proof (blk_bound (k * tK) W (m * m_c x) mt (core * kx + kt) K Mp
      ltac:(lia) ltac:(lia) ltac:(lia) ltac:(lia) K4 M3 ltac:(lia)) as BA.
  pose proof (blk_bound (n * n_c x) nt (k * tK + core * kx) kt nt Np K
      ltac:(lia) ltac:(lia) ltac:(lia) ltac:(lia) N3 ltac:(lia) ltac:(lia)) as BB.
  pose proof (blk_bound (n * n_c x) nt (m * m_c x) mt nt Np Mp
      ltac:(lia) ltac:(lia) ltac:(lia) ltac:(lia) N3 ltac:(lia) ltac:(lia)) as BC.
  pos (k * tK) Mp. pos W (m * m_c x). pos (core * kx) mt. pos kt mt.
  pos (n * n_c x) K. pos nt (k * tK + core * kx). pos nt kt. pos (n * n_c x) Mp. pos nt (m * m_c x). pos nt mt.
  assert (Ga : isafe (k * Mp * p * k_c x + m * m_c x * W + core * mt * kx)%ix = true) by (safe; lia).
  assert (Gb : isafe (n * K * n_c x + k * p * k_c x * nt + core * kx * nt)%ix = true) by (safe; lia).
  assert (Gc : isafe (n * Mp * n_c x + m * m_c x * nt)%ix = true) by (safe; lia).
  apply ts_int; [exact Ga|]. apply ts_int; [exact Gb|]. apply ts_int; [exact Gc|]. cbn [ival].
  set (a := k * Mp * p * k_c x + m * m_c x * W + core * mt * kx) in *.
  set (b := n * K * n_c x + k * p * k_c x * nt + core * kx * nt) in *.
  set (d := n * Mp * n_c x + m * m_c x * nt) in *.
  assert (A1 : 0 <= a /\ a + mt * kt < 2 ^ 31) by (unfold a; lia).
  assert (A2 : 0 <= b /\ b + nt * kt < 2 ^ 31) by (unfold b; lia).
  assert (A3 : 0 <= d /\ d + mt * nt < 2 ^ 31) by (unfold d; lia).
  clearbody a b d. clear BA BB BC.
  apply tile_loops_32; auto; try lia.
  intros. apply (cix_ind d mt nt); auto; lia.
Qed.

Lemma m_schedule_32 ar A_p B_p C_p c :
  mr c = m_r -> nr c = n_r ->
  schedule_MKN32 S ar A_p B_p C_p M N K p c x = schedule_MKN S ar A_p B_p C_p M N K p c x.
Proof.
  intros Em En. pose proof (all b_nb).
  assert (E : psame (fun _ => True) (schedule_MKN32 S ar A_p B_p C_p M N K p c x)
    (schedule_MKN S ar A_p B_p C_p M N K p c x)); [|apply E].
  unfold schedule_MKN32, schedule_MKN.
  apply ps_for_; try lia; [apply divide_1|]. intros n Hn0 Hn1 _. assert (Hn : 0 <= n < Nb x) by lia.
  apply ps_snake_; [lia|]. intros k Hk. rewrite (all kcb_32 k Hk). cbn [pbind].
  apply ps_par; try lia; [apply divide_1|]. intros i Hi0 Hi1 _.
  destruct (snake_safe (inner_rev n k) (Mb x) i) as [E1 E2]; try lia.
  apply mkn_row_32; auto.
Qed.

End M.

Section N.
Variable S : scalar.
Variables (M N K p m_r n_r : Z) (x : blk_dims).
Hypothesis HM : 0 <= M.
Hypothesis HN : 0 <= N.
Hypothesis HK : 0 <= K.
Hypothesis Hp : 0 < p < 2 ^ 31.
Hypothesis Hmr : 0 < m_r < 2 ^ 31.
Hypothesis Hnr : 0 < n_r < 2 ^ 31.
Hypothesis H : bf M N K p m_r n_r (p * m_c x) (nf_mt x p) x.
Hypothesis LM : M_padded x < 2 ^ 31.
Hypothesis LN : N_padded x < 2 ^ 31.
Hypothesis LK : K < 2 ^ 31.
Hypothesis LA : M_padded x * K < 2 ^ 31.
Hypothesis LB : K * N_padded x < 2 ^ 31.
Hypothesis LC : M_padded x * N_padded x < 2 ^ 31.
Hypothesis Lpk : p * k_c x < 2 ^ 31.
Hypothesis LtM : p * m_c x < 2 ^ 31.
Hypothesis Ln : n_c x < 2 ^ 31.

Notation all L := (L S M N K p m_r n_r (p * m_c x) (nf_mt x p) x HM HN HK Hp Hmr Hnr H LM LN LK LA LB LC Lpk LtM Ln).
Notation Mp := (M_padded x).
Notation Np := (N_padded x).
Notation tK := (p * k_c x).
Notation offM := (off (Mb x) (p * m_c x) Mp).
Notation offN := (off (Nb x) (n_c x) Np).
Notation offK := (off (Kb x) tK K).

Lemma n_mc : 0 < m_c x.
Proof. pose proof (bf_tM _ _ _ _ _ _ _ _ _ H). destruct (Z_le_gt_dec (m_c x) 0); [nia|lia]. Qed.

Lemma n_mt_32 m : 0 <= m < Mb x -> nf_mt32 S x p m = PRet (nf_mt x p m).
Proof.
  intros Hm. pose proof n_mc. pose proof (bf_tM _ _ _ _ _ _ _ _ _ H). unfold nf_mt32, nf_mt, pint.
  assert (E : isafe (p * m_c x)%ix = true) by (safe; lia). now rewrite E.
Qed.

Lemma n_packA_32 A A_p : pack_A_single_buf_n_first32 S A A_p M K p x m_r = pack_A_single_buf_n_first S A A_p M K p x m_r.
Proof.
  pose proof (bf_M _ _ _ _ _ _ _ _ _ H) as PM. pose proof (bf_K _ _ _ _ _ _ _ _ _ H) as PK. pose proof (all b_nb).
  pose proof n_mc.
  assert (E : psame (fun _ => True) (pack_A_single_buf_n_first32 S A A_p M K p x m_r)
    (pack_A_single_buf_n_first S A A_p M K p x m_r)); [|apply E].
  unfold pack_A_single_buf_n_first32, pack_A_single_buf_n_first.
  eapply ps_bind; [|intros; now apply ps_ret].
  apply (ps_for (fun m o => o = offM m * K)); try lia; [apply divide_1|now rewrite (off_0 _ _ _ _ PM)|].
  intros m o Hm0 Hm1 _ ->. assert (Hm : 0 <= m < Mb x) by lia.
  destruct (all b_M m Hm) as (M1 & M2 & M3 & M4 & M5 & M6). rewrite (n_mt_32 m Hm). cbn [pbind].
  rewrite (off_lt _ _ _ m) by lia. eapply ps_weak.
  { apply (ps_for (fun k o => o = m * (p * m_c x) * K + nf_mt x p m * offK k)); try lia; [apply divide_1|rewrite (off_0 _ _ _ _ PK); lia|].
    intros k o Hk0 Hk1 _ ->. assert (Hk : 0 <= k < Kb x) by lia.
    destruct (all b_K k Hk) as (K1 & K2 & K3 & K4 & K5 & K6 & K7). rewrite (all kcb_32 k Hk). cbn [pbind].
    rewrite (off_lt _ _ _ k) by lia.
    destruct (blk_end (m * (p * m_c x)) (nf_mt x p m) (k * tK) (blk_kcb x p k) Mp K) as (E1 & E2 & E3); try lia.
    pose proof (row_bound (m * (p * m_c x)) K (k * tK) Mp ltac:(lia) ltac:(lia) ltac:(lia)).
    apply ps_int; [safe; lia|]. cbn [ival].
    eapply ps_bind.
    { replace (m * p * m_c x) with (m * (p * m_c x)) by ring.
      apply (all packA_cores A A_p m k); auto; try lia; [safe; lia|cbn [ival]; lia]. }
    intros _ _. apply ps_int_ret; [safe; lia|reflexivity|].
    cbv beta. rewrite (off_S _ _ _ _ PK) by lia. ring. }
  cbv beta. intros o ->. rewrite (off_S _ _ _ _ PM), off_n by lia. ring.
Qed.

Lemma nm1_32 m : 0 <= m < Mb x -> blk_m1_32 (pint (V := S)) x M p m = PRet (m * (p * m_c x)) /\ blk_m1 x M p m = m * (p * m_c x).
Proof.
  intros Hm. destruct (all b_M m Hm) as (M1 & M2 & M3 & M4 & M5 & M6). pose proof (bf_Mp _ _ _ _ _ _ _ _ _ H).
  pose proof n_mc.
  unfold blk_m1_32, blk_m1. pose proof (bf_ml _ _ _ _ _ _ _ _ _ H m Hm) as L. unfold pint.
  pose proof (Z.rem_bound_pos M (p * m_c x) HM M1).
  assert (Z.rem M (p * m_c x) <= M). { rewrite Z.rem_mod_nonneg by lia. apply Z.mod_le; lia. }
  destruct (is_last m (Mb x) (m_pad x)).
  - assert (E : isafe (M - (M rem (p * m_c x)))%ix = true) by (safe; lia). rewrite E. cbn [ival]. now rewrite L.
  - assert (E : isafe (m * p * m_c x)%ix = true) by (safe; lia). rewrite E. cbn [ival]. split; [f_equal|]; ring.
Qed.

Lemma n_unpackC_32 C C_p :
  unpack_C_single_buf_n_first32 S C C_p M N p x m_r n_r = unpack_C_single_buf_n_first S C C_p M N p x m_r n_r.
Proof.
  pose proof (all b_nb). pose proof (bf_Np _ _ _ _ _ _ _ _ _ H). pose proof (bf_Mp _ _ _ _ _ _ _ _ _ H). pose proof n_mc.
  assert (E : psame (fun _ => True) (unpack_C_single_buf_n_first32 S C C_p M N p x m_r n_r)
    (unpack_C_single_buf_n_first S C C_p M N p x m_r n_r)); [|apply E].
  unfold unpack_C_single_buf_n_first32, unpack_C_single_buf_n_first.
  apply ps_for_; try lia; [apply divide_1|]. intros m Hm0 Hm1 _. assert (Hm : 0 <= m < Mb x) by lia.
  destruct (all b_M m Hm) as (M1 & M2 & M3 & M4 & M5 & M6). rewrite (n_mt_32 m Hm). cbn [pbind].
  destruct (nm1_32 m Hm) as [-> ->]. cbn [pbind].
  pose proof (prod_bound (m * (p * m_c x)) Np Mp Np ltac:(lia) ltac:(lia)).
  apply ps_int; [safe; lia|].
  cbn [ival]. apply ps_par; try lia; [apply divide_1|]. intros n Hn0 Hn1 _. assert (Hn : 0 <= n < Nb x) by lia.
  destruct (all b_N n Hn) as (N1 & N2 & N3 & N4 & N5 & N6 & N7). destruct (all bn1_32 n Hn) as [_ ->]. cbn [tbind].
  destruct (blk_end (m * (p * m_c x)) (nf_mt x p m) (n * n_c x) (blk_nt x n) Mp Np) as (E1 & E2 & E3); try lia.
  pose proof (row_bound (m * (p * m_c x)) N (n * n_c x) Mp ltac:(lia) ltac:(lia) ltac:(lia)).
  pose proof (prod_bound Mp N Mp Np ltac:(lia) ltac:(lia)). pos (nf_mt x p m) (blk_nt x n).
  pos (m * (p * m_c x)) N.
  apply ts_int; [safe; lia|]. apply ts_int; [safe; lia|].
  cbn [ival]. apply unpack_ob_C_32 with (Mp := Mp) (Np := Np); auto; try lia.
Qed.

(** pack_C reads the offset n * p * m_c * n_c_t: for the last rows it may be larger than the
    packed matrix.  Here it is assumed to fit. *)
Lemma n_packC_32 C C_p :
  Mp * Np + p * m_c x * Np < 2 ^ 31 ->
  pack_C_single_buf_n_first32 S C C_p M N p x m_r n_r = pack_C_single_buf_n_first S C C_p M N p x m_r n_r.
Proof.
  intros LL.
  pose proof (all b_nb). pose proof (bf_Np _ _ _ _ _ _ _ _ _ H). pose proof (bf_Mp _ _ _ _ _ _ _ _ _ H). pose proof n_mc.
  assert (E : psame (fun _ => True) (pack_C_single_buf_n_first32 S C C_p M N p x m_r n_r)
    (pack_C_single_buf_n_first S C C_p M N p x m_r n_r)); [|apply E].
  unfold pack_C_single_buf_n_first32, pack_C_single_buf_n_first.
  apply ps_for_; try lia; [apply divide_1|]. intros m Hm0 Hm1 _. assert (Hm : 0 <= m < Mb x) by lia.
  destruct (all b_M m Hm) as (M1 & M2 & M3 & M4 & M5 & M6). rewrite (n_mt_32 m Hm). cbn [pbind].
  destruct (nm1_32 m Hm) as [-> ->]. cbn [pbind].
  pose proof (prod_bound (m * (p * m_c x)) Np Mp Np ltac:(lia) ltac:(lia)).
  apply ps_int; [safe; lia|].
  cbn [ival]. apply ps_par; try lia; [apply divide_1|]. intros n Hn0 Hn1 _. assert (Hn : 0 <= n < Nb x) by lia.
  destruct (all b_N n Hn) as (N1 & N2 & N3 & N4 & N5 & N6 & N7). destruct (all bn1_32 n Hn) as [_ ->]. cbn [tbind].
  pose proof (row_bound (m * (p * m_c x)) N (n * n_c x) Mp ltac:(lia) ltac:(lia) ltac:(lia)).
  pose proof (prod_bound Mp N Mp Np ltac:(lia) ltac:(lia)).
  pos (m * (p * m_c x)) N.
  assert (n * (p * m_c x) * blk_nt x n <= p * m_c x * Np).
  { pose proof (prod_bound n (blk_nt x n) n (n_c x) ltac:(lia) ltac:(lia)) as F1.
    pose proof (prod_bound (p * m_c x) (n * blk_nt x n) (p * m_c x) Np ltac:(lia)) as F2.
    pos n (blk_nt x n). specialize (F2 ltac:(lia)). lia. }
  pos (n * (p * m_c x)) (blk_nt x n). pos (m * (p * m_c x)) Np.
  apply ts_int; [safe; lia|]. apply ts_int; [safe; lia|].
  cbn [ival]. apply pack_ob_C_32 with (Mp := Mp) (Np := Np); auto; try lia.
Qed.

Lemma nkm_col_32 ar A_p B_p C_p c m k n :
  mr c = m_r -> nr c = n_r -> 0 <= n < Nb x -> 0 <= k < Kb x -> 0 <= m < Mb x ->
  forall st inc i, n = st + i * inc -> isafe (IxAdd (IxV st) (IxMul (IxV i) (IxV inc))) = true ->
  tsame (fun _ => True) (nkm_col32 S ar A_p B_p C_p K p c x m k (nf_mt x p m) (blk_kcb x p k) st inc i)
    (nkm_col S ar A_p B_p C_p K p c x m k n).
Proof.
  intros Em En Hn Hk Hm st inc i Ei Es. unfold nkm_col32, nkm_col. rewrite Em, En. pose proof n_mc.
  destruct (all b_M m Hm) as (M1 & M2 & M3 & M4 & M5 & M6).
  destruct (all b_N n Hn) as (N1 & N2 & N3 & N4 & N5 & N6 & N7).
  destruct (all b_K k Hk) as (K1 & K2 & K3 & K4 & K5 & K6 & K7).
  apply ts_int; [exact Es|]. cbn [ival]. rewrite <- Ei. clear Ei Es.
  apply ts_for_; try lia; [apply divide_1|]. intros core Hc0 Hc1 _.
  destruct (all b_core k core Hk ltac:(lia)) as (D1 & D2 & D3).
  pose proof (bf_Np _ _ _ _ _ _ _ _ _ H) as HNp. pose proof (bf_Mp _ _ _ _ _ _ _ _ _ H) as HMp.
  clear M5 N5 N6.
  set (mt := nf_mt x p m) in *. set (nt := blk_nt x n) in *. set (kt := core_kt x k core) in *.
  set (kx := core_kx x k) in *. set (W := blk_kcb x p k) in *.
  pose proof (blk_bound (m * (p * m_c x)) mt (k * tK + core * kx) kt mt Mp K
      ltac:(lia) ltac:(lia) ltac:(lia) ltac:(lia) M3 ltac:(lia) ltac:(lia)) as BA.
  pose proof (blk_bound (k * tK) W (n * n_c x) nt (core * kx + kt) K Np
      ltac:(lia) ltac:(lia) ltac:(lia) ltac:(lia) K4 N3 ltac:(lia)) as BB.
  pose proof (blk_bound (m * (p * m_c x)) mt (n * n_c x) nt mt Mp Np
      ltac:(lia) ltac:(lia) ltac:(lia) ltac:(lia) M3 N3 ltac:(lia)) as BC.
  pose proof (bf_K _ _ _ _ _ _ _ _ _ H) as PK. clear PK.
  assert (W0 : 0 < m_c x /\ 0 < p /\ 0 < k_c x /\ 0 < n_c x /\ 0 < K /\ 0 < Np /\ 0 < Mp) by lia.
  assert (W1 : 0 <= m /\ 0 <= k /\ 0 <= n /\ 0 <= core) by lia.
  assert (W2 : 0 < mt /\ 0 < nt /\ 0 <= kt /\ 0 < kx /\ 0 < W) by lia.
  clearbody mt nt kt kx W.
  assert (A1 : 0 <= m * p * m_c x * K + mt * k * p * k_c x + core * mt * kx /\
    m * p * m_c x * K + mt * k * p * k_c x + core * mt * kx + mt * kt < 2 ^ 31 /\
    isafe (m * p * m_c x * K + mt * k * p * k_c x + core * mt * kx)%ix = true).
  { clear - BA W0 W1 W2 LA LK M3 M4 K4. assert (m * p * m_c x * K + mt * k * p * k_c x + core * mt * kx + mt * kt < 2 ^ 31) by lia.
    pos m p. pos (m * p) (m_c x). pos (m * p * m_c x) K. pos mt k. pos (mt * k) p. pos (mt * k * p) (k_c x).
    pos core mt. pos (core * mt) kx. pos mt kt. clear BA LA. split; [repeat apply Z.add_nonneg_nonneg; assumption|]. split; [lia|]. safe; lia. }
  assert (A2 : 0 <= k * p * k_c x * Np + n * n_c x * W + core * kx * nt /\
    k * p * k_c x * Np + n * n_c x * W + core * kx * nt + nt * kt < 2 ^ 31 /\
    isafe (k * p * k_c x * Np + n * n_c x * W + core * kx * nt)%ix = true).
  { clear - BB W0 W1 W2 LB.  assert (k * p * k_c x * Np + n * n_c x * W + core * kx * nt + nt * kt < 2 ^ 31) by lia.
    pos k p. pos (k * p) (k_c x). pos (k * p * k_c x) Np. pos n (n_c x). pos (n * n_c x) W.
    pos core kx. pos (core * kx) nt. pos nt kt. clear BB LB. split; [lia|]. split; [lia|]. safe; lia. }
  assert (A3 : 0 <= m * p * m_c x * Np + mt * n * n_c x /\
    m * p * m_c x * Np + mt * n * n_c x + mt * nt < 2 ^ 31 /\
    isafe (m * p * m_c x * Np + mt * n * n_c x)%ix = true).
  { clear - BC W0 W1 W2 LC. assert (m * p * m_c x * Np + mt * n * n_c x + mt * nt < 2 ^ 31) by lia.
    pos m p. pos (m * p) (m_c x). pos (m * p * m_c x) Np. pos mt n. pos (mt * n) (n_c x). pos mt nt.
    clear BC LC. split; [lia|]. split; [lia|]. safe; lia. }
  clear BA BB BC.
  destruct A1 as (A1 & A1' & Ga), A2 as (A2 & A2' & Gb), A3 as (A3 & A3' & Gc).
  apply ts_int; [exact Ga|]. apply ts_int; [exact Gb|]. apply ts_int; [exact Gc|]. cbn [ival].
  set (a := m * p * m_c x * K + mt * k * p * k_c x + core * mt * kx) in *.
  set (b := k * p * k_c x * Np + n * n_c x * W + core * kx * nt) in *.
  set (d := m * p * m_c x * Np + mt * n * n_c x) in *.
  clearbody a b d.
  apply tile_loops_32; auto; try lia.
  intros. apply (cix_ind d mt nt); auto; lia.
Qed.

Lemma n_schedule_32 ar A_p B_p C_p c :
  mr c = m_r -> nr c = n_r ->
  schedule_NKM32 S ar A_p B_p C_p M N K p c x = schedule_NKM S ar A_p B_p C_p M N K p c x.
Proof.
  intros Em En. pose proof (all b_nb).
  assert (E : psame (fun _ => True) (schedule_NKM32 S ar A_p B_p C_p M N K p c x)
    (schedule_NKM S ar A_p B_p C_p M N K p c x)); [|apply E].
  unfold schedule_NKM32, schedule_NKM.
  apply ps_for_; try lia; [apply divide_1|]. intros m Hm0 Hm1 _. assert (Hm : 0 <= m < Mb x) by lia.
  rewrite (n_mt_32 m Hm). cbn [pbind].
  apply ps_snake_; [lia|]. intros k Hk. rewrite (all kcb_32 k Hk). cbn [pbind].
  apply ps_par; try lia; [apply divide_1|]. intros i Hi0 Hi1 _.
  destruct (snake_safe (inner_rev m k) (Nb x) i) as [E1 E2]; try lia.
  apply nkm_col_32; auto.
Qed.

End N.
