(** * The generated table, and the generated kernels on tiles in memory. *)

From Coq Require Import ZArith List Bool Lia.
From Verif Require Import Lang Lang_facts Spec ModelSizing ModelKernel Kernel_facts SpecTop SpecSmall Exec Exec_facts
  Touch_facts TouchOut_facts Small_facts SpecTouch ModelGen SpecGen Gen_facts.
Import ListNotations.
Open Scope Z_scope.

Local Transparent tbind.

Lemma fma_ok S t : (t = Armv8 -> commutes S) -> forall a b c, lane_fma S t a b c = fma S a b c.
Proof. destruct t; intros H a b c; [reflexivity|]. symmetry. now apply H. Qed.

Lemma kernel_ok S t ar m n : (t = Armv8 -> commutes S) -> lanes ar = b_align t -> 0 < m -> 0 < n -> (width t | n) ->
  forall A B C mm nn k, run_kernel S t (gen_kernel t m n) A B C mm nn k = ukernel S ar m n A B C mm nn k.
Proof.
  intros Hc Hl Hm Hn [q ->] A B C mm nn k. pose proof (width_pos t). assert (0 < q) by (destruct t; cbn in Hn; lia). apply generated_sim; auto.
  now apply fma_ok.
Qed.

Lemma width_div t j : (width t | start_n t + j * fact_n t).
Proof. destruct t; cbn [width start_n fact_n]; [exists (2 + j * 2)|exists (3 + j * 3)]; lia. Qed.

Lemma call_ok S t ml nl i j A B C m n k : (t = Armv8 -> commutes S) ->
  call_entry S t ml nl i j A B C m n k = kernel_map S (built_for t (gen_header t ml nl)) i j A B C m n k.
Proof.
  intros Hc. unfold call_entry, kernel_map. rewrite entry_at. unfold built_for at 1 2. cbn [MR_CNT NR_CNT].
  destruct ((0 <=? i) && _ && _ && _) eqn:E; [|reflexivity].
  rewrite !andb_true_iff, !Z.leb_le, !Z.ltb_lt in E. destruct E as [[[E1 E2] E3] E4].
  assert (P1 : 0 < start_m t + i * fact_m t) by (destruct t; unfold fact_m, start_m; lia).
  assert (P2 : 0 < start_n t + j * fact_n t) by (destruct t; unfold fact_n, start_n; lia).
  rewrite defined_at by auto. apply kernel_ok; auto.
  - apply width_div.
Qed.

Lemma counts t ml nl :
  h_rows (gen_header t ml nl) = Z.max 0 ((ml - start_m t) / fact_m t + 1) /\
  h_cols (gen_header t ml nl) = Z.max 0 ((nl - start_n t) / fact_n t + 1).
Proof.
  cbn [gen_header h_rows h_cols]. unfold py_range. rewrite !zseq_length. unfold loop_count.
  assert (G : forall x a f, 0 < f -> Z.of_nat (Z.to_nat ((x + 1 - a + f - 1) / f)) = Z.max 0 ((x - a) / f + 1)).
  { intros x a f Hf. replace (x + 1 - a + f - 1) with (x - a + 1 * f) by lia. rewrite Z_div_plus_full by lia.
    lia. }
  split; apply G; destruct t; reflexivity.
Qed.

Lemma built_ok t ml nl : arch_ok (built_for t (gen_header t ml nl)).
Proof.
  unfold arch_ok. destruct t; cbn [MR_MIN MR_FACT NR_MIN NR_FACT lanes built_for gen_header h_mr_min h_mr_fact h_nr_min h_nr_fact start_m fact_m start_n fact_n b_align]; repeat split; try lia.
  - now exists 2.
  - now exists 2.
  - now exists 12.
  - now exists 12.
Qed.

(** ** Tiles *)

Lemma al_width t : 0 < b_align t /\ (b_align t | width t).
Proof. destruct t; cbn; (split; [reflexivity|]); [exists 1|exists 4]; reflexivity. Qed.

Lemma tile_sub c co rows cols b x : 0 < cols -> rng c co (co + rows * cols) b x -> tile_reg c co cols rows cols b x.
Proof.
  intros Hc [-> Hx]. split; [auto|]. exists ((x - co) / cols), ((x - co) mod cols).
  pose proof (Z.div_mod (x - co) cols ltac:(lia)). pose proof (Z.mod_pos_bound (x - co) cols Hc).
  repeat split; try lia; [apply Z.div_pos; lia|apply Z.div_lt_upper_bound; lia].
Qed.

Section Tile.

Variable S : scalar.
Notation T := (elt S).

Lemma ends_bind {V} (b : buf) (i : Z) {R R'} (t : thr V R) (f : R -> thr V R') :
  (forall r, touches b i (f r)) -> touches b i (tbind t f).
Proof. intros H. apply (touches_bind_post b i (fun _ => True)); [apply rets_any|auto]. Qed.

Lemma fails_in b i t s C n l1 r off l2 : ~ 0 <= r < decl_c s -> forall st,
  touches b i (vrun S t s C n (l1 ++ VLoadC r off :: l2) st).
Proof.
  intros Hr. induction l1 as [|x l1 IH]; intros st; cbn [vrun app].
  - replace (vstep S t s C n (VLoadC r off) st) with (@TFail T (vstate S)); [exact I|].
    unfold vstep. now replace ((0 <=? r) && (r <? decl_c s)) with false by (symmetry; apply andb_false_iff; rewrite Z.leb_gt, Z.ltb_ge; lia).
  - apply ends_bind. auto.
Qed.

Lemma not_multiple t m n A B C mm nn k (mem0 : mem T) :
  0 < m -> 0 < n -> width t <= m * (n mod width t) ->
  always_undefined (ppar_for 0 1 1 (fun _ => run_kernel S t (gen_kernel t m n) A B C mm nn k)) mem0.
Proof.
  intros Hm Hn Hw. pose proof (width_pos t) as W.
  apply (pout_exec BufA (-1)); [|unfold outside; destruct (live mem0 BufA); [lia|auto]].
  apply (pout_ppar1 _ _ 0 1 _ 0); [lia|]. unfold run_kernel.
  assert (G : forall st f, touches BufA (-1) (@tbind T _ unit (vrun S t (gen_kernel t m n) C nn (src_load (gen_kernel t m n)) st) f)).
  { intros st f.
    assert (H : touches BufA (-1) (vrun S t (gen_kernel t m n) C nn (src_load (gen_kernel t m n)) st)).
    { set (s := gen_kernel t m n). cbn [gen_kernel src_load s]. 
      assert (Hd : decl_c s = m * (n / width t)) by reflexivity.
      assert (Q0 : 0 <= n / width t) by (apply Z.div_pos; lia).
      assert (Q : m * (n / width t) < m * n / width t).
      { apply Z.lt_le_trans with (m * (n / width t) + 1); [lia|]. apply Z.div_le_lower_bound; [lia|].
        pose proof (Z.div_mod n (width t) ltac:(lia)). nia. }
      destruct (Z.eq_dec (n / width t) 0) as [E|E].
      - unfold gen_C_load. apply (fails_in _ _ _ _ _ _ [] 0 0). rewrite Hd. nia.
      - assert (Q1 : 1 <= m * (n / width t)) by nia.
        assert (I : In (m * (n / width t)) (py_range 1 (m * n / width t) 1)).
        { rewrite py_range1. apply (nth_error_In _ (Z.to_nat (m * (n / width t) - 1))). rewrite zseq_nth by lia. f_equal. lia. }
        apply in_split in I. destruct I as (l1 & l2 & E'). unfold gen_C_load. rewrite E', map_app, app_comm_cons. cbn [map].
        apply fails_in. rewrite Hd. lia. }
    revert H. generalize (vrun S t (gen_kernel t m n) C nn (src_load (gen_kernel t m n)) st). intros u.
    induction u; cbn [touches tbind]; intros H0; auto; [easy|]. destruct H0; auto. }
  apply G.
Qed.

Lemma multiplies t m n (a b c : buf) ao bo co mm k (A B C : Z -> Z -> T) (m0 : mem T) :
  (t = Armv8 -> commutes S) -> 0 < m -> 0 < n -> (width t | n) -> 0 <= k ->
  col_stored m0 a ao m m k A -> row_stored m0 b bo n k n B -> row_stored m0 c co n m n C ->
  (k = 0 \/ b_aligned t m0 b bo) ->
  turns_tile_into (ppar_for 0 1 1 (fun _ => run_kernel S t (gen_kernel t m n) (a, ao) (b, bo) (c, co) mm n k)) m0 c co n m n
    (fun r s => dot S (A r) (fun kk => B kk s) (zrange 0 k) (C r s)).
Proof.
  intros Hc Hm Hn Hd Hk HA HB HC Hal.
  set (ar := Arch 0 0 0 0 0 0 (b_align t)). set (ar1 := Arch 0 0 0 0 0 0 1).
  rewrite (kernel_ok S t ar) by auto. apply one_thread.
  destruct (HC 0 0 ltac:(lia) ltac:(lia)) as (bc & Lc & Bc & _).
  destruct (HC (m - 1) (n - 1) ltac:(lia) ltac:(lia)) as (bc' & Lc' & Bc' & _). rewrite Lc in Lc'. injection Lc' as <-.
  assert (Ec : co + m * n <= blen bc) by nia.
  destruct (Z.eq_dec k 0) as [->|Hk0].
  - change (ukernel S ar m n (a, ao) (b, bo) (c, co) mm n 0) with (ukernel S ar1 m n (c, co) (c, co) (c, co) mm n 0).
    eapply twp_weaken; [eapply twp_mono; [apply (ukernel_spec S ar1 m n c c c co co co mm 0 A B C bc bc bc)|]|..];
      cbn [lanes ar1]; try apply Z.mod_1_r; auto; try lia.
    + intros r s Hr Hs. destruct (HC r s Hr Hs) as (? & _ & _ & E). exact E.
    + intros b' x. now apply tile_sub.
    + intros; left; exact I.
  - destruct Hal as [Hal|Hal]; [lia|].
    destruct (HA 0 0 ltac:(lia) ltac:(lia)) as (ba & La & Ba & _).
    destruct (HA (m - 1) (k - 1) ltac:(lia) ltac:(lia)) as (ba' & La' & Ba' & _). rewrite La in La'. injection La' as <-.
    destruct (HB 0 0 ltac:(lia) ltac:(lia)) as (bb & Lb & Bb & _).
    destruct (HB (k - 1) (n - 1) ltac:(lia) ltac:(lia)) as (bb' & Lb' & Bb' & _). rewrite Lb in Lb'. injection Lb' as <-.
    destruct (al_width t) as [P1 P2].
    eapply twp_weaken; [eapply twp_mono; [apply (ukernel_spec S ar m n a b c ao bo co mm k A B C ba bb bc)|]|..];
      cbn [lanes ar]; auto; try lia.
    + apply Z.mod_divide; [lia|]. eapply Z.divide_trans; eauto.
    + destruct Hal as [E|(bi & Li & B64 & D)]; [now left|right]. rewrite Lb in Li. injection Li as <-. split; [auto|].
      apply Z.mod_divide; [lia|auto].
    + intros r kk Hr Hkk. destruct (HA r kk Hr Hkk) as (? & _ & _ & E). exact E.
    + intros kk s Hkk Hs. destruct (HB kk s Hkk Hs) as (? & _ & _ & E). exact E.
    + intros r s Hr Hs. destruct (HC r s Hr Hs) as (? & _ & _ & E). exact E.
    + intros b' x. now apply tile_sub.
    + intros; left; exact I.
Qed.

End Tile.
