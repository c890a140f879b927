(** * The default context: a query followed by a call with a NULL context. *)

From Coq Require Import ZArith List Bool String Lia.
From Verif Require Import Lang Spec SpecTop SpecTile SpecQuery ModelSizing ModelKernel ModelPack ModelSched ModelTop ModelIEEE ModelQuery
     Exec Machine_facts Mult_facts Refute_facts Tile_wit_facts Query_facts.
Import ListNotations.
Open Scope Z_scope.

Lemma query_shape ar h q : query_cntx ar h = CRet q ->
  exists l1 l2 l3 n, q = cake_query_cntx ar l1 l2 l3 n /\ get_cache_size h 1 = CRet l1 /\ get_cache_size h 2 = CRet l2 /\
    get_cache_size h 3 = CRet l3 /\ get_num_physical_cores h = CRet n.
Proof.
  unfold query_cntx. destruct (get_cache_size h 1) as [l1| |]; try discriminate. destruct (get_cache_size h 2) as [l2| |]; try discriminate.
  destruct (get_cache_size h 3) as [l3| |]; try discriminate. destruct (get_num_physical_cores h) as [n| |]; try discriminate.
  cbn [cbind]. intros E. injection E as <-. eauto 10.
Qed.

Lemma usual_legal ar h q s M N K p : ar = haswell \/ ar = armv8 -> query_cntx ar h = CRet q -> usual q ->
  0 <= M -> 0 <= N -> 0 <= K -> 0 < p -> M + 8 * p < 2 ^ 24 -> legal ieee ar s q M N K p 0 0 0.
Proof.
  intros Har Hq Hu HM HN HK Hp Hb. destruct (query_shape ar h q Hq) as (l1 & l2 & l3 & n & -> & _).
  unfold usual in Hu. cbn [cake_query_cntx L1 L2 L3 ncores] in Hu. destruct Hu as (U1 & U2 & U3 & U4).
  assert (Hc : arch_ok ar /\ ctx_for ar s (cake_query_cntx ar l1 l2 l3 n) /\ 0 < MR_MIN ar <= 8 /\ 0 < NR_MIN ar <= 16 /\
               2 * bytes (MR_MIN ar) (MR_MIN ar) (NR_MIN ar) <= 2048).
  { destruct Har as [->| ->]; (split; [vm_compute; intuition first [congruence|now exists 2|now exists 12|now exists 1|lia]|]);
      (split; [destruct s; vm_compute; intuition congruence|]); vm_compute; intuition congruence. }
  destruct Hc as (Ha & Hc & Hmr & Hnr & Hby).
  assert (Hm : machine (cake_query_cntx ar l1 l2 l3 n)).
  { unfold machine. cbn [cake_query_cntx L1 L2 L3 ncores mr nr]. change (2 ^ 24) with 16777216 in *. change (2 ^ 14) with 16384 in *. change (2 ^ 31) with 2147483648 in *.
    change (2 ^ 10) with 1024 in *. change (2 ^ 27) with 134217728 in *. lia. }
  apply ieee_legal; auto.
  - cbn [cake_query_cntx L2 mr nr]. change (2 ^ 14) with 16384 in *. lia.
  - split; [cbn [cake_query_cntx mr]; change (2 ^ 24) with 16777216 in *; change (2 ^ 31) with 2147483648; nia|].
    intros n2 n3 (H2 & _ & H2') (H3 & H3' & _). cbn [cake_query_cntx L1 L2 L3 ncores mr nr] in *. unfold bytes in *.
    change (2 ^ 24) with 16777216 in *. change (2 ^ 31) with 2147483648 in *. change (2 ^ 27) with 134217728 in *.
    change (2 ^ 14) with 16384 in *. change (2 ^ 10) with 1024 in *.
    assert (B3 : n3 <= 2364).
    { destruct (Z_le_gt_dec n3 2364) as [E|E]; [exact E|exfalso].
      assert (n3 * n3 <= n * n3 * n3) by nia. assert (n3 * n3 <= n * n3 * (n * n3)) by nia.
      assert (2365 * 2365 <= n3 * n3) by nia. nia. }
    assert (B2 : 32 <= n2).
    { destruct (Z_le_gt_dec 32 n2) as [E|E]; [exact E|exfalso]. apply H2'.
      assert ((n2 + 1) * (n2 + 1) <= 32 * 32) by nia. assert ((n2 + 1) * NR_MIN ar <= 32 * 16) by nia. lia. }
    assert (R3 : round_down n3 (MR_MIN ar) <= 2364).
    { unfold round_down. pose proof (Z.mul_div_le n3 (MR_MIN ar) ltac:(lia)). lia. }
    assert (R2 : 24 <= round_down n2 (MR_MIN ar)).
    { unfold round_down. pose proof (Z.div_mod n2 (MR_MIN ar) ltac:(lia)). pose proof (Z.mod_pos_bound n2 (MR_MIN ar) ltac:(lia)). lia. }
    assert (0 <= M + p * MR_MIN ar <= 16777216) by nia.
    assert (round_down n3 (MR_MIN ar) * (M + p * MR_MIN ar) <= 2364 * 16777216) by nia. lia.
Qed.

Lemma default_call ar h q S (nz : elt S -> bool) s M N K p alpha beta A B m0 :
  ar = haswell \/ ar = armv8 -> query_cntx ar h = CRet q -> usual q ->
  0 <= M -> 0 <= N -> 0 <= K -> 0 < p -> M + 8 * p < 2 ^ 24 -> nz beta = false ->
  caller m0 M N K A B -> (s <> KMN -> B_rim m0 N K (NR_MIN ar) 0) ->
  exists ord, orders K ord /\
  always (cake_sgemm S ieee ar q nz M N K p None false false alpha beta s 0 0 0) m0
    (fun r m' => holds m' BufC M N (product S A B ord) /\
     (forall i, dat m' BufA i = dat m0 BufA i) /\ (forall i, dat m' BufB i = dat m0 BufB i)).
Proof.
  intros Har Hq Hu HM HN HK Hp Hb Hz Hc Hr.
  apply null_ok with (c := q) (t := 0); auto.
  - eapply usual_legal; eauto.
  - now left.
  - destruct (query_shape ar h q Hq) as (l1 & l2 & l3 & n & -> & _). exact Hr.
Qed.

Lemma table_usual ar h d t n : shell h = true -> shows "Model" (lscpu h) d -> In (value d, t) table ->
  get_num_physical_cores h = CRet n -> 0 < n <= 2 ^ 10 ->
  exists q, query_cntx ar h = CRet q /\ usual q.
Proof.
  intros Hs Hd Ht Hn Hb. exists (cake_query_cntx ar (level_of 1 t) (level_of 2 t) (level_of 3 t) n). split.
  - unfold query_cntx. rewrite !(cache_table h) with (d := d) (t := t) by (auto; lia). rewrite Hn. reflexivity.
  - unfold usual. cbn [cake_query_cntx L1 L2 L3 ncores]. split; [|split; [|split; [|exact Hb]]];
      cbn [table In] in Ht; decompose [or] Ht; try contradiction; match goal with E : _ = _ |- _ => injection E as _ <- end; vm_compute; split; congruence.
Qed.
