(** * The context made for PyTorch, and the autotuner's candidates. *)

From Coq Require Import ZArith List Bool Lia.
From Verif Require Import Lang Lang_facts Spec SpecTop ModelSizing ModelKernel ModelPack ModelSched ModelTop ModelUtil
     Exec Exec_facts Witness Witness_facts Mult_facts Refute_facts.
Open Scope Z_scope.

Lemma quot_share D g r : 0 <= D -> 0 < g -> 0 < r ->
  r <= Z.quot D g + (r - Z.rem (Z.quot D g) r) <= D / g + r.
Proof.
  intros HD Hg Hr. rewrite (Z.quot_div_nonneg D g) by lia.
  assert (0 <= D / g) by (apply Z.div_pos; lia).
  rewrite Z.rem_mod_nonneg by lia.
  pose proof (Z.mod_pos_bound (D / g) r Hr). pose proof (Z.mod_le (D / g) r ltac:(lia) Hr). lia.
Qed.

Lemma candidate_range :
  forall M K N pm pn c m_c k_c n_c dm dk dn,
  0 <= M -> 0 < K -> 0 <= N -> 0 < pm -> 0 < pn -> 0 < mr c -> 0 < nr c ->
  let '(mcu, kcu, ncu) := get_candidate M K N pm pn c m_c k_c n_c dm dk dn in
  mr c <= mcu <= M / pm + mr c /\ 0 < kcu <= K /\ nr c <= ncu <= N / pn + nr c.
Proof.
  intros M K N pm pn c m_c k_c n_c dm dk dn HM HK HN Hpm Hpn Hmr Hnr. unfold get_candidate.
  pose proof (quot_share M pm (mr c) HM Hpm Hmr). pose proof (quot_share N pn (nr c) HN Hpn Hnr).
  unfold clamp_val_int. repeat match goal with |- context [?a <? ?b] => destruct (Z.ltb_spec a b) end; lia.
Qed.

Lemma candidate_illegal :
  exists M K N p c m_c k_c n_c dm dk dn,
  user_tiles c m_c k_c n_c /\
  (let '(mcu, kcu, ncu) := get_candidate M K N p 1 c m_c k_c n_c dm dk dn in
   ~ (mr c | mcu) /\ ~ user_tiles c mcu kcu ncu).
Proof.
  exists 1000, 1000, 1000, 1, (Cntx (1, 1) 8 12 0 0 32768 262144 8388608 4), 48, 100, 120, 1, 1, 1.
  split.
  - cbv [user_tiles mr nr]. repeat split; try lia; [exists 6|exists 10]; reflexivity.
  - assert (H : ~ (8 | 78)) by (intros (x & E); lia).
    change (get_candidate 1000 1000 1000 1 1 _ 48 100 120 1 1 1) with (78, 120, 248). cbn [mr].
    split; [exact H|]. intros (_ & _ & _ & H' & _). exact (H H').
Qed.

Lemma torch_ok :
  forall S F q (nz : elt S -> bool) M N K p junk l2 l3 alpha beta s mcu kcu ncu,
  0 <= M -> 0 <= N -> 0 <= K -> 0 < p -> s = MKN \/ s = NKM -> nz beta = false ->
  0 < mcu -> 0 < kcu -> 0 < ncu -> (6 | mcu) -> (16 | ncu) ->
  exists ord, orders K ord /\
    forall A B m0, caller m0 M N K A B -> B_rim m0 N K 16 0 ->
      always (cake_sgemm S F haswell q nz M N K p (Some (cake_query_cntx_torch junk l2 l3)) false false alpha beta s mcu kcu ncu) m0
        (fun _ m' => holds m' BufC M N (product S A B ord) /\ only_C_changed m0 m' M N).
Proof.
  intros S F q nz M N K p junk l2 l3 alpha beta s mcu kcu ncu HM HN HK Hp Hs Hb H1 H2 H3 H4 H5.
  set (c := cake_query_cntx_torch junk l2 l3).
  assert (L : legal F haswell s c M N K p mcu kcu ncu).
  { split; [apply w_arch|]. split; [destruct Hs as [-> | ->]; split; reflexivity|].
    do 4 (split; [assumption|]). left. unfold user_tiles. cbn [c cake_query_cntx_torch mr nr]. auto. }
  destruct (plain_ok S F haswell q nz M N K p c alpha beta s mcu kcu ncu L (Some c) 0 eq_refl (or_intror Hb) (or_introl eq_refl)) as (ord & c' & E1 & _ & E3).
  exists ord. split; [exact E1|]. intros A B m0 Hc Hr.
  eapply always_mono; [apply (E3 A B m0 Hc (fun _ => Hr))|]. cbv beta. tauto.
Qed.

Lemma torch_undef :
  forall s, s = KMN \/ s = NA ->
  exists junk l2 l3 M N K p A B m0 tm tk tn, caller m0 M N K A B /\
    pexec (cake_sgemm Zs wF haswell wctx Znz M N K p (Some (cake_query_cntx_torch junk l2 l3)) false false 1 0 s tm tk tn) m0 Undef.
Proof.
  intros s Hs.
  exists (Cntx (0, 0) 0 0 7 0 0 0 0 0), 262144, 8388608, 6, 16, 2, 1, (fun i k => wA (i * 2 + k)), (fun k j => wB (k * 16 + j)), (wmem 6 16 2), 6, 2, 16.
  split; [apply w_caller|].
  apply (refute_by_undef _ (wmem 6 16 2) (fun _ _ => True)).
  destruct Hs as [-> | ->]; vm_compute; reflexivity.
Qed.
