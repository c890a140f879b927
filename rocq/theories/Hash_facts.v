(** * The hash function and the table. *)

From Coq Require Import ZArith List Bool Lia.
From Verif Require Import Lang Lang_facts ModelSizing ModelUtil ModelTune SpecTune Tune_facts ModelHash SpecHash.
Import ListNotations.
Open Scope Z_scope.

Lemma u64_range z : 0 <= u64 z < 2 ^ 64.
Proof. apply Z.mod_pos_bound. lia. Qed.

Lemma lxor_range a b : 0 <= a < 2 ^ 64 -> 0 <= b < 2 ^ 64 -> 0 <= Z.lxor a b < 2 ^ 64.
Proof.
  intros Ha Hb. assert (P : 0 <= Z.lxor a b) by (apply Z.lxor_nonneg; tauto). split; [exact P|].
  destruct (Z.eq_dec (Z.lxor a b) 0) as [-> |N]; [lia|].
  apply Z.log2_lt_pow2; [lia|]. pose proof (Z.log2_lxor a b ltac:(lia) ltac:(lia)) as L.
  assert (LA : forall z, 0 <= z < 2 ^ 64 -> Z.log2 z < 64).
  { intros z Hz. destruct (Z.eq_dec z 0) as [-> |Nz]; [reflexivity|]. apply Z.log2_lt_pow2; lia. }
  pose proof (LA a Ha). pose proof (LA b Hb). lia.
Qed.

Lemma combine_range s v : 0 <= s < 2 ^ 64 -> 0 <= hash_combine s v < 2 ^ 64.
Proof. intros H. apply lxor_range; [exact H|apply u64_range]. Qed.

Theorem hash_range t : 0 <= hash_tile t < 2 ^ 64.
Proof. destruct t as ((m & k) & n). cbn [hash_tile]. repeat apply combine_range. lia. Qed.

Lemma u64_add_inj a b k : u64 (a + k) = u64 (b + k) -> u64 a = u64 b.
Proof.
  unfold u64. intros H. replace a with ((a + k) - k) by lia. replace b with ((b + k) - k) by lia.
  rewrite Zminus_mod, H, <- Zminus_mod. reflexivity.
Qed.

Lemma u64_idem a : u64 (u64 a) = u64 a.
Proof. apply Z.mod_small. apply u64_range. Qed.

Lemma u64_int a b : is_int a -> is_int b -> u64 a = u64 b -> a = b.
Proof.
  unfold is_int, u64. intros Ha Hb E. pose proof (Z.div_mod a (2 ^ 64) ltac:(lia)). pose proof (Z.div_mod b (2 ^ 64) ltac:(lia)).
  pose proof (Z.mod_pos_bound a (2 ^ 64) ltac:(lia)).
  assert (a - b = 2 ^ 64 * (a / 2 ^ 64 - b / 2 ^ 64)) by lia.
  assert (a / 2 ^ 64 - b / 2 ^ 64 = 0) by nia. lia.
Qed.

Lemma lxor_cancel s x y : Z.lxor s x = Z.lxor s y -> x = y.
Proof.
  intros H. rewrite <- (Z.lxor_0_l x), <- (Z.lxor_0_l y), <- (Z.lxor_nilpotent s), !Z.lxor_assoc. now rewrite H.
Qed.

Lemma combine_inj s v w : is_int v -> is_int w -> hash_combine s v = hash_combine s w -> v = w.
Proof.
  intros Hv Hw H. apply lxor_cancel in H. apply u64_add_inj in H. rewrite !u64_idem in H.
  apply u64_add_inj in H. rewrite !u64_idem in H. apply u64_add_inj in H. rewrite !u64_idem in H.
  now apply u64_int.
Qed.

Theorem hash_last m k n n' : is_int n -> is_int n' -> hash_tile (m, k, n) = hash_tile (m, k, n') -> n = n'.
Proof. intros. eapply combine_inj; eauto. Qed.

(** ** The table *)

Section Table.

Variables (hash : tile -> Z) (grow : table -> Z).
Hypothesis GR : forall t, 0 < grow t.

Definition tinv (t : table) (l : list tile) : Prop :=
  0 < tb_n t /\ tb_size t = Z.of_nat (length l) /\
  forall i x, In x (tb_chain t i) <-> In x l /\ i = hash x mod tb_n t.

Lemma filled_inv t l : filled hash grow t l -> tinv t l.
Proof.
  induction 1 as [n Hn|t l x H (I1 & I2 & I3) NI].
  - split; [exact Hn|]. split; [reflexivity|]. cbn. tauto.
  - unfold tb_insert. cbv zeta. set (t' := Tab _ _ _).
    assert (E : forall y, In y (tb_elements t') <-> In y (x :: l)).
    { intros y. unfold tb_elements. rewrite in_flat_map. split.
      - intros (i & _ & Hi). cbn [t' tb_chain] in Hi. destruct (Z.of_nat i =? hash x mod tb_n t) eqn:B.
        + destruct Hi as [<- |Hi]; [now left|]. right. now apply I3 in Hi.
        + right. now apply I3 in Hi.
      - intros Hy. pose proof (Z.mod_pos_bound (hash y) (tb_n t) I1) as MB.
        exists (Z.to_nat (hash y mod tb_n t)). rewrite Z2Nat.id by lia. split; [apply in_seq; cbn [t' tb_n]; lia|].
        cbn [t' tb_chain]. destruct Hy as [<- |Hy].
        + rewrite Z.eqb_refl. now left.
        + destruct (_ =? _); [right|]; apply I3; auto. }
    split; [apply GR|]. split; [cbn [tb_rehash tb_size t' length]; lia|].
    intros i y. cbn [tb_rehash tb_chain tb_n]. rewrite filter_In, E, Z.eqb_eq. split; intros (? & ?); auto.
Qed.

Theorem count_in t l x : filled hash grow t l -> tb_count hash t x = true <-> In x l.
Proof.
  intros H. apply filled_inv in H. destruct H as (_ & _ & I3). unfold tb_count. rewrite seen_in, I3. tauto.
Qed.

Theorem size_len t l : filled hash grow t l -> tb_size t = Z.of_nat (length l) /\ NoDup l.
Proof.
  intros H. split; [now apply filled_inv in H as (_ & ? & _)|]. induction H; [constructor|]. now constructor.
Qed.

Theorem loops_agree M K N pm pn c fuel : forall t l cand curr steps i, filled hash grow t l ->
  agree hash grow (candidate_loop fuel M K N pm pn c l cand curr steps i) (table_loop hash grow fuel M K N pm pn c t cand curr steps i).
Proof.
  induction fuel as [|fuel IH]; intros t l cand curr steps i H; [exact I|].
  cbn [candidate_loop table_loop]. destruct (size_len _ _ H) as (-> & _).
  destruct (_ <? _); [|now split].
  destruct (steps i) as ((dm & dk) & dn). destruct (get_candidate _ _ _ _ _ _ _ _ _ _ _ _) as ((m & k) & n).
  assert (E : tb_count hash t (m, k, n) = existsb (tile_eqb (m, k, n)) l).
  { apply eq_true_iff_eq. rewrite seen_in. now apply count_in. }
  rewrite E. destruct (existsb _ l) eqn:X; [now apply IH|]. split; [reflexivity|]. constructor; [exact H|].
  intros Hin. apply seen_in in Hin. congruence.
Qed.

End Table.
