(** * Concrete calls on floats, for examples and refutations. *)

From Coq Require Import ZArith Reals List Bool Lia Lra.
From Flocq Require Import Core BinarySingleNaN.
From Verif Require Import Lang Spec SpecTop SpecSingle ModelSizing ModelIEEE ModelSingle ModelTop ModelUtil
     Witness Double_facts IEEE_facts IEEE32_facts Kernel_facts Single_facts SingleTop_facts.
Open Scope Z_scope.

(** Memory with the given contents for A and B, C uninitialised, and one element for the result
    of the checker *)
Definition smem (M N K : Z) (fa fb : Z -> Z) : mem single :=
  Mem (fun b => match b with
                | BufA => Some (BInfo (M * K) false) | BufB => Some (BInfo (K * N) false)
                | BufC => Some (BInfo (M * N) false) | BufX 3 => Some (BInfo 1 false) | _ => None end)
      (fun b i => match b with
                  | BufA => Some (single_of_int (fa i)) | BufB => Some (single_of_int (fb i)) | _ => None end).
Definition is1 (x : single) : bool := Beqb x (single_of_int 1).
Definition sok : single := single_of_int 0.
Definition sbad : single := single_of_int 1.
Definition srun (M N K p : Z) (s : sched) (mcu kcu ncu : Z) : prog single cntx :=
  cake_sgemm Single wF haswell wctx is1 M N K p (Some wctx) false false sok sok s mcu kcu ncu.

(** The call and then the checker, which does not fuse its multiplications and additions *)
Definition scheck (M N K p : Z) (s : sched) (mcu kcu ncu : Z) : prog single unit :=
  pbind (srun M N K p s mcu kcu ncu)
    (fun _ => cake_sgemm_checker Single_mul_add far_single sok sbad (BufA, 0) (BufB, 0) (BufC, 0) N M K).

(** element i of an object after a run *)
Definition sout {R} (o : outcome single R) (b : buf) (i : Z) : option SpecFloat.spec_float :=
  match o with Done _ m => option_map B2SF (dat m b i) | _ => None end.

Lemma s_caller M N K fa fb :
  caller (smem M N K fa fb) M N K (fun i k => single_of_int (fa (i * K + k))) (fun k j => single_of_int (fb (k * N + j))).
Proof.
  unfold caller, smem. repeat split; try (eexists; split; [reflexivity|cbn; lia]); try (intros i j _ _; reflexivity).
  intros b Hb. destruct b as [ | | |z| |z|z]; cbn in Hb; try (contradiction || reflexivity).
  assert (z = 0 \/ z = 1 \/ z = 2) as [-> | [-> | ->]] by lia; reflexivity.
Qed.

Lemma s_int n : Z.abs n <= 2 ^ 24 -> is_int (single_of_int n) n.
Proof. intros H. unfold is_int, finite, val. destruct (single_of_int_rep n) as (E1 & E2); [lia|]. rewrite E2, rnd24_int; auto. Qed.

Lemma s_finite n : Z.abs n <= 2 ^ 24 -> finite (single_of_int n).
Proof. intros H. apply (s_int n H). Qed.

Lemma sumR_le K f X : 0 <= K -> (forall k, 0 <= k < K -> (f k <= X)%R) -> (sumR K f <= IZR K * X)%R.
Proof.
  intros HK H. assert (G : forall l, (forall k, In k l -> 0 <= k < K) -> (lsum f l <= INR (length l) * X)%R).
  { induction l as [|k l IH]; intros Hl; cbn [lsum fold_right length]; [cbn; lra|].
    fold (lsum f l). rewrite S_INR. specialize (IH (fun k Hk => Hl k (or_intror Hk))).
    pose proof (H k (Hl k (or_introl eq_refl))). lra. }
  unfold sumR. fold (lsum f (zrange 0 K)). eapply Rle_trans; [apply G|].
  - intros k Hk. apply in_zrange in Hk. lia.
  - rewrite zrange_len, INR_IZR_INZ, Z2Nat.id by auto. lra.
Qed.

(** integers up to 4100: the mass is at most K * 17000000 *)
Lemma s_mass (a b : Z -> Z -> Z) K i j : 0 <= K ->
  (forall k, 0 <= k < K -> Z.abs (a i k) <= 4100 /\ Z.abs (b k j) <= 4100) ->
  (0 <= mass (fun i k => single_of_int (a i k)) (fun k j => single_of_int (b k j)) K i j <= IZR K * 17000000)%R.
Proof.
  intros HK H. split; [apply lsum_pos; intros; apply Rabs_pos|].
  apply sumR_le; auto. intros k Hk. destruct (H k Hk) as (Ha & Hb).
  destruct (s_int (a i k)) as (_ & ->); [lia|]. destruct (s_int (b k j)) as (_ & ->); [lia|].
  rewrite <- mult_IZR, <- abs_IZR. apply IZR_le. rewrite Z.abs_mul. nia.
Qed.

(** depth up to 1000 *)
Lemma s_grow K : 0 <= K <= 1000 -> (1 <= grow K <= 1 + 1 / 8000)%R.
Proof.
  intros H. split; [apply gg_ge1|]. pose proof (grow_small K ltac:(lia)) as G. rewrite uu_val in G.
  assert (IZR K <= 1000)%R by (now apply IZR_le). lra.
Qed.

Lemma eta_tiny : (/ 2 ^ 150 <= / 1000000)%R.
Proof.
  apply Rinv_le; [lra|]. apply Rle_trans with (2 ^ 20)%R; [cbn; lra|]. apply Rle_pow; [lra|lia].
Qed.

Lemma big128 : (2 ^ 40 <= 2 ^ 128)%R.
Proof. apply Rle_pow; [lra|lia]. Qed.

Lemma s_no_overflow K m : 0 <= K <= 1000 -> (0 <= m <= IZR K * 17000000)%R -> no_overflow K m.
Proof.
  intros HK Hm. unfold no_overflow. pose proof (s_grow K HK) as G. pose proof eta_tiny. pose proof eta_pos. pose proof big128.
  assert (2 ^ 40 = 1099511627776)%R as E by (cbn; lra). rewrite E in *.
  assert (0 <= IZR K <= 1000)%R by (split; apply IZR_le; lia).
  assert (grow K * m <= 2 * 17000000000)%R by (apply Rmult_le_compat; lra).
  assert (0 <= IZR K * grow K <= 1000 * 2)%R by (split; [apply Rmult_le_pos; lra|apply Rmult_le_compat; lra]).
  assert (IZR K * grow K * / 2 ^ 150 <= 2000 * / 1000000)%R by (apply Rmult_le_compat; lra). lra.
Qed.
