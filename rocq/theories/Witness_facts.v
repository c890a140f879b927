(** * The concrete calls of Witness.v meet the preconditions. *)

From Coq Require Import ZArith List Bool Lia.
From Verif Require Import Lang Spec SpecTop ModelSizing ModelKernel ModelPack ModelSched ModelTop Exec Witness Init_facts
     Misc_facts.
Open Scope Z_scope.

Lemma w_arch : arch_ok haswell.
Proof. unfold arch_ok. cbn. repeat split; try lia; (exists 2; lia) || (exists 1; lia). Qed.

Lemma w_ctx_ok : ctx_ok haswell wctx.
Proof. unfold ctx_ok. cbn. lia. Qed.
Lemma w_ctx s : ctx_for haswell s wctx.
Proof. destruct s; cbn; [exact w_ctx_ok|split; reflexivity|split; reflexivity|split; [exact w_ctx_ok|split; reflexivity]]. Qed.

Lemma w_user k : 0 < k -> user_tiles wctx 6 k 16.
Proof. intros H. unfold user_tiles. cbn. repeat split; try lia; exists 1; lia. Qed.

Lemma w_legal s M N K p k : 0 <= M -> 0 <= N -> 0 <= K -> 0 < p -> 0 < k -> legal wF haswell s wctx M N K p 6 k 16.
Proof.
  intros. unfold legal. repeat split; auto using w_arch, w_ctx; try apply w_arch. left. now apply w_user.
Qed.

(** automatic tile sizes *)
Lemma w_legal_auto s M N K p : 0 <= M -> 0 <= N -> 0 <= K -> 0 < p -> legal wF haswell s wctx M N K p 0 0 0.
Proof.
  intros. unfold legal. repeat split; auto using w_ctx; try apply w_arch. right. split; [auto|split; [cbn; lia|]].
  intros q x Hq Hx _. exists (510 * (q * x) / 180). split; [reflexivity|]. apply Z.div_pos; nia.
Qed.

Lemma w_caller M N K : caller (wmem M N K) M N K (fun i k => wA (i * K + k)) (fun k j => wB (k * N + j)).
Proof.
  unfold caller, wmem, mem3. repeat split; try (eexists; split; [reflexivity|cbn; lia]);
  try (intros i j _ _; reflexivity).
  intros b Hb. destruct b; cbn in Hb; (contradiction || reflexivity).
Qed.

(** a register tile wide B needs nothing beyond its last column *)
Lemma w_rim {V} (m : mem V) N K nr t : 0 < nr -> (nr | N) -> B_rim m N K nr t.
Proof.
  intros Hn [q ->] k j _ Hj. exfalso. unfold round_up, ceil_div in Hj.
  replace (q * nr + nr - 1) with (nr - 1 + q * nr) in Hj by ring.
  rewrite Z.div_add, (Z.div_small (nr - 1) nr) in Hj by lia. lia.
Qed.

Lemma w_later : exists c2, later_ctx wF wctx c2 /\ c2 <> wctx.
Proof.
  destruct (init_block_dims wF 200 100 50 2 wctx NA 0 0 0) as [[x c2]| |] eqn:E; [|discriminate|discriminate].
  exists c2. split; [eapply later_call; [apply later_refl|exact E]|].
  vm_compute in E. injection E as _ <-. discriminate.
Qed.
