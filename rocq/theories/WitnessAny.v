(** * A sequence of calls for the examples of PropAny.v. *)

From Coq Require Import ZArith List Bool Lia.
From Verif Require Import Lang Spec SpecTop SpecOnline SpecAny ModelSizing ModelTop Exec Witness Witness_facts Online_facts Grid_call_facts.
Import ListNotations.
Open Scope Z_scope.

(** 18 x 48 x 5 on four cores, every function and schedule once *)
Definition every_call {S} (one nul : elt S) : list (call S) :=
  [By_sgemm 4 one one KMN 6 2 16; By_sgemm 3 one nul MKN 6 2 16; By_sgemm 4 one nul NKM 6 3 32;
   By_online false 2 6 2 16; By_2d 4 4 6 2 16; By_2d_small 4 4].

Lemma every_allowed_K S (nz : elt S -> bool) K one nul : 0 <= K -> nz nul = false ->
  Forall (allowed S wFr haswell nz 18 48 K wctx) (every_call one nul).
Proof.
  intros HK Hz.
  assert (U : forall s p k n, 0 < p -> 0 < k -> 0 < n -> legal wFr haswell s wctx 18 48 K p 6 k (n * 16)).
  { intros s p k n Hp Hk Hn. split; [exact w_arch|]. split; [destruct s; repeat split; reflexivity || discriminate|].
    split; [discriminate|split; [discriminate|split; [exact HK|]]]. split; [exact Hp|]. left. split; [reflexivity|split; [exact Hk|split; [lia|]]].
    split; [exists 1; reflexivity|exists n; reflexivity]. }
  assert (F1 : small_fits 18 2 6) by (split; [intros [z Hz']; change (18 = z * 12) in Hz'; lia|vm_compute; discriminate]).
  assert (F2 : small_fits 48 2 16) by (split; [intros [z Hz']; change (48 = z * 32) in Hz'; lia|vm_compute; discriminate]).
  repeat apply Forall_cons; cbn [allowed]; [| | | | | |constructor].
  - split; [apply (U KMN 4 2 1)|left]; reflexivity.
  - split; [apply (U MKN 3 2 1); reflexivity|right; exact Hz].
  - split; [apply (U NKM 4 3 2); reflexivity|right; exact Hz].
  - split; [apply (U KMN 2 2 1); reflexivity|discriminate].
  - apply w_legal_2d; try (reflexivity || discriminate || exact HK). split; [split; discriminate || reflexivity|split; [discriminate|]]. right. exists 2. split; [split; reflexivity || discriminate|exists 2; reflexivity].
  - exists 2. split; [exact w_arch|split; [split; reflexivity|]].
    split; [reflexivity|split; [reflexivity|split; [exact HK|]]]. do 3 (split; [vm_compute; congruence|]). split; [exact F1|split; [exact F2|reflexivity]].
Qed.

Lemma every_allowed S (nz : elt S -> bool) one nul : nz nul = false ->
  Forall (allowed S wFr haswell nz 18 48 5 wctx) (every_call one nul).
Proof. apply every_allowed_K. discriminate. Qed.

Lemma every_room_K S K (m : mem (elt S)) one nul : Forall (room S 18 48 K m wctx) (every_call one nul).
Proof.
  assert (HB : B_rim m 48 K (nr wctx) 0) by (apply w_rim; [reflexivity|exists 3; reflexivity]).
  assert (HA : A_rim m 18 K (mr wctx)) by (apply A_rim_vacuous; [reflexivity|exists 3; reflexivity]).
  repeat apply Forall_cons; cbn [room]; auto.
Qed.

Lemma every_room S (m : mem (elt S)) one nul : Forall (room S 18 48 5 m wctx) (every_call one nul).
Proof. apply every_room_K. Qed.

Lemma Forall_tail {X} {P : X -> Prop} n {l} : Forall P l -> Forall P (skipn n l).
Proof. intros H. rewrite <- (firstn_skipn n l) in H. apply Forall_app in H. apply H. Qed.
