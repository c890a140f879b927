(** * Running out of memory in the entry points. *)

From Coq Require Import ZArith List Bool Lia.
From Verif Require Import Lang Lang_facts Exec Exec_facts Spec SpecTop SpecOnline SpecAlloc ModelAlloc ModelSizing ModelKernel ModelPack ModelSched ModelTop
     Touch_facts TouchOut_facts Alloc_facts.
Import ListNotations.
Open Scope Z_scope.

Lemma copies_Cp fl i : only_copies fl -> fl (BufCp i) = false.
Proof. intros H. destruct (fl (BufCp i)) eqn:E; auto. destruct (H _ E) as [|(j & ?)]; discriminate. Qed.
Lemma copies_X fl i : only_copies fl -> fl (BufX i) = false.
Proof. intros H. destruct (fl (BufX i)) eqn:E; auto. destruct (H _ E) as [|(j & ?)]; discriminate. Qed.

Section Calls.

Variable S : scalar.
Notation T := (elt S).
Variable fl : buf -> bool.
Hypothesis Hfl : only_copies fl.

Lemma heap_alloc (Q : buf -> bool -> Prop) Fr b n al (init : option T) : Q b al -> heap_ops Q Fr (palloc b n al init).
Proof. intros H. cbn. auto. Qed.
Lemma heap_free (Q : buf -> bool -> Prop) (Fr : buf -> Prop) b : Fr b -> heap_ops Q Fr (pfree b : prog T unit).
Proof. intros H. cbn. auto. Qed.
Lemma heap_lift {A} Q Fr (c : comp A) : heap_ops Q Fr (lift S c).
Proof. apply no_heap_any, nh_lift. Qed.

Lemma tested_Cp i al : tested fl (BufCp i) al.
Proof. intros E. rewrite (copies_Cp fl i Hfl) in E. discriminate. Qed.
Lemma tested_X i al : tested fl (BufX i) al.
Proof. intros E. rewrite (copies_X fl i Hfl) in E. discriminate. Qed.
Lemma tested_al b : tested fl b true.
Proof. intros _. reflexivity. Qed.

Ltac hp := repeat (cbv zeta; match goal with
  | |- heap_ops _ _ (PRet _) => exact I
  | |- heap_ops _ _ PUB => exact I
  | |- heap_ops _ _ PExit => exact I
  | |- heap_ops _ _ (lift _ _) => apply heap_lift
  | |- heap_ops _ _ (palloc _ _ _ _) => apply heap_alloc
  | |- heap_ops _ _ (pfree _) => apply heap_free
  | |- tested _ _ true => apply tested_al
  | |- tested _ (BufCp _) _ => apply tested_Cp
  | |- tested _ (BufX _) _ => apply tested_X
  | |- fl (BufCp _) = false => apply (copies_Cp _ _ Hfl)
  | |- fl (BufX _) = false => apply (copies_X _ _ Hfl)
  | |- fl _ = false => assumption
  | |- True => exact I
  | |- heap_ops _ _ (pack_A _ _ _ _ _ _ _ _ _) => apply no_heap_any, nh_pack_A
  | |- heap_ops _ _ (pack_B _ _ _ _ _ _ _ _ _) => apply no_heap_any, nh_pack_B
  | |- heap_ops _ _ (pack_C _ _ _ _ _ _ _ _ _) => apply no_heap_any, nh_pack_C
  | |- heap_ops _ _ (unpack_C _ _ _ _ _ _ _ _ _) => apply no_heap_any, nh_unpack_C
  | |- heap_ops _ _ (schedule _ _ _ _ _ _ _ _ _ _ _ _) => apply no_heap_any, nh_schedule
  | |- heap_ops _ _ (schedule_KMN _ _ _ _ _ _ _ _ _ _ _) => apply no_heap_any, nh_KMN
  | |- heap_ops _ _ (schedule_KMN_online _ _ _ _ _ _ _ _ _ _ _ _) => apply no_heap_any, nh_online
  | |- heap_ops _ _ (schedule_KMN_2d _ _ _ _ _ _ _ _ _ _) => apply no_heap_any, nh_2d
  | |- heap_ops _ _ (schedule_KMN_2d_small _ _ _ _ _ _ _ _ _ _ _) => apply no_heap_any, nh_2d_small
  | |- heap_ops _ _ (pfor _ _ _ _ _) => apply heap_pfor; intros
  | |- heap_ops _ _ (pbind _ _) => apply heap_bind; intros
  | |- heap_ops _ _ (match ?x with _ => _ end) => destruct x
  end).

Lemma sgemm_tested F ar q nz M N K p oc pa pb al be s mcu kcu ncu :
  heap_ops (tested fl) (fun _ => True) (cake_sgemm S F ar q nz M N K p oc pa pb al be s mcu kcu ncu).
Proof. unfold cake_sgemm, get_ctx, alloc_Cp, free_Cp, pfor_, xbuf, cbuf. hp. Qed.

Lemma online_tested so F ar q M N K p oc mcu kcu ncu :
  heap_ops (tested fl) (fun _ => True) (cake_sgemm_online S so F ar q M N K p oc mcu kcu ncu).
Proof. unfold cake_sgemm_online, get_ctx, alloc_Cp, free_Cp, pfor_, xbuf, cbuf. hp. Qed.

Lemma g2_tested F ar q rows M N K p oc mcu kcu ncu :
  heap_ops (tested fl) (fun _ => True) (cake_sgemm_2d S F ar q rows M N K p oc mcu kcu ncu).
Proof. unfold cake_sgemm_2d, get_ctx, alloc_Cp, free_Cp, pfor_, xbuf, cbuf. hp. Qed.

Lemma small_tested F ar q rows M N K p oc :
  heap_ops (tested fl) (fun _ => True) (cake_sgemm_2d_small S F ar q rows M N K p oc).
Proof. unfold cake_sgemm_2d_small, get_ctx, alloc_Cp, free_Cp, pfor_, xbuf, cbuf. hp. Qed.

(** ** Nothing the call asks for fails *)

Lemma sgemm_same F ar q nz M N K p oc pa pb al be s mcu kcu ncu :
  (pa = true \/ fl (BufAp 0) = false) -> (pb = true \/ fl BufBp = false) ->
  out_of_memory fl (cake_sgemm S F ar q nz M N K p oc pa pb al be s mcu kcu ncu) =
  cake_sgemm S F ar q nz M N K p oc pa pb al be s mcu kcu ncu.
Proof.
  intros HA HB. apply oom_id. unfold cake_sgemm, get_ctx, alloc_Cp, free_Cp, pfor_, xbuf, cbuf.
  destruct pa, pb; (destruct HA as [HA|HA]; try discriminate); (destruct HB as [HB|HB]; try discriminate); hp.
Qed.

Lemma g2_same F ar q rows M N K p oc mcu kcu ncu : fl (BufAp 0) = false -> fl BufBp = false ->
  out_of_memory fl (cake_sgemm_2d S F ar q rows M N K p oc mcu kcu ncu) = cake_sgemm_2d S F ar q rows M N K p oc mcu kcu ncu.
Proof. intros HA HB. apply oom_id. unfold cake_sgemm_2d, get_ctx, alloc_Cp, free_Cp, pfor_, xbuf, cbuf. hp. Qed.

Lemma small_same F ar q rows M N K p oc : fl (BufAp 0) = false -> fl BufBp = false ->
  out_of_memory fl (cake_sgemm_2d_small S F ar q rows M N K p oc) = cake_sgemm_2d_small S F ar q rows M N K p oc.
Proof. intros HA HB. apply oom_id. unfold cake_sgemm_2d_small, get_ctx, alloc_Cp, free_Cp, pfor_, xbuf, cbuf. hp. Qed.

Lemma heap_pfor_in Q Fr lo hi (f : Z -> prog T unit) :
  (forall z, lo <= z < hi -> heap_ops Q Fr (f z)) -> heap_ops Q Fr (pfor_ lo hi 1 f).
Proof.
  Local Transparent pfor. intros H. unfold pfor_, pfor. cbn [Z.ltb Z.compare]. unfold loop_count. rewrite Z.div_1_r.
  set (n := Z.to_nat (hi - lo + 1 - 1)).
  assert (G : forall n z s, (forall i, z <= i < z + Z.of_nat n -> heap_ops Q Fr (f i)) ->
     heap_ops Q Fr (piter n z 1 (fun i (_ : unit) => f i) s)).
  { clear. induction n; intros z s H; cbn [piter]; [exact I|]. apply heap_bind; [apply H; lia|]. intros r. apply IHn. intros i Hi. apply H. lia. }
  apply G. intros i Hi. apply H. unfold n in Hi. lia. Opaque pfor.
Qed.

Lemma online_same so F ar q M N K p oc mcu kcu ncu : (forall i, 0 <= i < p -> fl (BufAp i) = false) -> fl BufBp = false ->
  out_of_memory fl (cake_sgemm_online S so F ar q M N K p oc mcu kcu ncu) = cake_sgemm_online S so F ar q M N K p oc mcu kcu ncu.
Proof.
  intros HA HB. apply oom_id. unfold cake_sgemm_online. apply heap_bind; [unfold get_ctx, cbuf; hp|]. intros c0.
  apply heap_bind; [unfold xbuf; hp|]. intros _. apply heap_bind; [hp|]. intros xc. cbv zeta.
  apply heap_bind. { apply heap_pfor_in. intros z Hz. apply heap_alloc. auto. } intros _.
  apply heap_bind; [hp|]. intros _. apply heap_bind; [unfold alloc_Cp, pfor_; hp|]. intros _.
  apply heap_bind; [hp|]. intros _. apply heap_bind; [hp|]. intros _. apply heap_bind; [hp|]. intros _.
  apply heap_bind. { apply heap_pfor_in. intros z Hz. apply heap_bind; [apply heap_free; auto|]. intros _. hp. } intros _.
  unfold xbuf. hp.
Qed.

(** ** A request of the call that is tested fails *)

Lemma exit_alloc b n (init : option T) : fl b = true -> must_exit fl (palloc b n true init).
Proof. intros H. cbn. auto. Qed.

Lemma sgemm_exit F ar q nz M N K p oc pa pb al be s mcu kcu ncu :
  (pa = false /\ fl (BufAp 0) = true) \/ (pb = false /\ fl BufBp = true) ->
  must_exit fl (cake_sgemm S F ar q nz M N K p oc pa pb al be s mcu kcu ncu).
Proof.
  intros H. unfold cake_sgemm. apply exit_bind_r. intros c0. apply exit_bind_r. intros _. apply exit_bind_r. intros xc. cbv zeta.
  destruct H as [(-> & H)|(-> & H)].
  - apply exit_bind_l. apply exit_bind_r. intros sz. apply exit_bind_l. now apply exit_alloc.
  - apply exit_bind_r. intros A_p. apply exit_bind_l. apply exit_bind_r. intros sz. apply exit_bind_l. now apply exit_alloc.
Qed.

Lemma g2_exit F ar q rows M N K p oc mcu kcu ncu : fl (BufAp 0) = true \/ fl BufBp = true ->
  must_exit fl (cake_sgemm_2d S F ar q rows M N K p oc mcu kcu ncu).
Proof.
  intros H. unfold cake_sgemm_2d. apply exit_bind_r. intros c0. apply exit_bind_r. intros _. apply exit_bind_r. intros xc.
  destruct H as [H|H]; [apply exit_bind_l; now apply exit_alloc|]. apply exit_bind_r. intros _. apply exit_bind_l. now apply exit_alloc.
Qed.

Lemma small_exit F ar q rows M N K p oc : fl (BufAp 0) = true \/ fl BufBp = true ->
  must_exit fl (cake_sgemm_2d_small S F ar q rows M N K p oc).
Proof.
  intros H. unfold cake_sgemm_2d_small. apply exit_bind_r. intros c0. apply exit_bind_r. intros _. apply exit_bind_r. intros xc.
  destruct H as [H|H]; [apply exit_bind_l; now apply exit_alloc|]. apply exit_bind_r. intros _. apply exit_bind_l. now apply exit_alloc.
Qed.

Lemma online_exit so F ar q M N K p oc mcu kcu ncu : (exists i, 0 <= i < p /\ fl (BufAp i) = true) \/ fl BufBp = true ->
  must_exit fl (cake_sgemm_online S so F ar q M N K p oc mcu kcu ncu).
Proof.
  intros H. unfold cake_sgemm_online. apply exit_bind_r. intros c0. apply exit_bind_r. intros _. apply exit_bind_r. intros xc. cbv zeta.
  destruct H as [(i & Hi & H)|H].
  - apply exit_bind_l. unfold pfor_. apply (exit_pfor1 fl 0 p tt _ i Hi). intros _. now apply exit_alloc.
  - apply exit_bind_r. intros _. apply exit_bind_l. now apply exit_alloc.
Qed.

End Calls.
