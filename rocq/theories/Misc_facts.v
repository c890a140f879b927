(** * Facts about sizing, schedule selection and exits that need no memory reasoning. *)

From Coq Require Import ZArith List Bool Lia Znumtheory.
From Verif Require Import Lang Lang_facts Spec SpecTop ModelSizing ModelKernel ModelPack ModelSched ModelTop.
Import ListNotations.
Open Scope Z_scope.

(** ** History independence *)
Lemma init_same_ctx F M N K p c c2 s mcu kcu ncu : same_ctx c c2 ->
  init_block_dims F M N K p c2 s mcu kcu ncu = init_block_dims F M N K p c s mcu kcu ncu.
Proof.
  destruct c, c2. unfold same_ctx. cbn. intros (-> & -> & -> & -> & -> & -> & -> & ->). reflexivity.
Qed.

Lemma cbind_ret {A B} (a : comp A) (f : A -> comp B) r : cbind a f = CRet r -> exists x, a = CRet x /\ f x = CRet r.
Proof. destruct a; cbn; try discriminate. eauto. Qed.

Lemma init_ctx_same F M N K p c s mcu kcu ncu x c2 :
  init_block_dims F M N K p c s mcu kcu ncu = CRet (x, c2) -> same_ctx c c2.
Proof.
  unfold init_block_dims. intros E. apply cbind_ret in E. destruct E as (r & _ & E).
  apply cbind_ret in E. destruct E as (y & _ & E). injection E as <- <-. repeat split.
Qed.

Lemma same_ctx_refl c : same_ctx c c. Proof. repeat split. Qed.
Lemma same_ctx_trans c1 c2 c3 : same_ctx c1 c2 -> same_ctx c2 c3 -> same_ctx c1 c3.
Proof. unfold same_ctx. intros (? & ? & ? & ? & ? & ? & ? & ?) (? & ? & ? & ? & ? & ? & ? & ?). repeat split; congruence. Qed.

Lemma later_same F c c' : later_ctx F c c' -> same_ctx c c'.
Proof.
  induction 1 as [c|c c1 c2 M N K p s mcu kcu ncu x _ IH E]; [apply same_ctx_refl|].
  eapply same_ctx_trans; [exact IH|eapply init_ctx_same; exact E].
Qed.

Lemma sgemm_same_ctx S F ar q nz M N K p c c2 pa pb al be s mcu kcu ncu : same_ctx c c2 ->
  cake_sgemm S F ar q nz M N K p (Some c2) pa pb al be s mcu kcu ncu =
  cake_sgemm S F ar q nz M N K p (Some c) pa pb al be s mcu kcu ncu.
Proof.
  intros H. Transparent pbind. unfold cake_sgemm, get_ctx. cbn [pbind].
  rewrite (init_same_ctx F M N K p c c2 s mcu kcu ncu H). reflexivity. Opaque pbind.
Qed.

Lemma later_independent S F ar q nz M N K p c c2 pa pb al be s mcu kcu ncu : later_ctx F c c2 ->
  init_block_dims F M N K p c2 s mcu kcu ncu = init_block_dims F M N K p c s mcu kcu ncu /\
  cake_sgemm S F ar q nz M N K p (Some c2) pa pb al be s mcu kcu ncu =
  cake_sgemm S F ar q nz M N K p (Some c) pa pb al be s mcu kcu ncu.
Proof.
  intros H. apply later_same in H. split; [now apply init_same_ctx|now apply sgemm_same_ctx].
Qed.

(** ** Exits *)
Fixpoint noexit {V R} (P : prog V R) : Prop :=
  match P with
  | PRet _ => True | PUB => True | PExit => False
  | PPar _ k => noexit k | PAlloc _ _ _ _ k => noexit k | PFree _ k => noexit k
  end.

Lemma noexit_exec {V R} (P : prog V R) m o : pexec P m o -> noexit P -> o <> Exited.
Proof. induction 1; cbn; auto; try discriminate; tauto. Qed.

Lemma noexit_bind {V R R'} (P : prog V R) (f : R -> prog V R') :
  noexit P -> (forall r, noexit (f r)) -> noexit (pbind P f).
Proof. Transparent pbind. induction P; cbn; auto; tauto. Opaque pbind. Qed.

Lemma noexit_piter {V St} n : forall i step (f : Z -> St -> prog V St) s,
  (forall i s, noexit (f i s)) -> noexit (piter n i step f s).
Proof.
  induction n as [|n IH]; intros i step f s H; cbn; [exact I|]. apply noexit_bind; auto.
Qed.
Lemma noexit_pfor {V St} lo hi step s (f : Z -> St -> prog V St) :
  (forall i s, noexit (f i s)) -> noexit (pfor lo hi step s f).
Proof.
  intros H. unfold pfor. destruct (0 <? step); [apply noexit_piter; auto|]. destruct (lo <? hi); exact I.
Qed.
Lemma noexit_pfor_ {V} lo hi step (f : Z -> prog V unit) :
  (forall i, noexit (f i)) -> noexit (pfor_ lo hi step f).
Proof. intros H. apply noexit_pfor. auto. Qed.
Lemma noexit_pfor_ne_ {V} a b c (f : Z -> prog V unit) :
  (forall i, noexit (f i)) -> noexit (pfor_ne_ a b c f).
Proof.
  intros H. unfold pfor_ne_, pfor_ne. destruct (_ && _); [apply noexit_piter; auto|exact I].
Qed.
Lemma noexit_par {V} lo hi step (f : Z -> thr V unit) : noexit (ppar_for lo hi step f).
Proof. unfold ppar_for. destruct (0 <? step); [exact I|]. destruct (lo <? hi); exact I. Qed.
Lemma noexit_lift S A (a : comp A) : a <> CExit -> noexit (lift S a).
Proof. destruct a; cbn; auto. Qed.

Ltac nex := repeat first
  [ exact I
  | apply noexit_bind; [|intros]
  | apply noexit_pfor; intros
  | apply noexit_pfor_; intros
  | apply noexit_pfor_ne_; intros
  | apply noexit_par
  | progress cbv zeta
  | match goal with |- noexit (if ?b then _ else _) => destruct b end
  | match goal with |- noexit (match ?b with _ => _ end) => destruct b end ].

Lemma cbind_noexit {A B} (a : comp A) (f : A -> comp B) : a <> CExit -> (forall x, f x <> CExit) -> cbind a f <> CExit.
Proof. destruct a; cbn; auto; discriminate. Qed.
Lemma imod_noexit a b : imod a b <> CExit.
Proof. unfold imod. destruct (b =? 0); discriminate. Qed.
Lemma idiv_noexit a b : idiv a b <> CExit.
Proof. unfold idiv. destruct (b =? 0); discriminate. Qed.
Lemma iceil_noexit a b : iceil a b <> CExit.
Proof. unfold iceil. destruct (b =? 0); discriminate. Qed.

Ltac cnex := repeat first
  [ discriminate
  | apply cbind_noexit; [|intros]
  | apply imod_noexit | apply idiv_noexit | apply iceil_noexit
  | progress cbv zeta
  | match goal with |- (if ?b then _ else _) <> _ => destruct b end ].

Section Sched.

Variables (F : fpenv) (M N K p : Z) (c : cntx) (s : sched) (mcu kcu ncu : Z).

Lemma clip_noexit mc : clip_mc M p (mr c) mc <> CExit.
Proof. unfold clip_mc. cnex. Qed.

Lemma derive_not_NA mc al : derive_schedule F M N K p mc al <> NA.
Proof. unfold derive_schedule. destruct (fp_mkn F M N K p mc al), (fp_nkm F M N K p mc al); discriminate. Qed.

Definition chosen (mc : Z) (al : Z * Z) : sched :=
  match s with NA => derive_schedule F M N K p mc al | _ => s end.

Lemma cache_sched : get_cache_dims F M N K p c s mcu kcu ncu <> CExit /\
  (forall cd al, get_cache_dims F M N K p c s mcu kcu ncu = CRet (cd, al) ->
     cd_sch cd <> NA /\ (s <> NA -> cd_sch cd = s)).
Proof.
  unfold get_cache_dims.
  assert (Hs' : forall mc al, chosen mc al <> NA) by (intros; unfold chosen; destruct s; try discriminate; apply derive_not_NA).
  assert (Hss : forall mc al, s <> NA -> chosen mc al = s) by (intros; unfold chosen; destruct s; congruence).
  split.
  - cnex; [apply clip_noexit|].
    match goal with |- context[derive_schedule F M N K p ?a ?b] => fold (chosen a b); specialize (Hs' a b); destruct (chosen a b) end;
    cnex; try congruence; unfold ofopt; match goal with |- context[fp_mul F ?a ?b ?d] => destruct (fp_mul F a b d) end; discriminate.
  - intros cd al E. apply cbind_ret in E. destruct E as (r2 & _ & E). cbv zeta in E.
    apply cbind_ret in E. destruct E as (r3 & _ & E).
    apply cbind_ret in E. destruct E as (mc & _ & E).
    match type of E with context[derive_schedule F M N K p ?a ?b] => fold (chosen a b) in E; specialize (Hs' a b); specialize (Hss a b); set (s' := chosen a b) in * end.
    destruct (truthy mcu && truthy ncu && truthy kcu).
    + injection E as <- _. cbn. auto.
    + destruct s'.
      * apply cbind_ret in E. destruct E as (? & _ & E). apply cbind_ret in E. destruct E as (? & _ & E).
        injection E as <- _. cbn. auto.
      * apply cbind_ret in E. destruct E as (? & _ & E). apply cbind_ret in E. destruct E as (? & _ & E).
        injection E as <- _. cbn. auto.
      * apply cbind_ret in E. destruct E as (? & _ & E). apply cbind_ret in E. destruct E as (? & _ & E).
        apply cbind_ret in E. destruct E as (? & _ & E). injection E as <- _. cbn. auto.
      * congruence.
Qed.

Lemma init_sched : init_block_dims F M N K p c s mcu kcu ncu <> CExit /\
  (forall x c', init_block_dims F M N K p c s mcu kcu ncu = CRet (x, c') ->
     sch x <> NA /\ (s <> NA -> sch x = s)).
Proof.
  destruct cache_sched as (H1 & H2). unfold init_block_dims. split.
  - destruct (get_cache_dims F M N K p c s mcu kcu ncu) as [[cd al]| |] eqn:E; cbn; try congruence; try discriminate.
    destruct (H2 cd al eq_refl) as (H3 & _).
    apply cbind_noexit; [|discriminate]. destruct (cd_sch cd); try congruence;
    unfold dims_KMN, dims_MKN, dims_NKM; cnex.
  - intros x c' E. apply cbind_ret in E. destruct E as ([cd al] & E0 & E). cbn in E.
    destruct (H2 cd al E0) as (H3 & H4). apply cbind_ret in E. destruct E as (y & Ey & E). injection E as <- <-.
    assert (Q : sch y = cd_sch cd); [|rewrite Q; auto]. clear H3 H4 E0 H2 H1.
    destruct (cd_sch cd); [| | |discriminate].
    all: unfold dims_KMN, dims_MKN, dims_NKM in Ey; cbv zeta in Ey.
    all: repeat (apply cbind_ret in Ey; destruct Ey as (? & _ & Ey)); injection Ey as <-; reflexivity.
Qed.

End Sched.

Lemma packedA_noexit M K p x m_r s : s <> NA -> packed_A_size M K p x m_r s <> CExit.
Proof. intros H. unfold packed_A_size. destruct s; try congruence; cnex. Qed.
Lemma packedB_noexit K N x n_r : packed_B_size K N x n_r <> CExit.
Proof. unfold packed_B_size. cnex. Qed.
Lemma packedC_noexit M N p x m_r n_r s : s <> NA -> packed_C_size M N p x m_r n_r s <> CExit.
Proof. intros H. unfold packed_C_size. apply cbind_noexit; [destruct s; try congruence; cnex|intros; cnex]. Qed.

Ltac nex2 := repeat first
  [ progress nex
  | apply noexit_lift; first [apply packedA_noexit; assumption | apply packedB_noexit | apply packedC_noexit; assumption ] ].

Lemma pack_A_noexit S A Ap M K p x c s : s <> NA -> noexit (pack_A S A Ap M K p x c s).
Proof.
  intros H. unfold pack_A. destruct s; try congruence;
  unfold pack_A_single_buf_k_first, pack_A_single_buf_m_first, pack_A_single_buf_n_first; nex.
Qed.
Lemma pack_B_noexit S A Ap N K p x c s : s <> NA -> noexit (pack_B S A Ap K N p x c s).
Proof.
  intros H. unfold pack_B. destruct s; try congruence;
  unfold pack_B_k_first, pack_B_m_first, pack_B_n_first, packB_main, packB_tail; nex.
Qed.
Lemma pack_C_noexit S A Ap M N p x c s : s <> NA -> noexit (pack_C S A Ap M N p x c s).
Proof.
  intros H. unfold pack_C. destruct s; try congruence;
  unfold pack_C_single_buf_k_first, pack_C_single_buf_m_first, pack_C_single_buf_n_first; nex.
Qed.
Lemma unpack_C_noexit S A Ap M N p x c s : s <> NA -> noexit (unpack_C S A Ap M N p x c s).
Proof.
  intros H. unfold unpack_C. destruct s; try congruence;
  unfold unpack_C_single_buf_k_first, unpack_C_single_buf_m_first, unpack_C_single_buf_n_first; nex.
Qed.
Lemma schedule_noexit S ar A B C M N K p c x s : s <> NA -> noexit (schedule S ar A B C M N K p c x s).
Proof.
  intros H. unfold schedule. destruct s; try congruence;
  unfold schedule_MKN, schedule_NKM, mkn_row, nkm_col; nex.
Qed.
Lemma sched_KMN_noexit S ar A B C M N K p c x : noexit (schedule_KMN S ar A B C M N K p c x).
Proof. unfold schedule_KMN; nex. Qed.

Lemma sgemm_noexit S F ar q nz M N K p oc pa pb al be s mcu kcu ncu :
  noexit (cake_sgemm S F ar q nz M N K p oc pa pb al be s mcu kcu ncu).
Proof.
  unfold cake_sgemm. apply noexit_bind; [unfold get_ctx; destruct oc; nex|]. intros c0.
  apply noexit_bind; [exact I|intros _].
  destruct (init_sched F M N K p c0 s mcu kcu ncu) as (H1 & H2).
  Transparent pbind.
  destruct (init_block_dims F M N K p c0 s mcu kcu ncu) as [[x c]| |]; cbn [lift pbind]; [|exact I|congruence].
  Opaque pbind.
  destruct (H2 x c eq_refl) as (H3 & _). cbn [fst snd].
  apply noexit_bind.
  { destruct pa; [exact I|]. nex2. now apply pack_A_noexit. }
  intros Ap. apply noexit_bind.
  { destruct pb; [exact I|]. nex2. now apply pack_B_noexit. }
  intros Bp. apply noexit_bind.
  { destruct (sch x) eqn:Es; [| | |congruence].
    - nex; try apply sched_KMN_noexit.
    - nex2; first [now apply pack_C_noexit|now apply schedule_noexit|now apply unpack_C_noexit].
    - nex2; first [now apply pack_C_noexit|now apply schedule_noexit|now apply unpack_C_noexit]. }
  intros _. nex.
Qed.

Lemma sgemm_never_exits S F ar q nz M N K p oc pa pb al be s mcu kcu ncu m :
  ~ pexec (cake_sgemm S F ar q nz M N K p oc pa pb al be s mcu kcu ncu) m Exited.
Proof. intros H. exact (noexit_exec _ _ _ H (sgemm_noexit S F ar q nz M N K p oc pa pb al be s mcu kcu ncu) eq_refl). Qed.

(** ** lcm *)
Lemma lcm_loop_least fuel : forall n1 n2 mx r, lcm_loop fuel n1 n2 mx = Some r ->
  mx <= r /\ Z.rem r n1 = 0 /\ Z.rem r n2 = 0 /\
  (forall z, mx <= z < r -> ~ (Z.rem z n1 = 0 /\ Z.rem z n2 = 0)).
Proof.
  induction fuel as [|f IH]; intros n1 n2 mx r; cbn; [discriminate|].
  destruct (Z.eqb_spec (Z.rem mx n1) 0) as [E1|E1], (Z.eqb_spec (Z.rem mx n2) 0) as [E2|E2]; cbn.
  1: intros E; injection E as <-; repeat split; auto; try lia.
  all: intros E; destruct (IH _ _ _ _ E) as (A & B & C & D); repeat split; auto; try lia;
       intros z Hz; destruct (Z.eq_dec z mx) as [->|]; [tauto|apply D; lia].
Qed.

Lemma lcm_loop_end fuel : forall n1 n2 mx t, mx <= t -> Z.rem t n1 = 0 -> Z.rem t n2 = 0 ->
  (Z.to_nat (t - mx) < fuel)%nat -> exists r, lcm_loop fuel n1 n2 mx = Some r.
Proof.
  induction fuel as [|f IH]; intros n1 n2 mx t Hm H1 H2 Hf; [lia|]. cbn.
  destruct ((Z.rem mx n1 =? 0) && (Z.rem mx n2 =? 0)) eqn:E; [eauto|].
  assert (mx <> t) by (intros ->; rewrite H1, H2 in E; discriminate).
  apply (IH n1 n2 (mx + 1) t); auto; lia.
Qed.

Lemma rem0_div a b : 0 < b -> (Z.rem a b = 0 <-> (b | a)).
Proof.
  intros H. rewrite Z.rem_divide by lia. tauto.
Qed.

Lemma lcm_ok a b : 0 < a -> 0 < b ->
  exists r fuel0, (forall fuel, (fuel0 <= fuel)%nat -> lcm fuel a b = Some r) /\
    0 < r /\ (a | r) /\ (b | r) /\ (forall z, 0 < z -> (a | z) -> (b | z) -> r <= z).
Proof.
  intros Ha Hb. set (mx := if b <? a then a else b).
  assert (Hmx : mx = Z.max a b) by (unfold mx; destruct (Z.ltb_spec b a); lia).
  assert (Hend : forall fuel, (Z.to_nat (a * b - mx) < fuel)%nat -> exists r, lcm fuel a b = Some r).
  { intros fuel Hf. apply (lcm_loop_end fuel a b mx (a * b)); auto.
    - rewrite Hmx. nia.
    - apply rem0_div; auto. exists b. ring.
    - apply rem0_div; auto. exists a. ring. }
  set (f0 := S (Z.to_nat (a * b - mx))).
  destruct (Hend f0 ltac:(unfold f0; lia)) as (r & Hr).
  destruct (lcm_loop_least _ _ _ _ _ Hr) as (A & B & C & D). fold mx in A, D.
  apply rem0_div in B; auto. apply rem0_div in C; auto.
  assert (Hl : forall z, 0 < z -> (a | z) -> (b | z) -> r <= z).
  { intros z Hz H1 H2. destruct (Z_lt_le_dec z r) as [L|]; [|lia]. exfalso.
    apply (D z).
    - pose proof (Z.divide_pos_le a z Hz H1). pose proof (Z.divide_pos_le b z Hz H2). lia.
    - rewrite !rem0_div by auto. auto. }
  exists r, f0. split; [|repeat split; auto; lia].
  intros fuel Hf. destruct (Hend fuel ltac:(unfold f0 in *; lia)) as (r' & Hr').
  rewrite Hr'. f_equal. destruct (lcm_loop_least _ _ _ _ _ Hr') as (A' & B' & C' & D'). fold mx in A', D'.
  destruct (Z.lt_trichotomy r r') as [H|[H|H]]; [|auto|].
  - exfalso. apply (D' r); [lia|]. rewrite !rem0_div by auto. auto.
  - exfalso. apply (D r'); [lia|]. auto.
Qed.

(** ** set_schedule *)
Lemma set_schedule_ok s M N K : (s <> NA -> set_schedule s M N K = s) /\ set_schedule s M N K <> NA /\
  (s = NA -> forall t, set_schedule s M N K = t ->
    match t with
    | MKN => 2 * K <= M /\ N <= M
    | NKM => 2 * K <= N /\ M <= N /\ ~ (2 * K <= M /\ N <= M) /\ ~ (M <= K /\ N <= K)
    | KMN => ~ (2 * K <= M /\ N <= M) /\ ((M <= K /\ N <= K) \/ ~ (2 * K <= N /\ M <= N))
    | NA => False
    end).
Proof.
  split; [destruct s; cbn; congruence|]. unfold set_schedule. split.
  - destruct s; try discriminate. repeat (match goal with |- (if ?b then _ else _) <> _ => destruct b end); discriminate.
  - intros -> t <-.
    destruct (Z.leb_spec (2 * K) M), (Z.leb_spec N M), (Z.leb_spec M K), (Z.leb_spec N K),
      (Z.leb_spec (2 * K) N), (Z.leb_spec M N); cbn [andb]; try lia; intuition lia.
Qed.

Lemma later_exec S F ar q (nz : elt S -> bool) M N K p c c2 pa pb al be s mcu kcu ncu :
  later_ctx F c c2 ->
  init_block_dims F M N K p c2 s mcu kcu ncu = init_block_dims F M N K p c s mcu kcu ncu /\
  forall m o,
  pexec (cake_sgemm S F ar q nz M N K p (Some c2) pa pb al be s mcu kcu ncu) m o <->
  pexec (cake_sgemm S F ar q nz M N K p (Some c) pa pb al be s mcu kcu ncu) m o.
Proof.
  intros H. destruct (later_independent S F ar q nz M N K p c c2 pa pb al be s mcu kcu ncu H) as (H1 & H2).
  split; [exact H1|]. intros m o. rewrite H2. apply iff_refl.
Qed.

Lemma schedule_selection :
  (forall F M N K p c s mcu kcu ncu x c',
     init_block_dims F M N K p c s mcu kcu ncu = CRet (x, c') -> sch x <> NA /\ (s <> NA -> sch x = s)) /\
  (forall S F ar q (nz : elt S -> bool) M N K p oc pa pb alpha beta s mcu kcu ncu m,
     ~ pexec (cake_sgemm S F ar q nz M N K p oc pa pb alpha beta s mcu kcu ncu) m Exited).
Proof.
  split.
  - intros F M N K p c s mcu kcu ncu. apply init_sched.
  - intros. apply sgemm_never_exits.
Qed.
