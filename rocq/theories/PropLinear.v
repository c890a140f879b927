(** * Properties of the PyTorch layer (src/linear.cpp). *)

From Coq Require Import ZArith List Bool Lia.
From Verif Require Import Lang Spec SpecTop SpecTile SpecLinear ModelSizing ModelKernel ModelPack ModelSched ModelTop ModelUtil
     ModelIEEE ModelLinear Exec Witness Refute_facts Machine_facts Linear_facts LinearUndef_facts LinearExit_facts SpecAlloc SpecTouch Tile_wit_facts.
Import ListNotations.
Open Scope Z_scope.

(** C51.  forward(cache_sz, X, W) is X * W^T, with the bias added to every row if there is one, for
    all sizes; the order of summation depends on the sizes only.  This holds for the calls of
    [layer_call]: the library can choose tile sizes; if it chooses to work K-first, the fields of
    the context the layer leaves uninitialised happen to be 0; and if it does not, the 16-column
    panels it reads stay inside the weights. *)
Theorem C51_forward :
  forall S add F (nz : elt S -> bool) one junk l2 l3 M N K (X W : tensor S) x w,
  0 <= M -> 0 <= N -> 0 <= K -> nz (zero S) = false ->
  is_matrix X M K x -> is_matrix W N K w ->
  layer_call F (cake_query_cntx_torch junk l2 l3) M N K 10 ->
  exists ord, orders K ord /\
  forall m0 bias, nothing m0 ->
  match bias with Some b => exists bv, is_vector b N bv | None => True end ->
  always (linear_forward S add F nz one junk l2 l3 X W bias) m0 (fun _ m' =>
    live m' BufC = Some (BInfo (M * N) false) /\ live m' (BufX 5) <> None /\
    match bias with
    | Some b => forall bv, is_vector b N bv ->
        holds m' BufC M N (fun i j => add (product S x (fun k j => w j k) ord i j) (bv j))
    | None => holds m' BufC M N (product S x (fun k j => w j k) ord)
    end).
Proof. intros; eapply forward_ok; eauto. Qed.
Print Assumptions C51_forward.

(** The same on a machine of realistic size, with the sizing done in IEEE arithmetic, when 16
    divides the number of outputs. *)
Theorem C51_forward_ieee :
  forall S add (nz : elt S -> bool) one junk l2 l3 M N K (X W : tensor S) x w,
  0 <= M -> 0 <= N -> 0 <= K -> nz (zero S) = false ->
  is_matrix X M K x -> is_matrix W N K w ->
  lucky junk -> machine (cake_query_cntx_torch junk l2 l3) -> 2 * bytes 6 6 16 <= l2 ->
  fits_int (cake_query_cntx_torch junk l2 l3) M 10 -> (16 | N) ->
  exists ord, orders K ord /\
  forall m0, nothing m0 ->
  always (linear_forward S add ieee nz one junk l2 l3 X W None) m0 (fun _ m' =>
    holds m' BufC M N (product S x (fun k j => w j k) ord)).
Proof.
  intros S add nz one junk l2 l3 M N K X W x w HM HN HK Hz HX HW Hl Hm Hb Hf Hd.
  destruct (C51_forward S add ieee nz one junk l2 l3 M N K X W x w) as (ord & H1 & H2); auto.
  - destruct Hl. apply fits_16; auto; try lia. apply ieee_auto; auto; lia.
  - exists ord. split; [exact H1|]. intros m0 H0. destruct (H2 m0 None H0 I) as (E & G). split; [exact E|].
    intros o Ho. destruct (G o Ho) as (r & m' & -> & _ & _ & Q). eauto.
Qed.
Print Assumptions C51_forward_ieee.

(** A weight matrix whose number of inputs is not that of the data is refused with an exception. *)
Theorem C51_forward_mismatch :
  forall S add F (nz : elt S -> bool) one junk l2 l3 M N K K' (X W : tensor S) x m0 bias o,
  is_matrix X M K x -> sizes W = [N; K'] -> N * K' <> N * K ->
  pexec (linear_forward S add F nz one junk l2 l3 X W bias) m0 o -> o = Exited.
Proof. intros; eapply forward_mismatch; eauto. Qed.
Print Assumptions C51_forward_mismatch.

(** So are data that are not at least a matrix, and a weight with no dimension: with an exception,
    not with undefined behaviour. *)
Theorem C51_forward_dimensions :
  forall S add F (nz : elt S -> bool) one junk l2 l3 (X W : tensor S) bias m0,
  (length (sizes X) < 2)%nat \/ sizes W = [] ->
  always_exits (linear_forward S add F nz one junk l2 l3 X W bias) m0.
Proof. exact forward_dimensions. Qed.
Print Assumptions C51_forward_dimensions.

Definition tX (M K : Z) : tensor Zs := Tensor (S := Zs) [M; K] (fun e => e + 1).
Definition tW (N K : Z) : tensor Zs := Tensor (S := Zs) [N; K] (fun e => 2 * e - 3).
Definition tb (N : Z) : tensor Zs := Tensor (S := Zs) [N] (fun e => 100 * e).
Definition empty_mem : mem Z := Mem (fun _ => None) (fun _ _ => None).

(** In every other call with work to do, every execution is undefined. *)
Theorem C51_forward_otherwise_undefined :
  forall S add F (nz : elt S -> bool) one junk l2 l3 M N K (X W : tensor S) x w,
  0 < M -> 0 < N -> 0 < K -> is_matrix X M K x -> is_matrix W N K w ->
  auto_tiles F M 10 (cake_query_cntx_torch junk l2 l3) 0 0 0 ->
  ~ layer_fits F (cake_query_cntx_torch junk l2 l3) M N K 10 ->
  forall m0 bias, nothing m0 -> always_undefined (linear_forward S add F nz one junk l2 l3 X W bias) m0.
Proof. intros. apply forward_undefined with (M := M) (N := N) (K := K) (x := x) (w := w); assumption. Qed.
Print Assumptions C51_forward_otherwise_undefined.

(** Refuted without the conditions: 60 inputs and 65 outputs on an ordinary machine (256K and 8M
    caches), the uninitialised fields being 0: the packing reads past the end of the weights. *)
Theorem C51_forward_refuted :
  exists (X W : tensor Zs) x w junk l2 l3 M N K m0,
    is_matrix X M K x /\ is_matrix W N K w /\ 0 < M /\ 0 < N /\ 0 < K /\ lucky junk /\
    machine (cake_query_cntx_torch junk l2 l3) /\ nothing m0 /\
    pexec (linear_forward Zs Z.add ieee Znz 1 junk l2 l3 X W None) m0 Undef.
Proof.
  exists (tX 1 60), (tW 65 60), (fun i k => i * 60 + k + 1), (fun j k => 2 * (j * 60 + k) - 3), wctx, 262144, 8388608, 1, 65, 60, empty_mem.
  split; [split; reflexivity|split; [split; reflexivity|]].
  do 3 (split; [reflexivity|]). split; [split; reflexivity|]. split; [vm_compute; repeat split; congruence|].
  split; [intros b; reflexivity|].
  apply (refute_by_undef _ empty_mem (fun _ _ => True)). vm_compute. reflexivity.
Qed.
Print Assumptions C51_forward_refuted.

(** Refuted if the uninitialised fields hold anything else: an out of range kernel is called. *)
Theorem C51_forward_junk_refuted :
  exists (X W : tensor Zs) x w junk l2 l3 M N K m0,
    is_matrix X M K x /\ is_matrix W N K w /\ 0 < M /\ 0 < K /\ (16 | N) /\ nothing m0 /\
    pexec (linear_forward Zs Z.add wF Znz 1 junk l2 l3 X W None) m0 Undef.
Proof.
  exists (tX 7 3), (tW 16 3), (fun i k => i * 3 + k + 1), (fun j k => 2 * (j * 3 + k) - 3), (Cntx (0, 0) 0 0 7 0 0 0 0 0), 262144, 8388608, 7, 16, 3, empty_mem.
  split; [split; reflexivity|split; [split; reflexivity|]].
  do 2 (split; [reflexivity|]). split; [exists 1; reflexivity|]. split; [intros b; reflexivity|].
  apply (refute_by_undef _ empty_mem (fun _ _ => True)). vm_compute. reflexivity.
Qed.
Print Assumptions C51_forward_junk_refuted.

Example C51_applies :
  is_matrix (tX 7 3) 7 3 (fun i k => i * 3 + k + 1) /\ is_matrix (tW 32 3) 32 3 (fun j k => 2 * (j * 3 + k) - 3) /\
  is_vector (tb 32) 32 (fun j => 100 * j) /\
  layer_call wF (cake_query_cntx_torch wctx 262144 8388608) 7 32 3 10 /\
  match pseqexec (linear_forward Zs Z.add wF Znz 1 wctx 262144 8388608 (tX 7 3) (tW 32 3) (Some (tb 32))) empty_mem with
  | Done _ m' => dat m' BufC (6 * 32 + 31) = Some ((19 * 183 + 20 * 185 + 21 * 187) + 3100) | _ => False end.
Proof.
  split; [split; reflexivity|split; [split; reflexivity|split; [split; reflexivity|split]]].
  - apply fits_16; try lia; [reflexivity|reflexivity| |reflexivity|reflexivity|exists 2; lia]. split; [auto|split; [cbn; lia|]]. intros q x Hq Hx _.
    exists (510 * (q * x) / 180). split; [reflexivity|]. apply Z.div_pos; nia.
  - vm_compute. reflexivity.
Qed.

(** A vector is no data for the layer. *)
Example C51_dimensions_applies :
  (length (sizes (tb 32)) < 2)%nat /\
  match pseqexec (linear_forward Zs Z.add wF Znz 1 wctx 262144 8388608 (tb 32) (tW 32 3) None) empty_mem with
  | Exited => True | _ => False end.
Proof. split; [cbn; lia|vm_compute; exact I]. Qed.

(** A call outside [layer_call]: 65 outputs. *)
Example C51_otherwise_applies :
  is_matrix (tX 1 60) 1 60 (fun i k => i * 60 + k + 1) /\ is_matrix (tW 65 60) 65 60 (fun j k => 2 * (j * 60 + k) - 3) /\
  auto_tiles ieee 1 10 (cake_query_cntx_torch wctx 262144 8388608) 0 0 0 /\
  ~ layer_fits ieee (cake_query_cntx_torch wctx 262144 8388608) 1 65 60 10.
Proof.
  split; [split; reflexivity|split; [split; reflexivity|split]].
  - assert (Hm : machine (cake_query_cntx_torch wctx 262144 8388608)) by (vm_compute; repeat split; congruence).
    apply ieee_auto; try lia; [exact Hm|vm_compute; discriminate|].
    split; [reflexivity|]. intros n2 n3 H2 H3. rewrite (L2_side_unique _ _ _ Hm H2 wL2).
    rewrite (L3_side_unique _ _ _ Hm H3 wL3). reflexivity.
  - intros H.
    assert (E : exists x c', init_block_dims ieee 1 65 60 10 (cake_query_cntx_torch wctx 262144 8388608) NA 0 0 0 = CRet (x, c') /\
                sch x = NKM /\ k_tail 60 10 (k_c x) = 0)
      by (do 2 eexists; split; [vm_compute; reflexivity|split; vm_compute; reflexivity]).
    destruct E as (x & c' & E & Es & Ek). specialize (H x c' E). rewrite Es, Ek in H.
    destruct H as [H|H]; [discriminate H|]. vm_compute in H. apply H. reflexivity.
Qed.

(** C52.  backward(cache_sz, G, X, W, b) returns G*W and G^T*X as the gradients of the data and of
    the weights. *)
Theorem C52_backward :
  forall S add F (nz : elt S -> bool) one junk l2 l3 M N K (G X W : tensor S) g x w,
  0 <= M -> 0 <= N -> 0 <= K -> nz (zero S) = false ->
  is_matrix G M K g -> is_matrix X M N x -> is_matrix W K N w ->
  layer_call F (cake_query_cntx_torch junk l2 l3) M N K 10 ->
  layer_call F (cake_query_cntx_torch junk l2 l3) K N M 10 ->
  exists ord1 ord2, orders K ord1 /\ orders M ord2 /\
  forall m0 bias, nothing m0 ->
  always (linear_backward S add F nz one junk l2 l3 G X W bias) m0 (fun r m' =>
    holds m' (BufX 6) M N (product S g w ord1) /\
    holds m' BufC K N (product S (fun k i => g i k) x ord2) /\
    match bias with
    | Some _ => exists gb, r = Some gb /\
        is_vector gb K (fun j => total add M (fun i => g ((i * K + j) mod M) ((i * K + j) / M)))
    | None => r = None
    end).
Proof. intros; eapply backward_ok; eauto. Qed.
Print Assumptions C52_backward.

(** If one of the two products does not fit, every execution is undefined. *)
Theorem C52_backward_otherwise_undefined :
  forall S add F (nz : elt S -> bool) one junk l2 l3 M N K (G X W : tensor S) g x w,
  0 < M -> 0 < N -> 0 < K -> nz (zero S) = false ->
  is_matrix G M K g -> is_matrix X M N x -> is_matrix W K N w ->
  auto_tiles F M 10 (cake_query_cntx_torch junk l2 l3) 0 0 0 ->
  auto_tiles F K 10 (cake_query_cntx_torch junk l2 l3) 0 0 0 ->
  forall m0 bias,
  ~ (layer_fits F (cake_query_cntx_torch junk l2 l3) M N K 10 /\ layer_fits F (cake_query_cntx_torch junk l2 l3) K N M 10) ->
  nothing m0 -> always_undefined (linear_backward S add F nz one junk l2 l3 G X W bias) m0.
Proof. intros. apply backward_undefined with (M := M) (N := N) (K := K) (g := g) (x := x) (w := w); assumption. Qed.
Print Assumptions C52_backward_otherwise_undefined.

(** A gradient or a weight that is not at least a matrix is refused with an exception. *)
Theorem C52_backward_dimensions :
  forall S add F (nz : elt S -> bool) one junk l2 l3 (G X W : tensor S) bias m0,
  nothing m0 -> (length (sizes G) < 2)%nat \/ (length (sizes W) < 2)%nat ->
  always_exits (linear_backward S add F nz one junk l2 l3 G X W bias) m0.
Proof. exact backward_dimensions. Qed.
Print Assumptions C52_backward_dimensions.

(** The gradient of the bias should be the sum of each column of G.  What is returned is that for
    a batch of one row, or a layer of one output, ... *)
Theorem C52_grad_bias :
  forall (S : scalar) add M K (g : Z -> Z -> S) j, 0 <= j < K -> M = 1 \/ K = 1 ->
  total add M (fun i => g ((i * K + j) mod M) ((i * K + j) / M)) = total add M (fun i => g i j).
Proof. exact bias_right. Qed.
Print Assumptions C52_grad_bias.

(** ... and wrong for some gradient with every other batch size and number of outputs: the
    matrix has been transposed in between, and is read as if it had not been. *)
Theorem C52_grad_bias_refuted :
  forall M K, 2 <= M -> 2 <= K ->
  exists g : Z -> Z -> Zs,
    total (S := Zs) Z.add M (fun i => g ((i * K + 0) mod M) ((i * K + 0) / M)) <> total (S := Zs) Z.add M (fun i => g i 0).
Proof. intros M K HM HK. exists one_grad. destruct (bias_wrong M K HM HK) as (-> & ->). discriminate. Qed.
Print Assumptions C52_grad_bias_refuted.

Definition tG (M K : Z) : tensor Zs := Tensor (S := Zs) [M; K] (fun e => e * e).

(** a batch of 7, 3 outputs, 16 inputs *)
Example C52_applies :
  is_matrix (tG 7 3) 7 3 (fun i k => (i * 3 + k) * (i * 3 + k)) /\ is_matrix (tX 7 16) 7 16 (fun i j => i * 16 + j + 1) /\
  is_matrix (tW 3 16) 3 16 (fun k j => 2 * (k * 16 + j) - 3) /\
  layer_call wF (cake_query_cntx_torch wctx 262144 8388608) 7 16 3 10 /\
  layer_call wF (cake_query_cntx_torch wctx 262144 8388608) 3 16 7 10 /\
  match pseqexec (linear_backward Zs Z.add wF Znz 1 wctx 262144 8388608 (tG 7 3) (tX 7 16) (tW 3 16) (Some (tb 3))) empty_mem with
  | Done (Some gb) m' =>
      dat m' (BufX 6) (6 * 16 + 15) = Some (18 * 18 * 27 + 19 * 19 * 59 + 20 * 20 * 91) /\
      (* bias 0: the sum of the first column of G is 819 *)
      elems gb 0 = 931
  | _ => False end.
Proof.
  split; [split; reflexivity|split; [split; reflexivity|split; [split; reflexivity|]]].
  assert (A : forall M, auto_tiles wF M 10 (cake_query_cntx_torch wctx 262144 8388608) 0 0 0).
  { intros M. split; [auto|split; [cbn; lia|]]. intros q x Hq Hx _.
    exists (510 * (q * x) / 180). split; [reflexivity|]. apply Z.div_pos; nia. }
  split; [apply fits_16; try lia; [reflexivity|reflexivity|apply A|reflexivity|reflexivity|exists 1; lia]|].
  split; [apply fits_16; try lia; [reflexivity|reflexivity|apply A|reflexivity|reflexivity|exists 1; lia]|].
  vm_compute. split; reflexivity.
Qed.

Example C52_dimensions_applies :
  nothing empty_mem /\ (length (sizes (tb 32)) < 2)%nat /\
  match pseqexec (linear_backward Zs Z.add wF Znz 1 wctx 262144 8388608 (tG 7 3) (tX 7 16) (tb 32) None) empty_mem with
  | Exited => True | _ => False end.
Proof. split; [intros b; reflexivity|split; [cbn; lia|vm_compute; exact I]]. Qed.
