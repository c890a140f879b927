(** * The convolution example as a whole (main of examples/cake_conv.cpp). *)

From Coq Require Import ZArith List Bool Permutation Lia.
From Verif Require Import Lang Lang_facts Spec SpecTop SpecSmall SpecTouch SpecPack ModelSizing ModelKernel ModelConv SpecConv ModelConvMain SpecConvMain
     Witness Witness_facts ConvMain_facts.
Import ListNotations.
Open Scope Z_scope.

(** C74.  The example convolves F with In directly and as a product of matrices, compares the
    two outputs and says how many elements are far apart.  For fitting shapes every execution
    ends well; both outputs hold the convolution, each element with its terms in some order, but
    the direct one is zero beyond the last multiple of sixteen columns; F and In are as before,
    and the numbers said are the numbers of far and of near elements. *)
Theorem C74_convolutions :
  forall S (far : elt S -> elt S -> bool) all_correct some_wrong rawH rawK F ar nz alpha beta d s p cx mcu kcu ncu Fl In m,
  conv_args rawH rawK d p -> conv_fits d -> mr cx = 6 -> nr cx = 16 ->
  legal F ar KMN cx (Cout d) (Hout d * Wout d) (Wf d * Hf d * Cin d) p mcu kcu ncu -> conv_start m d Fl In ->
  exists ts1 ts2, Permutation ts1 (all_terms (Cin d)) /\ (forall o y x, Permutation (ts2 o y x) (all_terms (Cin d))) /\
  always (conv_main S far all_correct some_wrong rawH rawK F ar nz alpha beta d s p cx mcu kcu ncu) m (fun _ m' =>
    (forall o y x, 0 <= o < Cout d -> 0 <= y < Hout d -> 0 <= x < Wout d ->
       dat m' varOut ((o * Hout d + y) * Wout d + x) = Some (if covered d x then conv_sum S Fl In ts1 o y x (zero S) else zero S) /\
       dat m' BufC ((o * Hout d + y) * Wout d + x) = Some (conv_sum S Fl In (ts2 o y x) o y x (zero S))) /\
    (forall b i, b = varF \/ b = varIn -> live m' b = live m b /\ dat m' b i = dat m b i) /\
    dat m' said 0 = Some (let cells := Cout d * (Hout d * Wout d) in let wrong := far_cells far m' cells in
                          if wrong =? 0 then all_correct else some_wrong wrong (cells - wrong))).
Proof. exact main_ok. Qed.
Print Assumptions C74_convolutions.

(** Where sums can be reordered and no number is far from itself, and the columns are a multiple
    of sixteen: both outputs are equal and the example says that all is correct. *)
Theorem C74_agree :
  forall S (far : elt S -> elt S -> bool) all_correct some_wrong rawH rawK F ar nz alpha beta d s p cx mcu kcu ncu Fl In m,
  conv_args rawH rawK d p -> conv_fits d -> mr cx = 6 -> nr cx = 16 ->
  legal F ar KMN cx (Cout d) (Hout d * Wout d) (Wf d * Hf d * Cin d) p mcu kcu ncu -> conv_start m d Fl In ->
  (16 | Wout d) -> forall add mul, sums S add mul -> (forall a, far a a = false) ->
  always (conv_main S far all_correct some_wrong rawH rawK F ar nz alpha beta d s p cx mcu kcu ncu) m (fun _ m' =>
    (forall o y x, 0 <= o < Cout d -> 0 <= y < Hout d -> 0 <= x < Wout d ->
       dat m' varOut ((o * Hout d + y) * Wout d + x) = Some (conv_sum S Fl In (all_terms (Cin d)) o y x (zero S)) /\
       dat m' BufC ((o * Hout d + y) * Wout d + x) = Some (conv_sum S Fl In (all_terms (Cin d)) o y x (zero S))) /\
    dat m' said 0 = Some all_correct).
Proof. exact main_exact. Qed.
Print Assumptions C74_agree.

(** The comparison by itself, of any two arrays. *)
Theorem C74_comparison :
  forall S (far : elt S -> elt S -> bool) all_correct some_wrong M N m,
  0 <= M * N -> at_least m varOut (M * N) -> at_least m BufC (M * N) -> at_least m said 1 ->
  initialised m varOut (M * N) -> initialised m BufC (M * N) ->
  always (conv_gemm_checker S far all_correct some_wrong (varOut, 0) (BufC, 0) M N) m (fun _ m' =>
    live m' = live m /\ (forall b i, ~ (b = said /\ i = 0) -> dat m' b i = dat m b i) /\
    dat m' said 0 = Some (let wrong := far_cells far m (M * N) in
                          if wrong =? 0 then all_correct else some_wrong wrong (M * N - wrong))).
Proof. exact comparison_ok. Qed.
Print Assumptions C74_comparison.

(** An input with too few rows for the output: every execution is undefined. *)
Theorem C74_rows_refuted :
  forall S (far : elt S -> elt S -> bool) all_correct some_wrong rawH rawK F ar nz alpha beta d s p cx mcu kcu ncu Fl In m bi,
  conv_args rawH rawK d p -> 16 <= Wout d -> 0 < Hout d -> 0 <= Hin d < Hout d + 2 -> 0 <= Win d ->
  mr cx = 6 -> nr cx = 16 -> conv_start m d Fl In -> live m varIn = Some bi -> blen bi = Cin d * Hin d * Win d ->
  always_undefined (conv_main S far all_correct some_wrong rawH rawK F ar nz alpha beta d s p cx mcu kcu ncu) m.
Proof. exact main_rows. Qed.
Print Assumptions C74_rows_refuted.

(** With output channels that are no multiple of six likewise. *)
Theorem C74_channels_refuted :
  forall S (far : elt S -> elt S -> bool) all_correct some_wrong rawH rawK F ar nz alpha beta d s p cx mcu kcu ncu Fl In m,
  conv_args rawH rawK d p -> 16 <= Wout d -> 0 < Hout d -> ~ (6 | Cout d) ->
  mr cx = 6 -> nr cx = 16 -> conv_start m d Fl In ->
  always_undefined (conv_main S far all_correct some_wrong rawH rawK F ar nz alpha beta d s p cx mcu kcu ncu) m.
Proof. exact main_channels. Qed.
Print Assumptions C74_channels_refuted.

(** Main itself (sizes of lines 897-906) has too few rows, whatever the machine. *)
Theorem C74_own_sizes_refuted :
  forall S (far : elt S -> elt S -> bool) all_correct some_wrong rawH rawK F ar nz alpha beta cx mcu kcu ncu Fl In m bi,
  let d := ConvShape 3 3 33 33 32 32 512 512 in
  (forall mc, 0 <= rawH mc) -> (forall mc nc, rawK mc nc <> 0) -> mr cx = 6 -> nr cx = 16 ->
  conv_start m d Fl In -> live m varIn = Some bi -> blen bi = 33 * 33 * 512 ->
  always_undefined (conv_main S far all_correct some_wrong rawH rawK F ar nz alpha beta d 1 10 cx mcu kcu ncu) m.
Proof.
  intros S far ac sw rawH rawK F ar nz al be cx mcu kcu ncu Fl In m bi d R1 R2 H6 H16 HS L B.
  apply main_rows with (Fl := Fl) (In := In) (bi := bi); unfold d; cbn [Wf Hf Win Hin Wout Hout Cin Cout]; try lia; auto.
  repeat split; cbn [Wf Hf Win Hin Wout Hout Cin Cout]; auto; lia.
Qed.
Print Assumptions C74_own_sizes_refuted.

(** Two input channels, six output channels, 2x16 outputs, two cores. *)
Definition eshape : conv_shape := ConvShape 3 3 18 4 16 2 2 6.
Definition emem : mem Z :=
  Mem (fun b => if buf_eqb b varF then Some (BInfo (6 * 2 * 9) false) else if buf_eqb b varIn then Some (BInfo (2 * 4 * 18) false)
                else if buf_eqb b said then Some (BInfo 1 false) else None)
      (fun b i => if buf_eqb b varF then Some (wA i) else if buf_eqb b varIn then Some (wB i) else None).

Example C74_applies :
  conv_args (fun _ => 1) (fun _ _ => 3) eshape 2 /\ conv_fits eshape /\ legal wF haswell KMN wctx 6 32 18 2 6 2 16 /\
  conv_start emem eshape (fun o c h w => wA (((o * 2 + c) * 3 + h) * 3 + w)) (fun c y x => wB ((c * 4 + y) * 18 + x)) /\
  always (conv_main Zs (fun a b => negb (a =? b)) 1 (fun w _ => - w) (fun _ => 1) (fun _ _ => 3) wF haswell (fun a => negb (a =? 0)) 1 0
            eshape 1 2 wctx 6 2 16) emem (fun _ m' => dat m' said 0 = Some 1) /\
  always_undefined (conv_main Zs (fun a b => negb (a =? b)) 1 (fun w _ => - w) (fun _ => 1) (fun _ _ => 3) wF haswell (fun a => negb (a =? 0)) 1 0
            (ConvShape 3 3 18 4 16 3 2 6) 1 2 wctx 6 2 16) emem /\
  always_undefined (conv_main Zs (fun a b => negb (a =? b)) 1 (fun w _ => - w) (fun _ => 1) (fun _ _ => 3) wF haswell (fun a => negb (a =? 0)) 1 0
            (ConvShape 3 3 18 4 16 2 2 5) 1 2 wctx 6 2 16) emem.
Proof.
  assert (A : conv_args (fun _ => 1) (fun _ _ => 3) eshape 2) by (repeat split; cbn; lia).
  assert (Ft : conv_fits eshape) by (repeat split; cbn; try lia; now exists 1).
  assert (Lg : legal wF haswell KMN wctx 6 32 18 2 6 2 16) by (apply w_legal; reflexivity || discriminate).
  assert (St : conv_start emem eshape (fun o c h w => wA (((o * 2 + c) * 3 + h) * 3 + w)) (fun c y x => wB ((c * 4 + y) * 18 + x))).
  { split; [|split; [|split]].
    - intros o c h w H1 H2 H3 H4. cbn [eshape Cin Cout] in *. exists (BInfo (6 * 2 * 9) false). split; [reflexivity|]. split; [cbn [blen]; lia|reflexivity].
    - intros c y x H1 H2 H3. cbn [eshape Cin Hin Win] in *. exists (BInfo (2 * 4 * 18) false). split; [reflexivity|]. split; [cbn [blen]; lia|reflexivity].
    - exists (BInfo 1 false). split; [reflexivity|cbn; lia].
    - intros b H1 H2 H3. unfold emem. cbn [live].
      destruct (buf_eqb_spec b varF), (buf_eqb_spec b varIn), (buf_eqb_spec b said); congruence. }
  split; [exact A|]. split; [exact Ft|]. split; [exact Lg|]. split; [exact St|]. split; [|split].
  - destruct (C74_agree Zs (fun a b => negb (a =? b)) 1 (fun w _ => - w) _ _ wF haswell (fun a => negb (a =? 0)) 1 0 eshape 1 2 wctx 6 2 16 _ _ emem
      A Ft eq_refl eq_refl Lg St ltac:(now exists 1) Z.add Z.mul) as (H1 & H2).
    + split; [reflexivity|]. split; [intros; apply Z.add_comm|intros; apply Z.add_assoc].
    + intros a. now rewrite Z.eqb_refl.
    + split; [exact H1|]. intros o Ho. destruct (H2 o Ho) as (r & m' & E & _ & V). eauto.
  - eapply C74_rows_refuted with (bi := BInfo (2 * 4 * 18) false) (Fl := fun o c h w => wA (((o * 2 + c) * 3 + h) * 3 + w)) (In := fun c y x => wB ((c * 4 + y) * 18 + x));
      cbn [Wf Hf Win Hin Wout Hout Cin Cout]; try lia; try reflexivity.
    + repeat split; cbn; lia.
    + exact St.
  - eapply C74_channels_refuted with (Fl := fun o c h w => wA (((o * 2 + c) * 3 + h) * 3 + w)) (In := fun c y x => wB ((c * 4 + y) * 18 + x));
      cbn [Wf Hf Win Hin Wout Hout Cin Cout]; try lia; try reflexivity.
    + repeat split; cbn; lia.
    + intros [q Hq]. lia.
    + destruct St as (SF & SO). split; [|exact SO]. intros o c h w H1 H2 H3 H4. apply SF; auto. cbn [eshape Cout] in *. lia.
Qed.
