(** * Witnesses for the schedule that writes straight into C. *)

From Coq Require Import ZArith List Bool Lia.
From Verif Require Import Lang Spec SpecTop ModelSizing ModelKernel ModelPack ModelTop ModelUnpacked Exec Exec_facts
     Witness Witness_facts.
Open Scope Z_scope.

Definition wC (i : Z) : Z := 5 * i + 7.

(** A, B, C with its padding, and room for the packed operands *)
Definition umem (M N K : Z) : mem Z :=
  Mem (fun b => match b with
       | BufA => Some (BInfo (M * K) false) | BufB => Some (BInfo (K * N) false)
       | BufC => Some (BInfo (round_up M 6 * round_up N 16) false)
       | BufAp 0 => Some (BInfo (round_up M 6 * K) false) | BufBp => Some (BInfo (K * round_up N 16) true)
       | _ => None end)
     (fun b i => match b with
       | BufA => Some (wA i) | BufB => Some (wB i) | BufC => Some (wC i) | _ => None end).

(** The blocking the library computes for caller-given tiles of 6 x k x 16 *)
Definition wplan (M N K p k : Z) : option (blk_dims * cntx) :=
  match init_block_dims wF M N K p wctx KMN 6 k 16 with CRet r => Some r | _ => None end.

Definition wrun (M N K p k : Z) : option (outcome Z unit) :=
  match wplan M N K p k with
  | Some (x, c1) => Some (pseqexec (pack_and_multiply Zs haswell M N K p c1 x) (umem M N K))
  | None => None
  end.

Lemma umem_caller M N K : 0 <= M -> 0 <= N -> 0 <= K ->
  at_least (umem M N K) BufA (M * K) /\ holds (umem M N K) BufA M K (fun i k => wA (i * K + k)) /\
  at_least (umem M N K) BufB (K * N) /\ holds (umem M N K) BufB K N (fun k j => wB (k * N + j)) /\
  at_least (umem M N K) BufC (round_up M 6 * round_up N 16) /\
  holds (umem M N K) BufC (round_up M 6) (round_up N 16) (fun i j => wC (i * round_up N 16 + j)) /\
  at_least (umem M N K) (BufAp 0) (round_up M 6 * K) /\
  (exists bi, live (umem M N K) BufBp = Some bi /\ K * round_up N 16 <= blen bi /\ b64 bi = true).
Proof.
  intros. repeat split; try (eexists; split; [reflexivity|cbn; lia]).
Qed.

Lemma wide_wrong :
  exists M N K x c1 m' i j,
    legal wF haswell KMN wctx M N K 1 6 1 16 /\ init_block_dims wF M N K 1 wctx KMN 6 1 16 = CRet (x, c1) /\
    pexec (pack_and_multiply Zs haswell M N K 1 c1 x) (umem M N K) (Done tt m') /\
    0 <= i < M /\ 0 <= j < N /\
    dat m' BufC (i * round_up N 16 + j) <>
      Some (product_plus Zs (fun i k => wA (i * K + k)) (fun k j => wB (k * N + j))
              (fun i j => wC (i * round_up N 16 + j)) (fun _ _ => zrange 0 K) i j).
Proof.
  assert (H : match wrun 2 17 1 1 1 with Some (Done tt m) => match dat m BufC (1 * round_up 17 16 + 0) with Some v => v =? wC 32 + wA 1 * wB 16 | None => false end | _ => false end = true)
    by (vm_compute; reflexivity).
  unfold wrun, wplan in H. destruct (init_block_dims wF 2 17 1 1 wctx KMN 6 1 16) as [[x c1]| |] eqn:E; try discriminate.
  pose proof (pseqexec_sound (pack_and_multiply Zs haswell 2 17 1 1 c1 x) (umem 2 17 1)) as X.
  destruct (pseqexec _ _) as [[] m'| |]; try discriminate.
  exists 2, 17, 1, x, c1, m', 1, 0. split; [now apply w_legal|]. split; [exact E|]. split; [exact X|]. split; [lia|]. split; [lia|].
  intros G. assert (G' : dat m' BufC (1 * round_up 17 16 + 0) = Some (wC 32 + wA 1 * wB 0)) by (etransitivity; [exact G|vm_compute; reflexivity]).
  match type of H with context [match ?d with Some _ => _ | None => _ end] => assert (D : d = Some (wC 32 + wA 1 * wB 0)) by exact G'; rewrite D in H end.
  discriminate.
Qed.
