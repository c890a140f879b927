(** * The execution model.

    What a C++ function of the library may do to memory, and what counts as
    undefined behaviour.  Nothing here is specific to one function of /repo; the
    functions are transcribed in the [Model*.v] files on top of these
    definitions.  This file contains no proofs. *)

From Coq Require Import ZArith List Bool.
Import ListNotations.
Open Scope Z_scope.

(** Names of the heap objects the modelled functions use.  [BufA], [BufB], [BufC]
    are the caller's matrices; [BufAp i], [BufBp], [BufCp i] are the packing
    buffers of cake_sgemm.cpp (one per core where the code has an array of
    pointers); [BufX i] is for other functions. *)
Inductive buf : Set :=
| BufA | BufB | BufC | BufAp (i : Z) | BufBp | BufCp (i : Z) | BufX (i : Z).

Definition buf_eqb (x y : buf) : bool :=
  match x, y with
  | BufA, BufA | BufB, BufB | BufC, BufC | BufBp, BufBp => true
  | BufAp i, BufAp j => i =? j
  | BufCp i, BufCp j => i =? j
  | BufX i, BufX j => i =? j
  | _, _ => false
  end.

(** A live object: its length in elements, and whether its base address is
    64-byte aligned (posix_memalign(.., 64, ..) gives that, calloc does not). *)
Record binfo : Set := BInfo { blen : Z; b64 : bool }.

(** Arithmetic of matrix elements.  [fma a b c] is the fused a*b+c of
    _mm256_fmadd_ps / vfmaq; [zero] is what memset/calloc/0.0 produce. *)
Record scalar : Type := Scalar {
  elt  :> Type;
  zero : elt;
  fma  : elt -> elt -> elt -> elt }.

Section Lang.

Context {V : Type}.

(** Memory: which objects are live, and the contents of every cell.  [None] is an
    indeterminate (never written) cell. *)
Record mem : Type := Mem {
  live : buf -> option binfo;
  dat  : buf -> Z -> option V }.

(** ** Threads: one iteration of an [omp parallel for]. *)
Inductive thr (R : Type) : Type :=
| TRet (r : R)
| TLoad (al : Z) (b : buf) (i : Z) (k : V -> thr R)
| TStore (b : buf) (i : Z) (v : V) (k : thr R)
| TFail.
Arguments TRet {R}. Arguments TLoad {R}. Arguments TStore {R}. Arguments TFail {R}.

Fixpoint tbind {R S} (t : thr R) (f : R -> thr S) : thr S :=
  match t with
  | TRet r => f r
  | TLoad al b i k => TLoad al b i (fun v => tbind (k v) f)
  | TStore b i v k => TStore b i v (tbind k f)
  | TFail => TFail
  end.

Definition tload (b : buf) (i : Z) : thr V := TLoad 1 b i (fun v => TRet v).
(** A load that needs its element index aligned to [al] elements (a multiple of
    8 floats for _mm256_load_ps). *)
Definition tload_al (al : Z) (b : buf) (i : Z) : thr V := TLoad al b i (fun v => TRet v).
Definition tstore (b : buf) (i : Z) (v : V) : thr unit := TStore b i v (TRet tt).

(** for (i = lo; i < hi; i += step) with a loop-carried local state.  A loop that
    would never end (step <= 0 with lo < hi) is undefined behaviour. *)
Fixpoint titer {S} (n : nat) (i step : Z) (f : Z -> S -> thr S) (s : S) : thr S :=
  match n with
  | O => TRet s
  | Datatypes.S n' => tbind (f i s) (fun s' => titer n' (i + step) step f s')
  end.

Definition loop_count (lo hi step : Z) : nat := Z.to_nat ((hi - lo + step - 1) / step).

Definition tfor {S} (lo hi step : Z) (s : S) (f : Z -> S -> thr S) : thr S :=
  if 0 <? step then titer (loop_count lo hi step) lo step f s
  else if lo <? hi then TFail else TRet s.

Definition tfor_ (lo hi step : Z) (f : Z -> thr unit) : thr unit :=
  tfor lo hi step tt (fun i _ => f i).

(** for (i = start; i != stop; i += inc), inc = 1 or -1.  When the loop variable
    moves away from [stop] the loop runs until it overflows: undefined. *)
Definition tfor_ne {S} (start stop inc : Z) (s : S) (f : Z -> S -> thr S) : thr S :=
  if (0 <=? (stop - start) * inc) && (inc * inc =? 1)
  then titer (Z.to_nat ((stop - start) * inc)) start inc f s
  else TFail.

Definition tfor_ne_ (start stop inc : Z) (f : Z -> thr unit) : thr unit :=
  tfor_ne start stop inc tt (fun i _ => f i).

(** ** Single memory operations. *)
Definition aligned (al : Z) (bi : binfo) (i : Z) : bool :=
  (al =? 1) || (b64 bi && (i mod al =? 0)).

Definition load (m : mem) (al : Z) (b : buf) (i : Z) : option V :=
  match live m b with
  | Some bi => if (0 <=? i) && (i <? blen bi) && aligned al bi i then dat m b i else None
  | None => None
  end.

Definition can_store (m : mem) (b : buf) (i : Z) : bool :=
  match live m b with
  | Some bi => (0 <=? i) && (i <? blen bi)
  | None => false
  end.

Definition upd (m : mem) (b : buf) (i : Z) (v : V) : mem :=
  Mem (live m)
      (fun b' i' => if buf_eqb b b' && (i =? i') then Some v else dat m b' i').

(** ** Interleaving of the threads of one parallel region. *)
Inductive tstep : thr unit -> mem -> thr unit -> mem -> Prop :=
| tstep_load al b i k v m :
    load m al b i = Some v -> tstep (TLoad al b i k) m (k v) m
| tstep_store b i v k m :
    can_store m b i = true -> tstep (TStore b i v k) m k (upd m b i v).

(** The next operation of a thread is undefined in [m]. *)
Definition tfaulty (t : thr unit) (m : mem) : Prop :=
  match t with
  | TRet _ => False
  | TLoad al b i _ => load m al b i = None
  | TStore b i _ _ => can_store m b i = false
  | TFail => True
  end.

(** The next memory access of a thread: is it a write, and where. *)
Definition tnext (t : thr unit) : option (bool * buf * Z) :=
  match t with
  | TLoad _ b i _ => Some (false, b, i)
  | TStore b i _ _ => Some (true, b, i)
  | _ => None
  end.

Definition conflict (t1 t2 : thr unit) : Prop :=
  exists w1 w2 b i, tnext t1 = Some (w1, b, i) /\ tnext t2 = Some (w2, b, i) /\ w1 || w2 = true.

Definition pstate : Type := (list (thr unit) * mem)%type.

Inductive pstep : pstate -> pstate -> Prop :=
| pstep_intro ts1 t ts2 m t' m' :
    tstep t m t' m' -> pstep (ts1 ++ t :: ts2, m) (ts1 ++ t' :: ts2, m').

Inductive psteps : pstate -> pstate -> Prop :=
| psteps_refl s : psteps s s
| psteps_cons s1 s2 s3 : pstep s1 s2 -> psteps s2 s3 -> psteps s1 s3.

(** A parallel region goes wrong: some thread's next operation is undefined, or
    two threads are about to make conflicting accesses (a data race). *)
Definition pfault (s : pstate) : Prop :=
  (exists t, In t (fst s) /\ tfaulty t (snd s)) \/
  (exists ts1 t1 ts2 t2 ts3, fst s = ts1 ++ t1 :: ts2 ++ t2 :: ts3 /\ conflict t1 t2).

Definition pdone (s : pstate) : Prop := forall t, In t (fst s) -> t = TRet tt.

(** ** Programs: sequences of parallel regions, allocations and frees. *)
Inductive prog (R : Type) : Type :=
| PRet (r : R)
| PPar (ts : list (thr unit)) (k : prog R)
| PAlloc (b : buf) (n : Z) (al : bool) (init : option V) (k : prog R)
| PFree (b : buf) (k : prog R)
| PUB
| PExit.
Arguments PRet {R}. Arguments PPar {R}. Arguments PAlloc {R}. Arguments PFree {R}.
Arguments PUB {R}. Arguments PExit {R}.

Fixpoint pbind {R S} (p : prog R) (f : R -> prog S) : prog S :=
  match p with
  | PRet r => f r
  | PPar ts k => PPar ts (pbind k f)
  | PAlloc b n al init k => PAlloc b n al init (pbind k f)
  | PFree b k => PFree b (pbind k f)
  | PUB => PUB
  | PExit => PExit
  end.

Fixpoint zseq (n : nat) (i step : Z) : list Z :=
  match n with
  | O => []
  | Datatypes.S n' => i :: zseq n' (i + step) step
  end.

(** #pragma omp parallel for, over for (i = lo; i < hi; i += step). *)
Definition ppar_for (lo hi step : Z) (body : Z -> thr unit) : prog unit :=
  if 0 <? step then PPar (map body (zseq (loop_count lo hi step) lo step)) (PRet tt)
  else if lo <? hi then PUB else PRet tt.

(** Sequential statements of the main thread. *)
Definition pseq (t : thr unit) : prog unit := PPar [t] (PRet tt).

Fixpoint piter {S} (n : nat) (i step : Z) (f : Z -> S -> prog S) (s : S) : prog S :=
  match n with
  | O => PRet s
  | Datatypes.S n' => pbind (f i s) (fun s' => piter n' (i + step) step f s')
  end.

Definition pfor {S} (lo hi step : Z) (s : S) (f : Z -> S -> prog S) : prog S :=
  if 0 <? step then piter (loop_count lo hi step) lo step f s
  else if lo <? hi then PUB else PRet s.

Definition pfor_ (lo hi step : Z) (f : Z -> prog unit) : prog unit :=
  pfor lo hi step tt (fun i _ => f i).

(** for (i = start; i != stop; i += inc) in the main thread. *)
Definition pfor_ne {S} (start stop inc : Z) (s : S) (f : Z -> S -> prog S) : prog S :=
  if (0 <=? (stop - start) * inc) && (inc * inc =? 1)
  then piter (Z.to_nat ((stop - start) * inc)) start inc f s
  else PUB.

Definition pfor_ne_ (start stop inc : Z) (f : Z -> prog unit) : prog unit :=
  pfor_ne start stop inc tt (fun i _ => f i).

Definition palloc (b : buf) (n : Z) (al : bool) (init : option V) : prog unit :=
  PAlloc b n al init (PRet tt).
Definition pfree (b : buf) : prog unit := PFree b (PRet tt).

Definition do_alloc (m : mem) (b : buf) (n : Z) (al : bool) (init : option V) : mem :=
  Mem (fun b' => if buf_eqb b b' then Some (BInfo n al) else live m b')
      (fun b' i => if buf_eqb b b' then init else dat m b' i).

Definition do_free (m : mem) (b : buf) : mem :=
  Mem (fun b' => if buf_eqb b b' then None else live m b')
      (fun b' i => if buf_eqb b b' then None else dat m b' i).

(** ** Outcomes and executions. *)
Inductive outcome (R : Type) : Type :=
| Done (r : R) (m : mem)
| Undef
| Exited.
Arguments Done {R}. Arguments Undef {R}. Arguments Exited {R}.

Inductive pexec {R} : prog R -> mem -> outcome R -> Prop :=
| PE_ret r m : pexec (PRet r) m (Done r m)
| PE_par_ok ts k m ts' m' o :
    psteps (ts, m) (ts', m') -> pdone (ts', m') -> pexec k m' o ->
    pexec (PPar ts k) m o
| PE_par_ub ts k m s :
    psteps (ts, m) s -> pfault s -> pexec (PPar ts k) m Undef
| PE_alloc b n al init k m o :
    0 <= n -> live m b = None ->
    pexec k (do_alloc m b n al init) o -> pexec (PAlloc b n al init k) m o
| PE_alloc_ub b n al init k m :
    (n < 0 \/ live m b <> None) -> pexec (PAlloc b n al init k) m Undef
| PE_free b k m o :
    live m b <> None -> pexec k (do_free m b) o -> pexec (PFree b k) m o
| PE_free_ub b k m :
    live m b = None -> pexec (PFree b k) m Undef
| PE_ub m : pexec PUB m Undef
| PE_exit m : pexec PExit m Exited.

End Lang.

Arguments mem V : clear implicits.
Arguments thr V R : clear implicits.
Arguments prog V R : clear implicits.
Arguments outcome V R : clear implicits.
Arguments pstate V : clear implicits.
Arguments TRet {V R}. Arguments TLoad {V R}. Arguments TStore {V R}. Arguments TFail {V R}.
Arguments PRet {V R}. Arguments PPar {V R}. Arguments PAlloc {V R}. Arguments PFree {V R}.
Arguments PUB {V R}. Arguments PExit {V R}.
Arguments Done {V R}. Arguments Undef {V R}. Arguments Exited {V R}.

Declare Scope prog_scope.
Delimit Scope prog_scope with prog.
Notation "'let*' x ':=' a 'in' b" := (pbind a (fun x => b))
  (at level 200, x name, a at level 100, b at level 200) : prog_scope.
Notation "a ;;; b" := (pbind a (fun _ => b)) (at level 90, right associativity) : prog_scope.
Declare Scope thr_scope.
Delimit Scope thr_scope with thr.
Notation "'let+' x ':=' a 'in' b" := (tbind a (fun x => b))
  (at level 200, x name, a at level 100, b at level 200) : thr_scope.
Notation "a ;;+ b" := (tbind a (fun _ => b)) (at level 90, right associativity) : thr_scope.
