(** * Matrices anywhere in the caller's memory.

    Definitions only.  In the other models the arguments A, B and C of a call point to the
    beginning of three different objects.  Here they are any three pointers: into one object or
    several, overlapping or not. *)

From Coq Require Import ZArith List Bool.
From Verif Require Import Lang ModelKernel.
Open Scope Z_scope.

(** Where the element BufA[0], BufB[0] or BufC[0] of the other models is, when the arguments
    float* A, float* B, float* C of an entry point (include/cake.h) are pA, pB, pC.
    The library's own objects are where they are. *)
Definition arg (pA pB pC : ptr) (b : buf) : ptr :=
  match b with BufA => pA | BufB => pB | BufC => pC | _ => (b, 0) end.

(** The code reaches the matrices through these three arguments only (src/cake_sgemm.cpp passes
    them on to the packers and schedules, which add offsets), so the call with other arguments is
    the same program with every access displaced. *)
Fixpoint thr_at {V R} (pl : buf -> ptr) (t : thr V R) : thr V R :=
  match t with
  | TRet r => TRet r
  | TLoad al b i k => TLoad al (fst (pl b)) (snd (pl b) + i) (fun v => thr_at pl (k v))
  | TStore b i v k => TStore (fst (pl b)) (snd (pl b) + i) v (thr_at pl k)
  | TFail => TFail
  end.

Fixpoint call_at {V R} (pl : buf -> ptr) (P : prog V R) : prog V R :=
  match P with
  | PRet r => PRet r
  | PPar ts k => PPar (map (thr_at pl) ts) (call_at pl k)
  | PAlloc b n al init k => PAlloc b n al init (call_at pl k)
  | PFree b k => PFree b (call_at pl k)
  | PUB => PUB
  | PExit => PExit
  end.
