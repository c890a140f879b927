(** * One particular execution: run the iterations of every parallel region one after
    the other.  Used to exhibit executions (examples and refutations).  A result of this
    function is a result of the program: [Exec_facts.pseqexec_sound]. *)

From Coq Require Import ZArith List Bool.
From Verif Require Import Lang.
Import ListNotations.
Open Scope Z_scope.

Section Exec.

Context {V : Type}.

(** [None]: the thread runs into undefined behaviour. *)
Fixpoint texec (t : thr V unit) (m : mem V) : option (mem V) :=
  match t with
  | TRet _ => Some m
  | TLoad al b i k => match load m al b i with Some v => texec (k v) m | None => None end
  | TStore b i v k => if can_store m b i then texec k (upd m b i v) else None
  | TFail => None
  end.

Fixpoint tsexec (ts : list (thr V unit)) (m : mem V) : option (mem V) :=
  match ts with
  | [] => Some m
  | t :: ts' => match texec t m with Some m' => tsexec ts' m' | None => None end
  end.

Fixpoint pseqexec {R} (P : prog V R) (m : mem V) : outcome V R :=
  match P with
  | PRet r => Done r m
  | PPar ts k => match tsexec ts m with Some m' => pseqexec k m' | None => Undef end
  | PAlloc b n al init k =>
      if (0 <=? n) && match live m b with None => true | Some _ => false end
      then pseqexec k (do_alloc m b n al init) else Undef
  | PFree b k => match live m b with None => Undef | Some _ => pseqexec k (do_free m b) end
  | PUB => Undef
  | PExit => Exited
  end.

End Exec.
