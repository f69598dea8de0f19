(** A lock-free skip list made with a nil comparator, NewLockFreeSkipList(nil)
    (lockfree_skiplist.go:28-39).  less and equals call it for every node other
    than head and tail (lockfree_skiplist.go:136-151): calling a nil function
    panics, so a goroutine at such a place can only panic.  The caller recovers
    and goes on.  [dummy] stands where the model of the list wants a comparator;
    it is never called. *)
From Verif Require Import Base Lin_Spec LockFree_Model LFPanic_Model.

Section lf.
  Context {T : Type} (dummy : T -> T -> Z).
  Inductive nstep : sys T -> option (pevent T) -> sys T -> Prop :=
  | n_call_return x e y : step dummy x (Some e) y -> nstep x (Some (Did e)) y
  | n_silent m ps t p top m' p' : ps !! t = Some p -> running p = true -> random_level top -> ~ compares m p ->
      tstep dummy m p top = Ok (m', p') -> nstep (Sys m ps) None (Sys m' (<[t := p']> ps))
  | n_panic m ps t p : ps !! t = Some p -> compares m p ->
      nstep (Sys m ps) (Some (Abandoned t)) (Sys m (<[t := Quiet]> ps)).
End lf.
