(** The lock-free skip list when the comparator panics: less and equals call it
    (lockfree_skiplist.go:136-151) in the searches of find, get and getRank
    (lockfree_skiplist.go:153-253), equals at the end of find
    (lockfree_skiplist.go:252).  The panic ends the method (there is no
    deferred call), the caller recovers and may call again; what the method has
    done to the list stays done.  A panic in less and one in the equals that
    follows leave the same state, since no atomic operation lies between them.
    Any comparison may panic or not. *)
From Verif Require Import Base Lin_Spec LockFree_Model.

Section lf.
  Context {T : Type} (comp : T -> T -> Z).

  (** the next step of a goroutine at [p] calls the comparator: it is about to
      examine a node other than head and tail whose link is not marked *)
  Definition compares (m : mem T) (p : pc T) : Prop :=
    exists k v prevs succs l prev c nd next,
      p = Find k v prevs succs (PCur l prev (Some c)) /\ c <> head /\ c <> tail /\
      heap m !! c = Some nd /\ nexts nd !! l = Some (next, false).

  Inductive pevent := Did (e : event (op T) (ret T)) | Abandoned (t : nat).
  Inductive pstep : sys T -> option pevent -> sys T -> Prop :=
  | p_plain x e y : step comp x e y -> pstep x (Did <$> e) y
  | p_panic m ps t p : ps !! t = Some p -> compares m p ->
      pstep (Sys m ps) (Some (Abandoned t)) (Sys m (<[t := Quiet]> ps)).
End lf.
Arguments pevent : clear implicits.
