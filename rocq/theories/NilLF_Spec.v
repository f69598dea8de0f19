(** Vocabulary for C81, lock-free skip list. *)
From Verif Require Import Base Lin_Spec LockFree_Model LFPanic_Model.

Section spec.
  Context {T : Type} (zero : T).
  (** an event of goroutine [t] *)
  Definition doer (e : pevent T) : nat :=
    match e with Did (Call t _) => t | Did (Return t _) => t | Abandoned t => t end.
  (** in history [h] a call [o] returned [r] *)
  Definition answered (h : list (pevent T)) (o : op T) (r : ret T) : Prop :=
    exists t h1 h2 h3, h = h1 ++ Did (Call t o) :: h2 ++ Did (Return t r) :: h3 /\ Forall (fun e => doer e <> t) h2.
  (** the answers such a list gives *)
  Definition nil_answer (o : op T) (r : ret T) : Prop :=
    match o with
    | Add _ => r = RBool true
    | Del _ | Has _ => r = RBool false
    | Get _ => r = RVal zero
    | Rank _ | Len => r = RInt 0 \/ r = RInt 1
    end.
  (** calls that search for a value *)
  Definition searches (o : op T) : Prop := match o with Add _ | Del _ | Has _ | Get _ => True | _ => False end.
End spec.
