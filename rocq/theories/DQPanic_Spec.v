(** Vocabulary for C77. *)
From Verif Require Import Base PQ_Model DelayQueue_Model DelayQueue_Spec DQPanic_Model.

Section spec.
  Context {T : Type}.
  Definition everything (l : plabel T) : Prop := True.
  (** Expiration never panics; the rest satisfies [ok] *)
  Definition exp_fine (ok : label T -> Prop) (l : plabel T) : Prop :=
    match l with Plain l => ok l | ExpPanics _ => False | CompPanics _ => True end.
  (** a goroutine waiting for the mutex, in Push, Pop, PopWithCtx or Poll *)
  Definition wants_lock (p : pc T) : Prop :=
    match p with PuLock _ | PoLock | PlLock => True | _ => False end.
  (** nothing is pushed, taken or polled *)
  Definition outside (e : ev T) : Prop :=
    match e with Returned _ _ | Dropped _ _ | Counted _ _ => True | Pushed _ | Taken _ _ _ _ | Polled _ _ _ => False end.
End spec.
