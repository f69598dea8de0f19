(** Vocabulary for C81, delay queue. *)
From Verif Require Import Base PQ_Model DelayQueue_Model DelayQueue_Spec DQPanic_Model.

Section spec.
  Context {T : Type}.
  (** inside a Push *)
  Definition pushing (p : pc T) : Prop :=
    match p with PuLock _ | PuPush _ | PuPeek _ | PuUnlock _ _ | PuComp _ _ | PuCas | PuSend => True | _ => False end.
  (** past the point where the element enters the queue *)
  Definition has_pushed (p : pc T) (v : T) : Prop :=
    match p with PuPeek w | PuUnlock w _ | PuComp w _ => w = v | _ => False end.
End spec.
