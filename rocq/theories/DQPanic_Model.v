(** The delay queue when the caller's code panics in Push: Expiration, called
    with the mutex held (delay_queue.go:55-59, no deferred unlock), or the
    comparator, called after the unlock (delay_queue.go:63).  The caller of Push
    recovers and goes on; the goroutine is then outside the queue, and whatever
    Push had done, the locking included, stays done.  Any such call may panic or
    not.  (The internal comparator of delay_queue.go:38-46 cannot panic.) *)
From Verif Require Import Base PQ_Model DelayQueue_Model DelayQueue_Spec.

Section dq.
  Context {T : Type} (zero : T) (expi : T -> Z) (comp : T -> T -> Z).

  (** a step of the queue as before, a panicking Expiration, a panicking comparator *)
  Inductive plabel := Plain (l : label T) | ExpPanics (t : nat) | CompPanics (t : nat).

  Inductive pstep : sys T -> plabel -> sys T -> Prop :=
  | ps_plain x l y : step zero expi comp x l y -> pstep x (Plain l) y
  | ps_exp x t v : pcs x t = PuPush v -> pstep x (ExpPanics t) (set_pc t Idle x)      (* delay_queue.go:58 *)
  | ps_comp x t v d : pcs x t = PuComp v d -> pstep x (CompPanics t) (set_pc t Idle x). (* delay_queue.go:63 *)

  Definition pruns (ok : plabel -> Prop) : sys T -> sys T -> Prop :=
    rtc (fun x y => exists l, ok l /\ pstep x l y).
  (** reachable from NewDelayQueue(comp, size) *)
  Definition preached (size : Z) (ok : plabel -> Prop) (x : sys T) : Prop :=
    exists q0, start_q zero size = Ok q0 /\ pruns ok (start q0) x.
End dq.
Arguments plabel : clear implicits.
