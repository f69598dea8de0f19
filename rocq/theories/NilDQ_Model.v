(** A delay queue made with a nil comparator, NewDelayQueue(nil, size)
    (delay_queue.go:35-50).  Only Push calls it, after it has unlocked
    (delay_queue.go:63): calling a nil function panics, so no Push gets past that
    place.  The caller recovers and goes on.  (The priority queue has its own
    comparator, delay_queue.go:38-46.)  [dummy] stands where the model of the
    queue wants a comparator; it is never called. *)
From Verif Require Import Base PQ_Model DelayQueue_Model DQPanic_Model.

Section dq.
  Context {T : Type} (zero : T) (expi : T -> Z) (dummy : T -> T -> Z).

  Inductive nstep : sys T -> plabel T -> sys T -> Prop :=
  | ns_plain x l y : step zero expi dummy x l y ->
      (forall t v d, pcs x t = PuComp v d -> pcs y t = PuComp v d) -> nstep x (Plain l) y
  | ns_comp x t v d : pcs x t = PuComp v d -> nstep x (CompPanics t) (set_pc t Idle x). (* delay_queue.go:63 *)

  Definition nruns (ok : plabel T -> Prop) : sys T -> sys T -> Prop :=
    rtc (fun x y => exists l, ok l /\ nstep x l y).
  (** reachable from NewDelayQueue(nil, size) *)
  Definition nreached (size : Z) (ok : plabel T -> Prop) (x : sys T) : Prop :=
    exists q0, start_q zero size = Ok q0 /\ nruns ok (start q0) x.
End dq.
