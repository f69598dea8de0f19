(** Which memory each step of the delay queue's calls accesses
    (collections/delayqueue/delay_queue.go, collections/priorityqueue/priorityqueue.go).
    [Elements] stands for the slice header and everything in the slice,
    [Size] for the heap's counter, [Sleeping] for the flag.  The record of an
    element (delay_queue.go:17-24) is filled before it is pushed and only read
    afterwards; it is not listed. *)
From Verif Require Import Base PQ_Model DelayQueue_Model Race_Spec.

Inductive place_dq := Size | Elements | Sleeping.

Definition dq_touches {T} (x : sys T) (t : nat) : list (access place_dq) :=
  match pcs x t with
  | PuPush _ => [read Size; read Elements; write Elements; write Size]     (* priorityqueue.go:40-49, 65-74 *)
  | PuPeek _ | PoPeek | PlRead => [read Size; read Elements]               (* priorityqueue.go:102-107 *)
  | PoPop _ _ => [read Size; read Elements; write Elements; write Size]    (* priorityqueue.go:51-62, 76-96 *)
  | LnRead => [read Size]                                                  (* priorityqueue.go:98-100 *)
  | PuCas => [atomic_read Sleeping; atomic_write Sleeping]                 (* delay_queue.go:65 *)
  | PoSwap => [atomic_read Sleeping; atomic_write Sleeping]                (* delay_queue.go:180, 115 *)
  | PoStore _ => [atomic_write Sleeping]                                   (* delay_queue.go:163, 93 *)
  | PoExit => [atomic_write Sleeping]                                      (* delay_queue.go:137 *)
  | Idle | PuLock _ | PuUnlock _ _ | PuComp _ _ | PuSend | PoLock | PoClock _ | PoUnlock _ _ | PoWait _ | PoRecv
  | PoRet _ | PlLock | PlUnlock _ _ | Crashed => []
  end.
