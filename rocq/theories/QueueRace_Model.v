(** Which memory each step of the queue's calls accesses (collections/queue/queue.go).
    Filling a new node (queue.go:18-21) is an access to memory nobody else has
    the address of, and is not listed. *)
From Verif Require Import Base Lin_Spec Queue_Model Race_Spec.

Inductive place_q := HeadNext | Tail | Count | NodeVal (n : nat) | NodeNext (n : nat).

Definition q_touches {T} (x : sys T) (t : nat) : list (access place_q) :=
  match pcs x t with
  | PushTest _ => [read HeadNext]                                            (* queue.go:50 *)
  | PushHead _ => [write HeadNext]                                           (* queue.go:51 *)
  | PushNext _ => read Tail :: match tl x with Some a => [write (NodeNext a)] | None => [] end   (* queue.go:54 *)
  | PushTail _ => [write Tail]                                               (* queue.go:52, 55 *)
  | PushCount _ => [read Count; write Count]                                 (* queue.go:57 *)
  | PopRead => [read HeadNext]                                               (* queue.go:68 *)
  | PopHead (Some n) => [read (NodeNext n); write HeadNext]                  (* queue.go:69 *)
  | PopHead None => []
  | PopTest _ => [read HeadNext]                                             (* queue.go:70 *)
  | PopTail _ => [write Tail]                                                (* queue.go:71 *)
  | PopCount _ => [read Count; write Count]                                  (* queue.go:73 *)
  | PopVal n => [read (NodeVal n)]                                           (* queue.go:14 *)
  | PeekRead => [read HeadNext]                                              (* queue.go:62 *)
  | PeekVal (Some n) => [read (NodeVal n)]                                   (* queue.go:14 *)
  | LenRead | EmptyRead => [atomic_read Count]                               (* queue.go:79, 84 *)
  | Quiet | PushNew _ | PushLock _ | PushUnlock _ | PopLock | PopUnlock _ | PeekLock | PeekUnlock _
  | PeekVal None | PanicUnlock | Ready _ => []
  end.
