(** Model of FromChan, iterator/iterator.go:108-113: the iterator returned is one
    receive on the caller's channel per call.  The channel is Go's: a FIFO
    buffer of capacity [cap]; a send needs room in the buffer or, when the
    buffer is empty, a waiting receiver; a receive from a closed channel takes
    what is left in the buffer and then reports the zero value and false at
    once.  Any number of goroutines may send, close, and call the iterator.
    Not modelled: sending on or closing a closed channel (a panic in the
    caller's code) and nil channels. *)
From Verif Require Import Base.

Section chan.
  Context {T : Type} (zero : T) (cap : nat).
  Record cstate := CState {
    buf : list T; closed : bool;
    waiting : nat;               (* calls of the iterator that have not returned *)
    sent : list T;               (* values sent, in order *)
    got : list (T * bool) }.     (* results of the iterator, in order *)
  Definition cinit : cstate := CState [] false 0 [] [].
  Inductive cstep : cstate -> cstate -> Prop :=
  | c_call b c w s g : cstep (CState b c w s g) (CState b c (S w) s g)              (* line 109 *)
  | c_send v b w s g : length b < cap ->                                            (* c <- v, room *)
      cstep (CState b false w s g) (CState (b ++ [v]) false w (s ++ [v]) g)
  | c_handoff v w s g :                                                             (* c <- v, to a receiver *)
      cstep (CState [] false (S w) s g) (CState [] false w (s ++ [v]) (g ++ [(v, true)]))
  | c_recv v b c w s g :                                                            (* line 110 *)
      cstep (CState (v :: b) c (S w) s g) (CState b c w s (g ++ [(v, true)]))
  | c_recv_closed w s g :                                                           (* line 110 *)
      cstep (CState [] true (S w) s g) (CState [] true w s (g ++ [(zero, false)]))
  | c_close b w s g : cstep (CState b false w s g) (CState b true w s g).           (* close(c) *)
End chan.
Arguments cstate : clear implicits.
