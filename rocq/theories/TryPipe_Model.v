(** Model of the parallel branch of TryFold (stream/tryfold.go:23-64) over an arbitrary
    stream, any source and any stages, and of First, AllMatch and AnyMatch
    (stream/first.go:3-14, stream/all_any_match.go:3-29) on it.  StreamTry_Model has the same
    functions over a slice.  As in ParPipe_Model one call of an iterator or of a generator is one step;
    unlike in StreamTry_Model the pull and the select after it are two steps.
    Simplifications: the callback [f] answers from its arguments alone; it may do anything ([e]) to the
    user's state, in one step, but neither panics nor blocks. *)
From Verif Require Import Base Stream_Model Stream_Spec.

Section tryfold.
  Context {U T : Type} (zero : T) (s : stream U T) (p : Z) (init : T) (f : T -> T -> T * bool) (e : T -> T -> U -> U).

  (** the goroutine body, tryfold.go:28-44 *)
  Inductive hworker :=
  | HPull (it : iter U T) (acc : T)          (* about to call pull, line 30 *)
  | HGot (x : T) (it : iter U T) (acc : T)   (* at the select, line 31 *)
  | HCancel                                  (* f said no: about to call cancel(), line 37 *)
  | HSend (acc : T)                          (* about to do resChan <- accum, line 42 *)
  | HSent                                    (* returned after the send, line 43 *)
  | HQuit.                                   (* returned from lines 33 or 38 *)
  (** the caller *)
  Inductive hmain :=
  | HMake                                    (* about to make the channel, tryfold.go:24 *)
  | HSpawn (g : gen U T)                     (* in the loop of doParallel, stream/stream.go:25-36 *)
  | HRecv (counter : nat) (acc val : T)      (* tryfold.go:47; [val] is the named result *)
  | HReturned (v : T) (ok : bool)
  | HPanicked.                               (* make with a negative size *)
  Record hstate := HState {
    hm : hmain; hws : list hworker;
    hbuf : list T;                           (* the channel: capacity p; never closed *)
    hcanc : bool;                            (* whether ctx has been cancelled *)
    hworld : world U }.
  Definition hinit (w : world U) : hstate := HState HMake [] [] false w.
  Definition call (a x : T) (w : world U) : world U := World (ctr w) (e a x (usr w)).

  Inductive hstep : hstate -> hstate -> Prop :=
  | hs_make ws buf c w :                              (* tryfold.go:24-27 *)
      (0 <= p)%Z ->
      hstep (HState HMake ws buf c w) (HState (HSpawn (activate s p)) ws buf c w)
  | hs_make_panic ws buf c w :                        (* tryfold.go:24: makechan: size out of range *)
      (p < 0)%Z ->
      hstep (HState HMake ws buf c w) (HState HPanicked ws buf c w)
  | hs_spawn g it g' ws buf c w w' :                  (* stream.go:26-35 *)
      greturns g w (Some it) g' w' ->
      hstep (HState (HSpawn g) ws buf c w) (HState (HSpawn g') (ws ++ [HPull it init]) buf c w')
  | hs_spawned g g' ws buf c w w' :                   (* stream.go:27-29; tryfold.go:26,45-47 *)
      greturns g w None g' w' ->
      hstep (HState (HSpawn g) ws buf c w) (HState (HRecv 0 init zero) ws buf c w')
  | hs_recv k acc val a ws r buf c w :                (* tryfold.go:52-53,58 *)
      Z.of_nat k <> p -> f acc r = (a, true) ->
      hstep (HState (HRecv k acc val) ws (r :: buf) c w) (HState (HRecv (k + 1) a r) ws buf c (call acc r w))
  | hs_recv_fail k acc val a ws r buf c w :           (* tryfold.go:52-56 *)
      Z.of_nat k <> p -> f acc r = (a, false) ->
      hstep (HState (HRecv k acc val) ws (r :: buf) c w) (HState (HReturned a false) ws buf true (call acc r w))
  | hs_done k acc val ws buf w :                      (* tryfold.go:59-60 *)
      Z.of_nat k <> p ->
      hstep (HState (HRecv k acc val) ws buf true w) (HState (HReturned val false) ws buf true w)
  | hs_return k acc val ws buf c w :                  (* tryfold.go:48-50,63 *)
      Z.of_nat k = p ->
      hstep (HState (HRecv k acc val) ws buf c w) (HState (HReturned acc true) ws buf c w)
  | hs_pull m ws buf c i x it it' acc w w' :          (* tryfold.go:30 *)
      ws !! i = Some (HPull it acc) -> returns it w (Some x) it' w' ->
      hstep (HState m ws buf c w) (HState m (<[i := HGot x it' acc]> ws) buf c w')
  | hs_end m ws buf c i it it' acc w w' :             (* tryfold.go:30: the segment is exhausted *)
      ws !! i = Some (HPull it acc) -> returns it w None it' w' ->
      hstep (HState m ws buf c w) (HState m (<[i := HSend acc]> ws) buf c w')
  | hs_quit m ws buf i x it acc w :                   (* tryfold.go:32-33: ctx is done *)
      ws !! i = Some (HGot x it acc) ->
      hstep (HState m ws buf true w) (HState m (<[i := HQuit]> ws) buf true w)
  | hs_work m ws buf i x it acc a w :                 (* tryfold.go:34-35 *)
      ws !! i = Some (HGot x it acc) -> f acc x = (a, true) ->
      hstep (HState m ws buf false w) (HState m (<[i := HPull it a]> ws) buf false (call acc x w))
  | hs_work_fail m ws buf i x it acc a w :            (* tryfold.go:34-36 *)
      ws !! i = Some (HGot x it acc) -> f acc x = (a, false) ->
      hstep (HState m ws buf false w) (HState m (<[i := HCancel]> ws) buf false (call acc x w))
  | hs_cancel m ws buf c i w :                        (* tryfold.go:37-38 *)
      ws !! i = Some HCancel ->
      hstep (HState m ws buf c w) (HState m (<[i := HQuit]> ws) buf true w)
  | hs_send m ws buf c i acc w :                      (* tryfold.go:42, room in the channel *)
      ws !! i = Some (HSend acc) -> (Z.of_nat (length buf) < p)%Z ->
      hstep (HState m ws buf c w) (HState m (<[i := HSent]> ws) (buf ++ [acc]) c w).

  (** First, stream/first.go:3-14: the ways a call in world [w] can return *)
  Inductive first_returns (w : world U) : T -> bool -> world U -> Prop :=
  | first_none g' w' :
      greturns (activate s p) w None g' w' -> first_returns w zero false w'
  | first_empty it g' it' w1 w' :
      greturns (activate s p) w (Some it) g' w1 -> returns it w1 None it' w' -> first_returns w zero false w'
  | first_elem it g' it' w1 w' v :
      greturns (activate s p) w (Some it) g' w1 -> returns it w1 (Some v) it' w' -> first_returns w v true w'.
End tryfold.
Arguments hworker : clear implicits.
Arguments hmain : clear implicits.
Arguments hstate : clear implicits.

Section matches.
  Context {U T : Type} (zero : T) (s : stream U T) (cb : T -> bool) (ce : T -> U -> U).
  (** AllMatch, stream/all_any_match.go:3-15, parallelism not 0: the ways it can return b *)
  Definition all_match (w : world U) (b : bool) : Prop :=
    exists m ok w', first_returns zero s (parallelism s) w m ok w' /\
    if ok then exists x v, rtc (hstep zero s (parallelism s) m (fun a y => if cb y then (a, true) else (a, false)) (fun _ y => ce y)) (hinit w') x
                           /\ hm x = HReturned v b
    else b = false.
  (** AnyMatch, stream/all_any_match.go:17-29 *)
  Definition any_match (w : world U) (b : bool) : Prop :=
    exists m ok w', first_returns zero s (parallelism s) w m ok w' /\
    if ok then exists x v, rtc (hstep zero s (parallelism s) m (fun a y => if cb y then (a, false) else (a, true)) (fun _ y => ce y)) (hinit w') x
                           /\ hm x = HReturned v (negb b)
    else b = false.
End matches.
