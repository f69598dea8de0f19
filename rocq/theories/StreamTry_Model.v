(** Model of the parallel branch of TryFold (stream/tryfold.go:23-64, with doParallel, stream/stream.go:21-38) over a
    slice stream, and of First, AllMatch and AnyMatch on a parallel slice
    stream (stream/first.go:3-14, stream/all_any_match.go:3-29).
    Goroutines are entries of a list; every step is one action of one
    goroutine, and any enabled step may happen next.
    Simplifications: the callback is a pure function that neither panics nor
    blocks; pulling the next element of a segment is private to its goroutine
    and is one step with the select that follows it. *)
From Verif Require Import Base Split_Model.

Section tryfold.
  Context {T : Type} (zero : T) (s : list T) (p : Z) (init : T) (f : T -> T -> T * bool).

  (** the goroutine body, tryfold.go:28-44 *)
  Inductive tworker :=
  | TRun (rest : list T) (acc : T)   (* at the loop of line 30 *)
  | TCancel                          (* f said no: about to call cancel(), line 37 *)
  | TSend (acc : T)                  (* about to do resChan <- accum, line 42 *)
  | TSent                            (* returned after the send, line 43 *)
  | TQuit.                           (* returned from lines 33 or 38 *)
  (** the caller, tryfold.go:26-27,45-63 *)
  Inductive tmain :=
  | TSpawn (idx : nat)               (* in the loop of doParallel, stream/stream.go:25-36 *)
  | TRecv (counter : nat) (acc val : T)   (* at line 47; [val] is the named result *)
  | TReturned (v : T) (ok : bool).
  Record tstate := TState {
    tm : tmain; tws : list tworker;
    tbuf : list T;                   (* the channel: capacity p, line 24; never closed *)
    tcanc : bool }.                  (* whether ctx has been cancelled *)

  Definition tinit : tstate := TState (TSpawn 0) [] [] false.

  Inductive tstep : tstate -> tstate -> Prop :=
  | ts_spawn idx seg idx' ws buf c :                (* stream.go:26-35 *)
      split_next s p idx = Ok (Some seg, idx') ->
      tstep (TState (TSpawn idx) ws buf c) (TState (TSpawn idx') (ws ++ [TRun seg init]) buf c)
  | ts_spawned idx idx' ws buf c :                  (* stream.go:27-29; tryfold.go:26,45-47 *)
      split_next s p idx = Ok (None, idx') ->
      tstep (TState (TSpawn idx) ws buf c) (TState (TRecv 0 init zero) ws buf c)
  | ts_recv k acc val a ws r buf c :                (* tryfold.go:52-53,58 *)
      Z.of_nat k <> p -> f acc r = (a, true) ->
      tstep (TState (TRecv k acc val) ws (r :: buf) c) (TState (TRecv (k + 1) a r) ws buf c)
  | ts_recv_fail k acc val a ws r buf c :           (* tryfold.go:52-56 *)
      Z.of_nat k <> p -> f acc r = (a, false) ->
      tstep (TState (TRecv k acc val) ws (r :: buf) c) (TState (TReturned a false) ws buf true)
  | ts_done k acc val ws buf :                      (* tryfold.go:59-60 *)
      Z.of_nat k <> p ->
      tstep (TState (TRecv k acc val) ws buf true) (TState (TReturned val false) ws buf true)
  | ts_return k acc val ws buf c :                  (* tryfold.go:48-50,63 *)
      Z.of_nat k = p ->
      tstep (TState (TRecv k acc val) ws buf c) (TState (TReturned acc true) ws buf c)
  | ts_quit m ws buf i x rest acc :                 (* tryfold.go:30-33: ctx is done *)
      ws !! i = Some (TRun (x :: rest) acc) ->
      tstep (TState m ws buf true) (TState m (<[i := TQuit]> ws) buf true)
  | ts_work m ws buf i x rest acc a :               (* tryfold.go:30-35 *)
      ws !! i = Some (TRun (x :: rest) acc) -> f acc x = (a, true) ->
      tstep (TState m ws buf false) (TState m (<[i := TRun rest a]> ws) buf false)
  | ts_work_fail m ws buf i x rest acc a :          (* tryfold.go:35-36 *)
      ws !! i = Some (TRun (x :: rest) acc) -> f acc x = (a, false) ->
      tstep (TState m ws buf false) (TState m (<[i := TCancel]> ws) buf false)
  | ts_cancel m ws buf c i :                        (* tryfold.go:37-38 *)
      ws !! i = Some TCancel ->
      tstep (TState m ws buf c) (TState m (<[i := TQuit]> ws) buf true)
  | ts_end m ws buf c i acc :                       (* tryfold.go:30: the segment is exhausted *)
      ws !! i = Some (TRun [] acc) ->
      tstep (TState m ws buf c) (TState m (<[i := TSend acc]> ws) buf c)
  | ts_send m ws buf c i acc :                      (* tryfold.go:42, room in the channel *)
      ws !! i = Some (TSend acc) -> (Z.of_nat (length buf) < p)%Z ->
      tstep (TState m ws buf c) (TState m (<[i := TSent]> ws) (buf ++ [acc]) c).
End tryfold.
Arguments tstate : clear implicits.
Arguments tworker : clear implicits.
Arguments tmain : clear implicits.

Section matches.
  Context {T : Type} (zero : T).
  (** First, stream/first.go:3-14, on a slice stream of parallelism p: the
      first element of the first segment *)
  Definition first_par (s : list T) (p : Z) : res (T * bool) :=
    let! (o, _) := split_next s p 0 in
    match o with
    | Some (x :: _) => Ok (x, true)
    | _ => Ok (zero, false)
    end.
  (** AllMatch, stream/all_any_match.go:3-15: the ways it can return b *)
  Definition all_match_returns (s : list T) (p : Z) (cb : T -> bool) (b : bool) : Prop :=
    exists m ok, first_par s p = Ok (m, ok) /\
    if ok then exists x v, rtc (tstep zero s p m (fun a y => if cb y then (a, true) else (a, false))) tinit x
                           /\ tm x = TReturned v b
    else b = false.
  (** AnyMatch, stream/all_any_match.go:17-29 *)
  Definition any_match_returns (s : list T) (p : Z) (cb : T -> bool) (b : bool) : Prop :=
    exists m ok, first_par s p = Ok (m, ok) /\
    if ok then exists x v, rtc (tstep zero s p m (fun a y => if cb y then (a, false) else (a, true))) tinit x
                           /\ tm x = TReturned v (negb b)
    else b = false.
End matches.
