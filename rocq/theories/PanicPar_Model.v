(** Callbacks that panic: Map (stream/map.go:5-28), Filter (stream/filter.go:5-30)
    and Inspect (stream/inspect.go:5-29) with such callbacks, and FoldWith
    (stream/fold.go:12-50) and Collect (stream/collect.go:8-30), sequential and parallel, on top of any
    stream.  A callback that panics answers [None].  There is no recover
    anywhere in the package: a panic in the goroutine of the caller reaches the
    caller, a panic in a goroutine started by doParallel (stream.go:21-38) ends
    the process ([xcrashed], [ycrashed]; nothing runs afterwards).
    Simplifications as in ParPipe_Model: one call of an iterator with the
    callbacks it runs is one step; callbacks terminate. *)
From Verif Require Import Base Stream_Model Stream_Spec.

(** ** Stages *)
Section stages.
  Context {U : Type}.
  (** map.go:16-21 *)
  CoFixpoint mapP_iter {T R} (f : T -> U -> option (R * U)) (it : iter U T) : iter U R :=
    MkIter (fun fuel w =>
      match pull it fuel w with
      | Ok (Some t, it', w') =>
          match f t (usr w') with
          | Some (r, u) => Ok (Some r, mapP_iter f it', World (ctr w') u)
          | None => Panic
          end
      | Ok (None, it', w') => Ok (None, mapP_iter f it', w')
      | Panic => Panic
      | Fuel => Fuel
      end).
  Definition MapP {T R} (s : stream U T) (f : T -> U -> option (R * U)) : stream U R := wrap (mapP_iter f) s.
  (** inspect.go:16-22 *)
  Definition InspectP {T} (s : stream U T) (f : T -> U -> option U) : stream U T :=
    wrap (mapP_iter (fun t u => match f t u with Some u => Some (t, u) | None => None end)) s.
  (** filter.go:16-21 *)
  Fixpoint keepP_loop {T} (f : T -> U -> option (bool * U)) (n : nat) (it : iter U T) (fuel : nat) (w : world U)
      : res (option T * iter U T * world U) :=
    match n with
    | 0 => Fuel
    | S n' =>
      match pull it fuel w with
      | Ok (Some t, it', w') =>
          match f t (usr w') with
          | Some (true, u) => Ok (Some t, it', World (ctr w') u)
          | Some (false, u) => keepP_loop f n' it' fuel (World (ctr w') u)
          | None => Panic
          end
      | Ok (None, it', w') => Ok (None, it', w')
      | Panic => Panic
      | Fuel => Fuel
      end
    end.
  CoFixpoint keepP_iter {T} (f : T -> U -> option (bool * U)) (it : iter U T) : iter U T :=
    MkIter (fun fuel w =>
      match keepP_loop f fuel it fuel w with
      | Ok (r, it', w') => Ok (r, keepP_iter f it', w')
      | Panic => Panic
      | Fuel => Fuel
      end).
  Definition FilterP {T} (s : stream U T) (f : T -> U -> option (bool * U)) : stream U T := wrap (keepP_iter f) s.
End stages.

(** ** FoldWith with parallelism 0: the elements the callback was called with,
    and the value, or [None] if the call panics *)
Section seq.
  Context {U T R : Type} (f : R -> T -> option R).
  (** fold.go:21-23, collect.go:16-18 *)
  Fixpoint foldP_seg (n : nat) (it : iter U T) (acc : R) (fuel : nat) (w : world U) : res (list T * option (R * world U)) :=
    match n with
    | 0 => Fuel
    | S n' =>
      match pull it fuel w with
      | Ok (Some t, it', w') =>
          match f acc t with
          | Some acc' => let! (calls, o) := foldP_seg n' it' acc' fuel w' in Ok (t :: calls, o)
          | None => Ok ([t], None)
          end
      | Ok (None, _, w') => Ok ([], Some (acc, w'))
      | Panic => Ok ([], None)
      | Fuel => Fuel
      end
    end.
  (** fold.go:16-24, collect.go:11-19 *)
  Fixpoint foldP_gen (n : nat) (g : gen U T) (acc : R) (fuel : nat) (w : world U) : res (list T * option R) :=
    match n with
    | 0 => Fuel
    | S n' =>
      match nextseg g fuel w with
      | Ok (Some it, g', w') =>
          let! (calls, o) := foldP_seg fuel it acc fuel w' in
          match o with
          | Some (acc', w'') => let! (calls', o') := foldP_gen n' g' acc' fuel w'' in Ok (calls ++ calls', o')
          | None => Ok (calls, None)
          end
      | Ok (None, _, _) => Ok ([], Some acc)
      | Panic => Ok ([], None)
      | Fuel => Fuel
      end
    end.
  Definition FoldWithP_seq (s : stream U T) (init : R) (fuel : nat) (w : world U) : res (list T * option R) :=
    foldP_gen fuel (activate s 0) init fuel w.
End seq.

(** a call of the iterator panics *)
Definition panics {U T} (it : iter U T) (w : world U) : Prop := exists n, forall m, n <= m -> pull it m w = Panic.

(** ** FoldWith, parallelism not 0 *)
Section fold.
  Context {U T R : Type} (p : Z) (init : R) (f : R -> T -> option R) (comb : R -> R -> option R).
  Inductive xworker :=
  | XRun (it : iter U T) (acc : R)   (* fold.go:33-35 *)
  | XSend (acc : R)                  (* fold.go:36 *)
  | XDone.
  Inductive xmain :=
  | XSpawn (g : gen U T)             (* stream.go:25-36 *)
  | XRecv (counter : nat) (acc : R)  (* fold.go:41-47 *)
  | XReturned (acc : R)              (* fold.go:48-49 *)
  | XPanicked.                       (* a panic of the combiner, in the goroutine of the caller *)
  Record xstate := XState {
    xm : xmain; xws : list xworker; xbuf : list R; xclosed : bool; xcrashed : bool; xworld : world U }.
  Definition xinit (s : stream U T) (w : world U) : xstate := XState (XSpawn (activate s p)) [] [] false false w.

  Inductive xstep : xstate -> xstate -> Prop :=
  | xs_spawn g it g' ws buf cl w w' :            (* stream.go:26-35 *)
      greturns g w (Some it) g' w' ->
      xstep (XState (XSpawn g) ws buf cl false w) (XState (XSpawn g') (ws ++ [XRun it init]) buf cl false w')
  | xs_spawned g g' ws buf cl w w' :             (* stream.go:27-29; fold.go:29,40 *)
      greturns g w None g' w' ->
      xstep (XState (XSpawn g) ws buf cl false w) (XState (XRecv 0 init) ws buf cl false w')
  | xs_recv k acc ws r buf cl w :                (* fold.go:45-46 *)
      Z.of_nat k <> p ->
      xstep (XState (XRecv k acc) ws (r :: buf) cl false w)
            (XState (match comb acc r with Some a => XRecv (k + 1) a | None => XPanicked end) ws buf cl false w)
  | xs_return k acc ws buf cl w :                (* fold.go:42-43,48-49 *)
      Z.of_nat k = p ->
      xstep (XState (XRecv k acc) ws buf cl false w) (XState (XReturned acc) ws buf true false w)
  | xs_work m ws buf cl i x it it' acc w w' :    (* fold.go:33-35 *)
      ws !! i = Some (XRun it acc) -> returns it w (Some x) it' w' ->
      xstep (XState m ws buf cl false w)
            (match f acc x with
             | Some a => XState m (<[i := XRun it' a]> ws) buf cl false w'
             | None => XState m ws buf cl true w'
             end)
  | xs_boom m ws buf cl i it acc w :             (* a stage's callback panics in pull *)
      ws !! i = Some (XRun it acc) -> panics it w ->
      xstep (XState m ws buf cl false w) (XState m ws buf cl true w)
  | xs_end m ws buf cl i it it' acc w w' :
      ws !! i = Some (XRun it acc) -> returns it w None it' w' ->
      xstep (XState m ws buf cl false w) (XState m (<[i := XSend acc]> ws) buf cl false w')
  | xs_send m ws buf i acc w :                   (* fold.go:36, room in the channel *)
      ws !! i = Some (XSend acc) -> (Z.of_nat (length buf) < p)%Z ->
      xstep (XState m ws buf false false w) (XState m (<[i := XDone]> ws) (buf ++ [acc]) false false w)
  | xs_send_closed m ws buf i acc w :            (* fold.go:36, send on closed channel *)
      ws !! i = Some (XSend acc) ->
      xstep (XState m ws buf true false w) (XState m ws buf true true w).
End fold.
Arguments xworker : clear implicits.
Arguments xmain : clear implicits.
Arguments xstate : clear implicits.

(** ** Collect, parallelism not 0 *)
Section collect.
  Context {U T : Type} (consume : T -> U -> option U).
  Inductive yworker :=
  | YLoop (it : iter U T)            (* collect.go:25 *)
  | YEmit (x : T) (it : iter U T)    (* about to call collectTo, collect.go:26 *)
  | YEnd                             (* stream.go:33 *)
  | YGone.
  Inductive ymain := YSpawn (g : gen U T) | YWait | YReturned.
  Record ystate := YState {
    ym : ymain; yws : list yworker; ywg : nat; ycrashed : bool; yworld : world U;
    ylog : list (nat * T)            (* calls of collectTo that returned: goroutine, element *) }.
  Definition yinit (s : stream U T) (w : world U) : ystate := YState (YSpawn (activate s (parallelism s))) [] 0 false w [].

  Inductive ystep : ystate -> ystate -> Prop :=
  | ys_spawn g it g' ws n w w' lg :              (* stream.go:26-35 *)
      greturns g w (Some it) g' w' ->
      ystep (YState (YSpawn g) ws n false w lg) (YState (YSpawn g') (ws ++ [YLoop it]) (n + 1) false w' lg)
  | ys_spawned g g' ws n w w' lg :               (* stream.go:27-29 *)
      greturns g w None g' w' ->
      ystep (YState (YSpawn g) ws n false w lg) (YState YWait ws n false w' lg)
  | ys_wait ws w lg :                            (* .Wait(), collect.go:29 *)
      ystep (YState YWait ws 0 false w lg) (YState YReturned ws 0 false w lg)
  | ys_pull m ws n w w' lg i it it' x :          (* collect.go:25 *)
      ws !! i = Some (YLoop it) -> returns it w (Some x) it' w' ->
      ystep (YState m ws n false w lg) (YState m (<[i := YEmit x it']> ws) n false w' lg)
  | ys_boom m ws n w lg i it :                   (* a stage's callback panics in pull *)
      ws !! i = Some (YLoop it) -> panics it w ->
      ystep (YState m ws n false w lg) (YState m ws n true w lg)
  | ys_exhausted m ws n w w' lg i it it' :
      ws !! i = Some (YLoop it) -> returns it w None it' w' ->
      ystep (YState m ws n false w lg) (YState m (<[i := YEnd]> ws) n false w' lg)
  | ys_emit m ws n w lg i x it :                 (* collect.go:26 *)
      ws !! i = Some (YEmit x it) ->
      ystep (YState m ws n false w lg)
            (match consume x (usr w) with
             | Some u => YState m (<[i := YLoop it]> ws) n false (World (ctr w) u) (lg ++ [(i, x)])
             | None => YState m ws n true w lg
             end)
  | ys_done m ws n w lg i :                      (* wg.Done(), stream.go:33 *)
      ws !! i = Some YEnd ->
      ystep (YState m ws n false w lg) (YState m (<[i := YGone]> ws) (n - 1) false w lg).
End collect.
Arguments yworker : clear implicits.
Arguments ymain : clear implicits.
Arguments ystate : clear implicits.
