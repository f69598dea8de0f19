(** Model of the parallel branches of Collect (stream/collect.go:20-30) and
    FoldWith (stream/fold.go:26-50) over an arbitrary stream: any source and any
    stages, as built by Stream_Model.  StreamPar_Model has the same two
    functions over a slice, resp. over a list of segments; here the goroutines call the
    very iterators the generator made.  Simplifications: one call of an
    iterator (with the callbacks it runs) is one step, so the interleaving inside a call is not
    represented (StreamPar_Model does that for Skip, Take and Enumerate); the
    fold's own callbacks are pure.  A call of an iterator is the relation [returns]
    of Stream_Spec: the result for every large enough amount of fuel. *)
From Verif Require Import Base Split_Model WalkSplit_Model Stream_Model Stream_Spec.

(** * Sources that walk pointers *)
Section walk.
  Context {U : Type}.
  (** a closure with state [st] that does not touch anything shared *)
  CoFixpoint machine_iter {St T} (nx : St -> res (option T * St)) (st : St) : iter U T :=
    MkIter (fun _ w =>
      match nx st with
      | Ok (o, st') => Ok (o, machine_iter nx st', w)
      | Panic => Panic
      | Fuel => Fuel
      end).
  Context {N T : Type} (front : option N) (next : N -> option N) (val : N -> T) (size : Z).
  (** [whole] is the container's own Iter *)
  Definition segment_iter (whole : iter U T) (sg : segment) : iter U T :=
    match sg with
    | SWhole => whole
    | SRest n => machine_iter (rest_next next val) n
    | SStep k n => machine_iter (step_next next val) (k, n)
    end.
  (** SplitableIter of linkedlist.go:105-142, skiplist.go:227-264 and
      redblacktree.go (see WalkSplit_Model) as a generator *)
  CoFixpoint walk_gen (whole : iter U T) (p : Z) (st : Z * option N) : gen U T :=
    MkGen (fun _ w =>
      match walk_next next size p st with
      | Ok (Some sg, st') => Ok (Some (segment_iter whole sg), walk_gen whole p st', w)
      | Ok (None, st') => Ok (None, walk_gen whole p st', w)
      | Panic => Panic
      | Fuel => Fuel
      end).
  (** Stream, redblacktree.go:213-218; for linkedlist and skiplist, which have no
      Stream method, stream.New(l.SplitableIter(), p) (stream.go:17-19) *)
  Definition walk_stream (whole : iter U T) (p : Z) : stream U T :=
    Stream p (fun q => walk_gen whole q (walk_init front)).
End walk.

(** * FoldWith, parallelism not 0 *)
Section fold.
  Context {U T R : Type} (p : Z) (init : R) (f : R -> T -> R) (comb : R -> R -> R).

  Inductive gworker :=
  | GRun (it : iter U T) (acc : R)   (* fold.go:33-35 *)
  | GSend (acc : R)                  (* about to do resChan <- accum, fold.go:36 *)
  | GDone.
  Inductive gmain :=
  | GSpawn (g : gen U T)             (* in the loop of doParallel, stream.go:25-36 *)
  | GRecv (counter : nat) (acc : R)  (* fold.go:41-47 *)
  | GReturned (acc : R).             (* channel closed (fold.go:48), value returned *)
  Record gstate := GState {
    gm : gmain; gws : list gworker;
    gbuf : list R; gclosed : bool;   (* the channel: capacity p (fold.go:28) *)
    gcrashed : bool; gworld : world U }.
  Definition ginit (s : stream U T) (w : world U) : gstate := GState (GSpawn (activate s p)) [] [] false false w.

  Inductive gstep : gstate -> gstate -> Prop :=
  | gs_spawn g it g' ws buf cl w w' :            (* stream.go:26-35: a segment, a goroutine *)
      greturns g w (Some it) g' w' ->
      gstep (GState (GSpawn g) ws buf cl false w) (GState (GSpawn g') (ws ++ [GRun it init]) buf cl false w')
  | gs_spawned g g' ws buf cl w w' :             (* stream.go:27-29; fold.go:29,40 *)
      greturns g w None g' w' ->
      gstep (GState (GSpawn g) ws buf cl false w) (GState (GRecv 0 init) ws buf cl false w')
  | gs_recv k acc ws r buf cl w :                (* fold.go:45-46 *)
      Z.of_nat k <> p ->
      gstep (GState (GRecv k acc) ws (r :: buf) cl false w) (GState (GRecv (k + 1) (comb acc r)) ws buf cl false w)
  | gs_return k acc ws buf cl w :                (* fold.go:42-43,48-49 *)
      Z.of_nat k = p ->
      gstep (GState (GRecv k acc) ws buf cl false w) (GState (GReturned acc) ws buf true false w)
  | gs_work m ws buf cl i x it it' acc w w' :    (* fold.go:33-35 *)
      ws !! i = Some (GRun it acc) -> returns it w (Some x) it' w' ->
      gstep (GState m ws buf cl false w) (GState m (<[i := GRun it' (f acc x)]> ws) buf cl false w')
  | gs_end m ws buf cl i it it' acc w w' :
      ws !! i = Some (GRun it acc) -> returns it w None it' w' ->
      gstep (GState m ws buf cl false w) (GState m (<[i := GSend acc]> ws) buf cl false w')
  | gs_send m ws buf i acc w :                   (* fold.go:36, room in the channel *)
      ws !! i = Some (GSend acc) -> (Z.of_nat (length buf) < p)%Z ->
      gstep (GState m ws buf false false w) (GState m (<[i := GDone]> ws) (buf ++ [acc]) false false w)
  | gs_send_closed m ws buf i acc w :            (* fold.go:36, send on closed channel *)
      ws !! i = Some (GSend acc) ->
      gstep (GState m ws buf true false w) (GState m ws buf true true w).
End fold.
Arguments gworker : clear implicits.
Arguments gmain : clear implicits.
Arguments gstate : clear implicits.

(** * Collect, parallelism not 0 *)
Section collect.
  Context {U T : Type} (consume : T -> U -> U).
  Inductive pworker :=
  | PLoop (it : iter U T)            (* about to call pull, collect.go:25 *)
  | PEmit (x : T) (it : iter U T)    (* about to call collectTo, collect.go:26 *)
  | PEnd                             (* about to call wg.Done, stream.go:33 *)
  | PGone.
  Inductive pmain := PSpawn (g : gen U T) | PWait | PReturned.
  Record pstate := PState {
    pm : pmain; pws : list pworker; pwg : nat; pworld : world U;
    plog : list (nat * T)            (* calls of collectTo: goroutine, element *) }.
  Definition pinit (s : stream U T) (w : world U) : pstate := PState (PSpawn (activate s (parallelism s))) [] 0 w [].

  Inductive pstep : pstate -> pstate -> Prop :=
  | ps_spawn g it g' ws n w w' lg :              (* stream.go:26-35 *)
      greturns g w (Some it) g' w' ->
      pstep (PState (PSpawn g) ws n w lg) (PState (PSpawn g') (ws ++ [PLoop it]) (n + 1) w' lg)
  | ps_spawned g g' ws n w w' lg :               (* stream.go:27-29 *)
      greturns g w None g' w' ->
      pstep (PState (PSpawn g) ws n w lg) (PState PWait ws n w' lg)
  | ps_wait ws w lg :                            (* .Wait(), collect.go:29 *)
      pstep (PState PWait ws 0 w lg) (PState PReturned ws 0 w lg)
  | ps_pull m ws n w w' lg i it it' x :          (* collect.go:25 *)
      ws !! i = Some (PLoop it) -> returns it w (Some x) it' w' ->
      pstep (PState m ws n w lg) (PState m (<[i := PEmit x it']> ws) n w' lg)
  | ps_exhausted m ws n w w' lg i it it' :
      ws !! i = Some (PLoop it) -> returns it w None it' w' ->
      pstep (PState m ws n w lg) (PState m (<[i := PEnd]> ws) n w' lg)
  | ps_emit m ws n w lg i x it :                 (* collect.go:26 *)
      ws !! i = Some (PEmit x it) ->
      pstep (PState m ws n w lg) (PState m (<[i := PLoop it]> ws) n (World (ctr w) (consume x (usr w))) (lg ++ [(i, x)]))
  | ps_done m ws n w lg i :                      (* wg.Done(), stream.go:33 *)
      ws !! i = Some PEnd ->
      pstep (PState m ws n w lg) (PState m (<[i := PGone]> ws) (n - 1) w lg).
End collect.
Arguments pworker : clear implicits.
Arguments pmain : clear implicits.
Arguments pstate : clear implicits.
