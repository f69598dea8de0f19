(** Model of the parallel branches of package stream: doParallel
    (stream/stream.go:21-38), FoldWith (stream/fold.go:26-50) and Collect
    (stream/collect.go:20-30) with the shared counters of Skip, Take and
    Enumerate.  Goroutines are entries of a list; every step is one action of
    one goroutine, and any enabled step may happen next.
    Simplifications: callbacks are pure functions that neither panic nor block;
    a panic in any goroutine is the absorbing fact [crashed] (Go kills the process). *)
From Verif Require Import Base Split_Model.

(** * FoldWith over a slice stream *)
Section fold.
  Context {T R : Type} (s : list T) (p : Z) (init : R) (f : R -> T -> R) (comb : R -> R -> R).

  Inductive fworker :=
  | FRun (rest : list T) (acc : R)   (* fold.go:33-35 *)
  | FSend (acc : R)                  (* about to do resChan <- accum, line 36 *)
  | FDone.
  Inductive fmain :=
  | FSpawn (idx : nat)               (* in the loop of doParallel, stream.go:25-36 *)
  | FRecv (counter : nat) (acc : R)  (* fold.go:41-47 *)
  | FReturned (acc : R).             (* channel closed (line 48), value returned *)
  Record fstate := FState {
    fm : fmain; fws : list fworker;
    fbuf : list R; fclosed : bool;   (* the channel: capacity p (line 28) *)
    fcrashed : bool }.

  Definition finit : fstate := FState (FSpawn 0) [] [] false false.

  Inductive fstep : fstate -> fstate -> Prop :=
  | fs_spawn idx seg idx' ws buf cl :            (* stream.go:26-35: a segment, a goroutine *)
      split_next s p idx = Ok (Some seg, idx') ->
      fstep (FState (FSpawn idx) ws buf cl false) (FState (FSpawn idx') (ws ++ [FRun seg init]) buf cl false)
  | fs_spawned idx idx' ws buf cl :              (* stream.go:27-29; fold.go:29,40 *)
      split_next s p idx = Ok (None, idx') ->
      fstep (FState (FSpawn idx) ws buf cl false) (FState (FRecv 0 init) ws buf cl false)
  | fs_recv k acc ws r buf cl :                  (* fold.go:45-46 *)
      Z.of_nat k <> p ->
      fstep (FState (FRecv k acc) ws (r :: buf) cl false) (FState (FRecv (k + 1) (comb acc r)) ws buf cl false)
  | fs_return k acc ws buf cl :                  (* fold.go:42-43,48-49 *)
      Z.of_nat k = p ->
      fstep (FState (FRecv k acc) ws buf cl false) (FState (FReturned acc) ws buf true false)
  | fs_work m ws buf cl i x rest acc :           (* fold.go:33-35 *)
      ws !! i = Some (FRun (x :: rest) acc) ->
      fstep (FState m ws buf cl false) (FState m (<[i := FRun rest (f acc x)]> ws) buf cl false)
  | fs_end m ws buf cl i acc :
      ws !! i = Some (FRun [] acc) ->
      fstep (FState m ws buf cl false) (FState m (<[i := FSend acc]> ws) buf cl false)
  | fs_send m ws buf i acc :                     (* fold.go:36, room in the channel *)
      ws !! i = Some (FSend acc) -> (Z.of_nat (length buf) < p)%Z ->
      fstep (FState m ws buf false false) (FState m (<[i := FDone]> ws) (buf ++ [acc]) false false)
  | fs_send_closed m ws buf i acc :              (* fold.go:36, send on closed channel *)
      ws !! i = Some (FSend acc) ->
      fstep (FState m ws buf true false) (FState m ws buf true true).
End fold.
Arguments fstate : clear implicits.
Arguments fworker : clear implicits.
Arguments fmain : clear implicits.

(** * Collect over finitely many finite segments, through one counting stage *)
Inductive stage := Plain | SkipN (n : Z) | TakeN (n : Z) | Enum.

Section collect.
  Context {T : Type}.
  Inductive cworker :=
  | CLoop (rest : list T)            (* about to call pull, collect.go:25 *)
  | CPull (rest : list T)            (* Take only: passed the check of take.go:22 *)
  | CHave (x : T) (rest : list T)    (* pulled x; about to do atomic.AddInt64 *)
  | CEmit (k : Z) (x : T) (rest : list T)  (* about to call collectTo, collect.go:26 *)
  | CEnd                             (* about to call wg.Done, stream.go:33 *)
  | CGone.
  Inductive cmain := CSpawn | CWait | CReturned.
  Record cstate := CState {
    cm : cmain; todo : list (list T); cws : list cworker; wg : nat;
    counter : Z;
    clog : list (nat * Z * T);       (* calls of collectTo: goroutine, key (Enumerate), element *)
    cdrop : list (nat * T)           (* elements dropped by Skip, with the goroutine *) }.

  Definition cinit (segs : list (list T)) (c0 : Z) : cstate := CState CSpawn segs [] 0 c0 [] [].

  Inductive cstep (st : stage) : cstate -> cstate -> Prop :=
  (* stream.go:26-35 *)
  | cs_spawn seg td ws n c lg dr :
      cstep st (CState CSpawn (seg :: td) ws n c lg dr) (CState CSpawn td (ws ++ [CLoop seg]) (n + 1) c lg dr)
  | cs_spawned ws n c lg dr :
      cstep st (CState CSpawn [] ws n c lg dr) (CState CWait [] ws n c lg dr)
  (* .Wait(), collect.go:29 *)
  | cs_wait ws c lg dr td :
      cstep st (CState CWait td ws 0 c lg dr) (CState CReturned td ws 0 c lg dr)
  (* atomic.LoadInt64(&curr) < l, take.go:22 *)
  | cs_check_pass l m td ws n c lg dr i rest :
      st = TakeN l -> ws !! i = Some (CLoop rest) -> (c < l)%Z ->
      cstep st (CState m td ws n c lg dr) (CState m td (<[i := CPull rest]> ws) n c lg dr)
  | cs_check_fail l m td ws n c lg dr i rest :
      st = TakeN l -> ws !! i = Some (CLoop rest) -> (l <= c)%Z ->
      cstep st (CState m td ws n c lg dr) (CState m td (<[i := CEnd]> ws) n c lg dr)
  (* the pull of the segment itself: private to the goroutine *)
  | cs_pull m td ws n c lg dr i x rest :
      ws !! i = Some (match st with TakeN _ => CPull (x :: rest) | _ => CLoop (x :: rest) end) ->
      cstep st (CState m td ws n c lg dr)
               (CState m td (<[i := match st with Plain => CEmit 0 x rest | _ => CHave x rest end]> ws) n c lg dr)
  | cs_exhausted m td ws n c lg dr i :
      ws !! i = Some (match st with TakeN _ => CPull [] | _ => CLoop [] end) ->
      cstep st (CState m td ws n c lg dr) (CState m td (<[i := CEnd]> ws) n c lg dr)
  (* atomic.AddInt64(&curr, 1) *)
  | cs_enum m td ws n c lg dr i x rest :                    (* enumerate.go:22-26 *)
      st = Enum -> ws !! i = Some (CHave x rest) ->
      cstep st (CState m td ws n c lg dr) (CState m td (<[i := CEmit (c + 1) x rest]> ws) n (c + 1) lg dr)
  | cs_take l m td ws n c lg dr i x rest :                  (* take.go:24-25 *)
      st = TakeN l -> ws !! i = Some (CHave x rest) ->
      cstep st (CState m td ws n c lg dr) (CState m td (<[i := CEmit 0 x rest]> ws) n (c + 1) lg dr)
  | cs_skip_drop l m td ws n c lg dr i x rest :             (* skip.go:25-26 *)
      st = SkipN l -> ws !! i = Some (CHave x rest) -> (c + 1 < l)%Z ->
      cstep st (CState m td ws n c lg dr) (CState m td (<[i := CLoop rest]> ws) n (c + 1) lg (dr ++ [(i, x)]))
  | cs_skip_pass l m td ws n c lg dr i x rest :             (* skip.go:28 *)
      st = SkipN l -> ws !! i = Some (CHave x rest) -> (l <= c + 1)%Z ->
      cstep st (CState m td ws n c lg dr) (CState m td (<[i := CEmit 0 x rest]> ws) n (c + 1) lg dr)
  (* collectTo(val), collect.go:26 *)
  | cs_emit m td ws n c lg dr i k x rest :
      ws !! i = Some (CEmit k x rest) ->
      cstep st (CState m td ws n c lg dr) (CState m td (<[i := CLoop rest]> ws) n c (lg ++ [(i, k, x)]) dr)
  (* wg.Done(), stream.go:33 *)
  | cs_done m td ws n c lg dr i :
      ws !! i = Some CEnd ->
      cstep st (CState m td ws n c lg dr) (CState m td (<[i := CGone]> ws) (n - 1) c lg dr).
End collect.
Arguments cstate : clear implicits.
Arguments cworker : clear implicits.
