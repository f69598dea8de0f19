(** TryFold (stream/tryfold.go:9-65) with callbacks, its own and those of the
    stages below, that panic.  A callback that panics answers [None]; as in
    PanicPar_Model a panic in the goroutine of the caller reaches the caller and
    one in a goroutine of doParallel (stream.go:21-38) ends the process
    ([zcrashed], nothing runs afterwards).  The select and the call of [f]
    after it are two steps here.  Simplifications as in TryPipe_Model: one call of an iterator or of a generator
    is one step; [f] answers from its
    arguments alone, in one step, and changes the user's state by [e]. *)
From Verif Require Import Base Stream_Model Stream_Spec PanicPar_Model.

(** ** Parallelism 0 *)
Section seq.
  Context {U T : Type} (zero : T) (f : T -> T -> option (T * bool)).
  (** tryfold.go:16-21: the calls made and the result, or [None] if it panics *)
  Fixpoint tryP_seg (n : nat) (it : iter U T) (acc : T) (fuel : nat) (w : world U) : res (list T * option (T * bool)) :=
    match n with
    | 0 => Fuel
    | S n' =>
      match pull it fuel w with
      | Ok (Some t, it', w') =>
          match f acc t with
          | Some (acc', true) => let! (calls, o) := tryP_seg n' it' acc' fuel w' in Ok (t :: calls, o)
          | Some (acc', false) => Ok ([t], Some (acc', false))
          | None => Ok ([t], None)
          end
      | Ok (None, _, _) => Ok ([], Some (acc, true))
      | Panic => Ok ([], None)
      | Fuel => Fuel
      end
    end.
  (** tryfold.go:10-22 *)
  Definition TryFoldP_seq (s : stream U T) (init : T) (fuel : nat) (w : world U) : res (list T * option (T * bool)) :=
    match nextseg (activate s 0) fuel w with
    | Ok (Some it, _, w') => tryP_seg fuel it init fuel w'
    | Ok (None, _, _) => Ok ([], Some (zero, false))
    | Panic => Ok ([], None)
    | Fuel => Fuel
    end.
End seq.

(** ** Parallelism not 0 *)
Section tryfold.
  Context {U T : Type} (zero : T) (s : stream U T) (p : Z) (init : T) (f : T -> T -> option (T * bool)) (e : T -> T -> U -> U).

  (** the goroutine body, tryfold.go:28-44 *)
  Inductive zworker :=
  | ZPull (it : iter U T) (acc : T)          (* about to call pull, line 30 *)
  | ZGot (x : T) (it : iter U T) (acc : T)   (* at the select, line 31 *)
  | ZCall (x : T) (it : iter U T) (acc : T)  (* past the select, about to call f, line 35 *)
  | ZCancel                                  (* f said no: about to call cancel(), line 37 *)
  | ZSend (acc : T)                          (* about to do resChan <- accum, line 42 *)
  | ZSent                                    (* returned after the send, line 43 *)
  | ZQuit.                                   (* returned from lines 33 or 38 *)
  (** the caller *)
  Inductive zmain :=
  | ZMake                                    (* about to make the channel, tryfold.go:24 *)
  | ZSpawn (g : gen U T)                     (* in the loop of doParallel, stream/stream.go:25-36 *)
  | ZRecv (counter : nat) (acc val : T)      (* tryfold.go:47; [val] is the named result *)
  | ZReturned (v : T) (ok : bool)
  | ZPanicked.                               (* make with a negative size, or f at line 53 *)
  Record zstate := ZState {
    zm : zmain; zws : list zworker;
    zbuf : list T;                           (* the channel: capacity p; never closed *)
    zcanc : bool;                            (* whether ctx has been cancelled *)
    zcrashed : bool;
    zworld : world U }.
  Definition zinit (w : world U) : zstate := ZState ZMake [] [] false false w.
  Definition zcall (a x : T) (w : world U) : world U := World (ctr w) (e a x (usr w)).

  Inductive zstep : zstate -> zstate -> Prop :=
  | zs_make ws buf c w :                              (* tryfold.go:24-27 *)
      (0 <= p)%Z ->
      zstep (ZState ZMake ws buf c false w) (ZState (ZSpawn (activate s p)) ws buf c false w)
  | zs_make_panic ws buf c w :                        (* tryfold.go:24: makechan: size out of range *)
      (p < 0)%Z ->
      zstep (ZState ZMake ws buf c false w) (ZState ZPanicked ws buf c false w)
  | zs_spawn g it g' ws buf c w w' :                  (* stream.go:26-35 *)
      greturns g w (Some it) g' w' ->
      zstep (ZState (ZSpawn g) ws buf c false w) (ZState (ZSpawn g') (ws ++ [ZPull it init]) buf c false w')
  | zs_spawned g g' ws buf c w w' :                   (* stream.go:27-29; tryfold.go:26,45-47 *)
      greturns g w None g' w' ->
      zstep (ZState (ZSpawn g) ws buf c false w) (ZState (ZRecv 0 init zero) ws buf c false w')
  | zs_recv k acc val a ws r buf c w :                (* tryfold.go:52-53,58 *)
      Z.of_nat k <> p -> f acc r = Some (a, true) ->
      zstep (ZState (ZRecv k acc val) ws (r :: buf) c false w) (ZState (ZRecv (k + 1) a r) ws buf c false (zcall acc r w))
  | zs_recv_fail k acc val a ws r buf c w :           (* tryfold.go:52-56 *)
      Z.of_nat k <> p -> f acc r = Some (a, false) ->
      zstep (ZState (ZRecv k acc val) ws (r :: buf) c false w) (ZState (ZReturned a false) ws buf true false (zcall acc r w))
  | zs_recv_boom k acc val ws r buf c w :             (* tryfold.go:53: f panics; cancel is not called *)
      Z.of_nat k <> p -> f acc r = None ->
      zstep (ZState (ZRecv k acc val) ws (r :: buf) c false w) (ZState ZPanicked ws buf c false (zcall acc r w))
  | zs_done k acc val ws buf w :                      (* tryfold.go:59-60 *)
      Z.of_nat k <> p ->
      zstep (ZState (ZRecv k acc val) ws buf true false w) (ZState (ZReturned val false) ws buf true false w)
  | zs_return k acc val ws buf c w :                  (* tryfold.go:48-50,63 *)
      Z.of_nat k = p ->
      zstep (ZState (ZRecv k acc val) ws buf c false w) (ZState (ZReturned acc true) ws buf c false w)
  | zs_pull m ws buf c i x it it' acc w w' :          (* tryfold.go:30 *)
      ws !! i = Some (ZPull it acc) -> returns it w (Some x) it' w' ->
      zstep (ZState m ws buf c false w) (ZState m (<[i := ZGot x it' acc]> ws) buf c false w')
  | zs_pull_boom m ws buf c i it acc w :              (* tryfold.go:30: a stage's callback panics *)
      ws !! i = Some (ZPull it acc) -> panics it w ->
      zstep (ZState m ws buf c false w) (ZState m ws buf c true w)
  | zs_end m ws buf c i it it' acc w w' :             (* tryfold.go:30: the segment is exhausted *)
      ws !! i = Some (ZPull it acc) -> returns it w None it' w' ->
      zstep (ZState m ws buf c false w) (ZState m (<[i := ZSend acc]> ws) buf c false w')
  | zs_quit m ws buf i x it acc w :                   (* tryfold.go:32-33: ctx is done *)
      ws !! i = Some (ZGot x it acc) ->
      zstep (ZState m ws buf true false w) (ZState m (<[i := ZQuit]> ws) buf true false w)
  | zs_select m ws buf i x it acc w :                 (* tryfold.go:34: the default case *)
      ws !! i = Some (ZGot x it acc) ->
      zstep (ZState m ws buf false false w) (ZState m (<[i := ZCall x it acc]> ws) buf false false w)
  | zs_work m ws buf c i x it acc a w :               (* tryfold.go:35 *)
      ws !! i = Some (ZCall x it acc) -> f acc x = Some (a, true) ->
      zstep (ZState m ws buf c false w) (ZState m (<[i := ZPull it a]> ws) buf c false (zcall acc x w))
  | zs_work_fail m ws buf c i x it acc a w :          (* tryfold.go:35-36 *)
      ws !! i = Some (ZCall x it acc) -> f acc x = Some (a, false) ->
      zstep (ZState m ws buf c false w) (ZState m (<[i := ZCancel]> ws) buf c false (zcall acc x w))
  | zs_work_boom m ws buf c i x it acc w :            (* tryfold.go:35: f panics *)
      ws !! i = Some (ZCall x it acc) -> f acc x = None ->
      zstep (ZState m ws buf c false w) (ZState m ws buf c true (zcall acc x w))
  | zs_cancel m ws buf c i w :                        (* tryfold.go:37-38 *)
      ws !! i = Some ZCancel ->
      zstep (ZState m ws buf c false w) (ZState m (<[i := ZQuit]> ws) buf true false w)
  | zs_send m ws buf c i acc w :                      (* tryfold.go:42, room in the channel *)
      ws !! i = Some (ZSend acc) -> (Z.of_nat (length buf) < p)%Z ->
      zstep (ZState m ws buf c false w) (ZState m (<[i := ZSent]> ws) (buf ++ [acc]) c false w).
End tryfold.
Arguments zworker : clear implicits.
Arguments zmain : clear implicits.
Arguments zstate : clear implicits.
