(** Parallel FoldWith (stream/fold.go:26-50), Collect (stream/collect.go:21-30)
    and TryFold (stream/tryfold.go:23-64) with callbacks that take time: a call
    of the caller's functions begins and ends in two different steps, may answer
    anything and may never end.  A call of a segment's iterator (pull) takes
    time too, since it runs the callbacks of the stages before.
    Simplifications: the stream's segments are given as lists (the streams of
    C66 have such segments); the generator's calls in doParallel
    (stream/stream.go:25-36), which run no callback, are one step each;
    parallelism at least 1. *)
From Verif Require Import Base Lin_Spec.

(** ** Goroutines of FoldWith and Collect *)
(** what a goroutine started by doParallel does that can be observed: it enters
    and leaves pull, enters and leaves the callback *)
Inductive wev (T R : Type) :=
| Pull | Pulled (o : option T) | Call (a : R) (x : T) | Ret (a : R).
Arguments Pull {T R}. Arguments Pulled {T R} o. Arguments Call {T R} a x. Arguments Ret {T R} a.

Section worker.
  Context {T R : Type}.
  (** fold.go:32-36 *)
  Inductive worker :=
  | WAt (l : list T) (a : R)             (* about to call pull; [l] is left of the segment *)
  | WIn (l : list T) (a : R)             (* in pull *)
  | WHave (x : T) (l : list T) (a : R)   (* about to call f *)
  | WBusy (x : T) (l : list T) (a : R)   (* in f *)
  | WOut (a : R)                         (* the loop is over *)
  | WDone.
  Inductive wstep : worker -> wev T R -> worker -> Prop :=
  | w_pull l a : wstep (WAt l a) Pull (WIn l a)
  | w_pulled x l a : wstep (WIn (x :: l) a) (Pulled (Some x)) (WHave x l a)
  | w_end a : wstep (WIn [] a) (Pulled None) (WOut a)
  | w_call x l a : wstep (WHave x l a) (Call a x) (WBusy x l a)
  | w_ret x l a b : wstep (WBusy x l a) (Ret b) (WAt l b).
  (** some function of the caller is running *)
  Definition executing (w : worker) : Prop :=
    match w with WIn _ _ | WBusy _ _ _ => True | _ => False end.
End worker.
Arguments worker : clear implicits.

(** ** FoldWith *)
Section fold.
  Context {T R : Type} (p : nat) (segs : list (list T)) (init : R).
  Inductive fev :=
  | Go (i : nat) (e : wev T R)           (* goroutine [i] of doParallel *)
  | Comb (a r : R) | Combined (a : R)    (* the caller enters and leaves the combiner *)
  | Return (a : R)
  | Crash (i : nat).                     (* goroutine [i] panics and ends the process *)
  Inductive fmain :=
  | FSpawn (k : nat)                     (* [k] goroutines are started, stream.go:25-36 *)
  | FRecv (c : nat) (a : R)              (* fold.go:41-47 *)
  | FComb (c : nat) (a r : R)            (* in the combiner, fold.go:45 *)
  | FReturned (a : R).
  Record fstate := FState { fm : fmain; fws : list (worker T R); fbuf : list R; fclosed : bool; fdead : bool }.
  Definition finit : fstate := FState (FSpawn 0) [] [] false false.
  Inductive fstep : fstate -> option fev -> fstate -> Prop :=
  | f_spawn k l ws b c : segs !! k = Some l ->             (* stream.go:26-35, fold.go:32 *)
      fstep (FState (FSpawn k) ws b c false) None (FState (FSpawn (k + 1)) (ws ++ [WAt l init]) b c false)
  | f_spawned k ws b c : segs !! k = None ->               (* stream.go:27-29, fold.go:29, 40 *)
      fstep (FState (FSpawn k) ws b c false) None (FState (FRecv 0 init) ws b c false)
  | f_recv n a ws r b c : n <> p ->                        (* fold.go:45 *)
      fstep (FState (FRecv n a) ws (r :: b) c false) (Some (Comb a r)) (FState (FComb n a r) ws b c false)
  | f_combined n a r ws b c a' :                           (* fold.go:45-46 *)
      fstep (FState (FComb n a r) ws b c false) (Some (Combined a')) (FState (FRecv (n + 1) a') ws b c false)
  | f_return a ws b c :                                    (* fold.go:42-43, 48-49 *)
      fstep (FState (FRecv p a) ws b c false) (Some (Return a)) (FState (FReturned a) ws b true false)
  | f_work m ws b c i w e w' : ws !! i = Some w -> wstep w e w' ->   (* fold.go:33-35 *)
      fstep (FState m ws b c false) (Some (Go i e)) (FState m (<[i := w']> ws) b c false)
  | f_send m ws b i a : ws !! i = Some (WOut a) -> length b < p ->   (* fold.go:36 *)
      fstep (FState m ws b false false) None (FState m (<[i := WDone]> ws) (b ++ [a]) false false)
  | f_send_closed m ws b i a : ws !! i = Some (WOut a) ->            (* fold.go:36: send on a closed channel *)
      fstep (FState m ws b true false) (Some (Crash i)) (FState m ws b true true).
End fold.
Arguments fev : clear implicits.
Arguments fmain : clear implicits.
Arguments fstate : clear implicits.

(** ** Collect: the goroutines are those of FoldWith without an accumulator *)
Section collect.
  Context {T : Type} (segs : list (list T)).
  Inductive cev := CGo (i : nat) (e : wev T unit) | CReturn.
  Inductive cmain := CSpawn (k : nat) | CWait | CReturned.
  Record cstate := CState { cm : cmain; cws : list (worker T unit); cwg : nat }.
  Definition cinit : cstate := CState (CSpawn 0) [] 0.
  Inductive cstep : cstate -> option cev -> cstate -> Prop :=
  | c_spawn k l ws n : segs !! k = Some l ->               (* stream.go:26-35 *)
      cstep (CState (CSpawn k) ws n) None (CState (CSpawn (k + 1)) (ws ++ [WAt l tt]) (n + 1))
  | c_spawned k ws n : segs !! k = None ->                 (* stream.go:27-29, 38 *)
      cstep (CState (CSpawn k) ws n) None (CState CWait ws n)
  | c_return ws :                                          (* collect.go:29 *)
      cstep (CState CWait ws 0) (Some CReturn) (CState CReturned ws 0)
  | c_work m ws n i w e w' : ws !! i = Some w -> wstep w e w' ->    (* collect.go:25-27 *)
      cstep (CState m ws n) (Some (CGo i e)) (CState m (<[i := w']> ws) n)
  | c_done m ws n i a : ws !! i = Some (WOut a) ->         (* stream.go:33 *)
      cstep (CState m ws n) None (CState m (<[i := WDone]> ws) (n - 1)).
End collect.
Arguments cev : clear implicits.
Arguments cstate : clear implicits.

(** ** TryFold *)
Section tryfold.
  Context {T : Type} (zero : T) (p : nat) (segs : list (list T)) (init : T).
  (** [TCall]: f is entered with accumulator and element; [TRet]: it answers *)
  Inductive tev :=
  | TPull (i : nat) | TPulled (i : nat) (o : option T)
  | TCall (i : nat) (a x : T) | TRet (i : nat) (a : T) (ok : bool)
  | TFold (a r : T) | TFolded (a : T) (ok : bool)   (* the caller enters and leaves f, tryfold.go:53 *)
  | TReturn (v : T) (ok : bool).
  Inductive tworker :=
  | TAt (l : list T) (a : T)             (* about to call pull, tryfold.go:30 *)
  | TIn (l : list T) (a : T)             (* in pull *)
  | TGot (x : T) (l : list T) (a : T)    (* at the select, tryfold.go:31 *)
  | THave (x : T) (l : list T) (a : T)   (* past the select, about to call f, tryfold.go:35 *)
  | TBusy (x : T) (l : list T) (a : T)   (* in f *)
  | TNo                                  (* about to call cancel, tryfold.go:37 *)
  | TOut (a : T)                         (* about to send, tryfold.go:42 *)
  | TDone.                               (* tryfold.go:33, 38, 43 *)
  Inductive tmain :=
  | TSpawn (k : nat)
  | TRecv (c : nat) (a v : T)            (* tryfold.go:47-51; [v] is the named result *)
  | TFolding (c : nat) (a r : T)         (* in f, tryfold.go:53 *)
  | TRefused (a : T)                     (* about to cancel and return, tryfold.go:54-56 *)
  | TReturned (v : T) (ok : bool).
  Record tstate := TState { tm : tmain; tws : list tworker; tbuf : list T; tcanc : bool }.
  Definition tinit : tstate := TState (TSpawn 0) [] [] false.
  Inductive tstep : tstate -> option tev -> tstate -> Prop :=
  | t_spawn k l ws b c : segs !! k = Some l ->             (* stream.go:26-35, tryfold.go:29 *)
      tstep (TState (TSpawn k) ws b c) None (TState (TSpawn (k + 1)) (ws ++ [TAt l init]) b c)
  | t_spawned k ws b c : segs !! k = None ->               (* stream.go:27-29, tryfold.go:26, 45-46 *)
      tstep (TState (TSpawn k) ws b c) None (TState (TRecv 0 init zero) ws b c)
  | t_recv n a v ws r b c : n <> p ->                      (* tryfold.go:52-53 *)
      tstep (TState (TRecv n a v) ws (r :: b) c) (Some (TFold a r)) (TState (TFolding n a r) ws b c)
  | t_folded n a r ws b c a' ok :                          (* tryfold.go:53-54, 58 *)
      tstep (TState (TFolding n a r) ws b c) (Some (TFolded a' ok))
            (TState (if ok : bool then TRecv (n + 1) a' r else TRefused a') ws b c)
  | t_refused a ws b c :                                   (* tryfold.go:55-56 *)
      tstep (TState (TRefused a) ws b c) (Some (TReturn a false)) (TState (TReturned a false) ws b true)
  | t_cancelled n a v ws b : n <> p ->                     (* tryfold.go:59-60 *)
      tstep (TState (TRecv n a v) ws b true) (Some (TReturn v false)) (TState (TReturned v false) ws b true)
  | t_return a v ws b c :                                  (* tryfold.go:48-49, 63 *)
      tstep (TState (TRecv p a v) ws b c) (Some (TReturn a true)) (TState (TReturned a true) ws b c)
  | t_pull m ws b c i l a : ws !! i = Some (TAt l a) ->
      tstep (TState m ws b c) (Some (TPull i)) (TState m (<[i := TIn l a]> ws) b c)
  | t_pulled m ws b c i x l a : ws !! i = Some (TIn (x :: l) a) ->
      tstep (TState m ws b c) (Some (TPulled i (Some x))) (TState m (<[i := TGot x l a]> ws) b c)
  | t_end m ws b c i a : ws !! i = Some (TIn [] a) ->
      tstep (TState m ws b c) (Some (TPulled i None)) (TState m (<[i := TOut a]> ws) b c)
  | t_select m ws b i x l a : ws !! i = Some (TGot x l a) ->         (* tryfold.go:34 *)
      tstep (TState m ws b false) None (TState m (<[i := THave x l a]> ws) b false)
  | t_quit m ws b i x l a : ws !! i = Some (TGot x l a) ->           (* tryfold.go:32-33 *)
      tstep (TState m ws b true) None (TState m (<[i := TDone]> ws) b true)
  | t_call m ws b c i x l a : ws !! i = Some (THave x l a) ->        (* tryfold.go:35 *)
      tstep (TState m ws b c) (Some (TCall i a x)) (TState m (<[i := TBusy x l a]> ws) b c)
  | t_ret m ws b c i x l a a' ok : ws !! i = Some (TBusy x l a) ->   (* tryfold.go:35-36 *)
      tstep (TState m ws b c) (Some (TRet i a' ok)) (TState m (<[i := if ok : bool then TAt l a' else TNo]> ws) b c)
  | t_cancel m ws b c i : ws !! i = Some TNo ->                      (* tryfold.go:37-38 *)
      tstep (TState m ws b c) None (TState m (<[i := TDone]> ws) b true)
  | t_send m ws b c i a : ws !! i = Some (TOut a) -> length b < p -> (* tryfold.go:42-43 *)
      tstep (TState m ws b c) None (TState m (<[i := TDone]> ws) (b ++ [a]) c).
  Definition texecuting (w : tworker) : Prop :=
    match w with TIn _ _ | TBusy _ _ _ => True | _ => False end.
End tryfold.
Arguments tev : clear implicits.
Arguments tworker : clear implicits.
Arguments tmain : clear implicits.
Arguments tstate : clear implicits.
