(** Model of collections/delayqueue/delay_queue.go.

    Any number of goroutines; every lock operation, priority-queue call, clock
    reading, atomic access to [sleeping], channel rendezvous and timer event is
    one step of a transition system, and any enabled step may happen next.
    The priority queue is the model of PQ_Model.v (its calls happen under the
    mutex, so each is one step).  The clock may jump arbitrarily.  int64
    overflow is not modelled.  Len (lines 209-211) reads the size without the
    mutex; here it reads a value that was or is the size (see C71 for the data
    race). *)
From Verif Require Import Base PQ_Model.
From stdpp Require Export functions.
From stdpp Require Export list.

Section dq.
  Context {T : Type} (zero : T) (expi : T -> Z) (comp : T -> T -> Z).

  (** delayd, delay_queue.go:17-24: the element and the expiration read at Push *)
  Notation delayd := (T * Z)%type.
  (** the comparator given to the priority queue, delay_queue.go:38-46 *)
  Definition dcomp (d1 d2 : delayd) : Z :=
    if (d1.2 <? d2.2)%Z then (-1)%Z else if (d1.2 >? d2.2)%Z then 1%Z else 0%Z.
  (** what Peek/Pop return beside ok = false; the code has nil there *)
  Definition dnil : delayd := (zero, 0%Z).

  Inductive pc :=
  | Idle
  (* Push, delay_queue.go:53-71 *)
  | PuLock (v : T) | PuPush (v : T) | PuPeek (v : T) | PuUnlock (v : T) (d : delayd)
  | PuComp (v : T) (d : delayd) | PuCas | PuSend
  (* Pop, delay_queue.go:142-191, and PopWithCtx, delay_queue.go:74-139 *)
  | PoLock | PoPeek | PoClock (d : delayd) | PoPop (d : delayd) (rd : Z)
  | PoUnlock (item : option delayd) (delta : Z) | PoStore (delta : Z)
  | PoWait (deadline : option Z)         (* the select; [None]: no timer case *)
  | PoSwap                               (* delay_queue.go:180 / 115 *)
  | PoRecv                               (* delay_queue.go:182 / 117 *)
  | PoRet (d : delayd)                   (* delay_queue.go:189 / 126-132 *)
  | PoExit                               (* delay_queue.go:135-138 *)
  (* Poll, delay_queue.go:193-207 *)
  | PlLock | PlRead | PlUnlock (v : T) (ok : bool)
  | LnRead                               (* Len, delay_queue.go:209-211 *)
  | Crashed.                             (* nil dereference *)

  (** observable facts, in order of occurrence *)
  Inductive ev :=
  | Pushed (v : T)                                   (* pq.Push executed *)
  | Taken (t : nat) (v : T) (reading : Z) (rest : list T)
      (* goroutine t removed v; [reading]: the clock reading it relied on;
         [rest]: what is still queued *)
  | Returned (t : nat) (v : T)                       (* Pop/PopWithCtx returned (v, true) *)
  | Dropped (t : nat) (v : T)                        (* PopWithCtx left through exit holding v *)
  | Polled (t : nat) (v : T) (ok : bool)             (* Poll returned (v, ok) *)
  | Counted (t : nat) (n : Z).                       (* Len returned n *)

  Record sys := Sys {
    q : queue delayd; holder : option nat; sleeping : bool; now : Z;
    ctxs : nat -> option bool;   (* None: Pop; Some b: PopWithCtx, b = cancelled *)
    pcs : nat -> pc; log : list ev }.

  (** NewDelayQueue, delay_queue.go:35-50 *)
  Definition start_q (size : Z) : res (queue delayd) := q_new dnil [size].
  Definition start (q0 : queue delayd) : sys := Sys q0 None false 0 (fun _ => None) (fun _ => Idle) [].

  (** Poll's body between Lock and Unlock, delay_queue.go:198-206.  [item, ok := ...]
      assigns the named result ok, so the plain return of delay_queue.go:201 returns
      (zero, true). *)
  Definition poll_read (q : queue delayd) (clock : Z) : res (T * bool) :=
    let! (d, ok) := q_peek dnil q in
    if ok then if decide (d.2 - clock > 0)%Z then Ok (zero, ok) else Ok (d.1, true)
    else Ok (zero, ok).

  Inductive call := CPush (v : T) | CPop | CPopCtx (cancelled : bool) | CPoll | CLen.
  Definition start_pc (c : call) : pc :=
    match c with CPush v => PuLock v | CPop | CPopCtx _ => PoLock | CPoll => PlLock | CLen => LnRead end.
  Definition start_ctx (c : call) : option bool :=
    match c with CPopCtx b => Some b | _ => None end.

  (** [tstep t x p y]: goroutine t moves from system x to y, arriving at p *)
  Inductive tstep (t : nat) : sys -> pc -> sys -> Prop :=
  | t_pu_lock v Q s n c P L : P t = PuLock v ->                                 (* delay_queue.go:55 *)
      tstep t (Sys Q None s n c P L) (PuPush v) (Sys Q (Some t) s n c P L)
  | t_pu_push v b Q Q' h s n c P L : P t = PuPush v ->                          (* delay_queue.go:56-59 *)
      q_push dcomp Q (v, expi v) = Ok (b, Q') ->
      tstep t (Sys Q h s n c P L) (PuPeek v) (Sys Q' h s n c P (L ++ [Pushed v]))
  | t_pu_peek v d ok Q h s n c P L : P t = PuPeek v ->                          (* delay_queue.go:60 *)
      q_peek dnil Q = Ok (d, ok) ->
      tstep t (Sys Q h s n c P L) (if ok then PuUnlock v d else Crashed) (Sys Q h s n c P L)
  | t_pu_unlock v d Q h s n c P L : P t = PuUnlock v d ->                       (* delay_queue.go:61 *)
      tstep t (Sys Q h s n c P L) (PuComp v d) (Sys Q None s n c P L)
  | t_pu_comp v d Q h s n c P L : P t = PuComp v d ->                           (* delay_queue.go:63 *)
      tstep t (Sys Q h s n c P L) (if decide (comp d.1 v = 0%Z) then PuCas else Idle) (Sys Q h s n c P L)
  | t_pu_cas Q h s n c P L : P t = PuCas ->                                     (* delay_queue.go:65 *)
      tstep t (Sys Q h s n c P L) (if s then PuSend else Idle) (Sys Q h false n c P L)
  | t_po_lock Q s n c P L : P t = PoLock ->                                     (* delay_queue.go:146 *)
      tstep t (Sys Q None s n c P L) PoPeek (Sys Q (Some t) s n c P L)
  | t_po_peek d ok Q h s n c P L : P t = PoPeek ->                              (* delay_queue.go:147-148 *)
      q_peek dnil Q = Ok (d, ok) ->
      tstep t (Sys Q h s n c P L) (if ok then PoClock d else PoUnlock None 0) (Sys Q h s n c P L)
  | t_po_clock d Q h s n c P L : P t = PoClock d ->                             (* delay_queue.go:149-152 *)
      tstep t (Sys Q h s n c P L)
        (if decide (d.2 > n)%Z then PoUnlock None (d.2 - n) else PoPop d n) (Sys Q h s n c P L)
  | t_po_pop d rd r Q Q' h s n c P L : P t = PoPop d rd ->                      (* delay_queue.go:154 *)
      q_pop dnil dcomp Q = Ok (r, Q') ->
      tstep t (Sys Q h s n c P L) (PoUnlock (Some d) 0)
        (Sys Q' h s n c P (L ++ [Taken t d.1 rd (fst <$> take (qsize Q') (PQ_Model.elements Q'))]))
  | t_po_unlock item delta Q h s n c P L : P t = PoUnlock item delta ->         (* delay_queue.go:159-160 *)
      tstep t (Sys Q h s n c P L)
        (match item with None => PoStore delta | Some d => PoRet d end) (Sys Q None s n c P L)
  | t_po_store delta Q h s n c P L : P t = PoStore delta ->                     (* delay_queue.go:163-178 *)
      tstep t (Sys Q h s n c P L)
        (if decide (delta = 0)%Z then PoWait None
         else if decide (delta > 0)%Z then PoWait (Some (n + delta)%Z) else Crashed)
        (Sys Q h true n c P L)
  | t_po_timer dl Q h s n c P L : P t = PoWait (Some dl) -> (dl <= n)%Z ->      (* delay_queue.go:178 *)
      tstep t (Sys Q h s n c P L) PoSwap (Sys Q h s n c P L)
  | t_po_swap Q h s n c P L : P t = PoSwap ->                                   (* delay_queue.go:180 *)
      tstep t (Sys Q h s n c P L) (if s then PoLock else PoRecv) (Sys Q h false n c P L)
  | t_po_done w Q h s n c P L : P t = PoWait w -> c t = Some true ->            (* delay_queue.go:103, 120 *)
      tstep t (Sys Q h s n c P L) PoExit (Sys Q h s n c P L)
  | t_po_ret d Q h s n c P L : P t = PoRet d -> c t <> Some true ->             (* delay_queue.go:189, 130-131 *)
      tstep t (Sys Q h s n c P L) Idle (Sys Q h s n c P (L ++ [Returned t d.1]))
  | t_po_drop d Q h s n c P L : P t = PoRet d -> c t = Some true ->             (* delay_queue.go:128-129 *)
      tstep t (Sys Q h s n c P L) PoExit (Sys Q h s n c P (L ++ [Dropped t d.1]))
  | t_po_exit Q h s n c P L : P t = PoExit ->                                   (* delay_queue.go:137-138 *)
      tstep t (Sys Q h s n c P L) Idle (Sys Q h false n c P L)
  | t_pl_lock Q s n c P L : P t = PlLock ->                                     (* delay_queue.go:195 *)
      tstep t (Sys Q None s n c P L) PlRead (Sys Q (Some t) s n c P L)
  | t_pl_read v ok Q h s n c P L : P t = PlRead -> poll_read Q n = Ok (v, ok) ->
      tstep t (Sys Q h s n c P L) (PlUnlock v ok) (Sys Q h s n c P L)
  | t_pl_unlock v ok Q h s n c P L : P t = PlUnlock v ok ->                     (* delay_queue.go:196 *)
      tstep t (Sys Q h s n c P L) Idle (Sys Q None s n c P (L ++ [Polled t v ok]))
  | t_ln_read Q h s n c P L : P t = LnRead ->                                   (* delay_queue.go:210 *)
      tstep t (Sys Q h s n c P L) Idle (Sys Q h s n c P (L ++ [Counted t (q_len Q)])).

  Definition set_pc (t : nat) (p : pc) (x : sys) : sys :=
    Sys (q x) (holder x) (sleeping x) (now x) (ctxs x) (<[t := p]> (pcs x)) (log x).
  Definition set_ctx (t : nat) (b : option bool) (x : sys) : sys :=
    Sys (q x) (holder x) (sleeping x) (now x) (<[t := b]> (ctxs x)) (pcs x) (log x).
  Definition set_now (n : Z) (x : sys) : sys :=
    Sys (q x) (holder x) (sleeping x) n (ctxs x) (pcs x) (log x).

  (** who moves *)
  Inductive label := LCall (t : nat) (c : call) | LRun | LEnv.

  Inductive step : sys -> label -> sys -> Prop :=
  | s_call x t c : pcs x t = Idle ->
      step x (LCall t c) (set_ctx t (start_ctx c) (set_pc t (start_pc c) x))
  | s_run x t p y : tstep t x p y -> step x LRun (set_pc t p y)
  (** wakeupC is unbuffered: delay_queue.go:67 meets delay_queue.go:170/176/101/109 or 182/117 *)
  | s_wake x t u : pcs x t = PuSend -> (exists w, pcs x u = PoWait w) \/ pcs x u = PoRecv ->
      step x LRun (set_pc u PoLock (set_pc t Idle x))
  | s_cancel x t : ctxs x t = Some false -> step x LEnv (set_ctx t (Some true) x)
  | s_clock x n : step x LEnv (set_now n x).

  (** executions in which all labels satisfy [ok] *)
  Definition runs (ok : label -> Prop) : sys -> sys -> Prop :=
    rtc (fun x y => exists l, ok l /\ step x l y).
End dq.
Arguments pc : clear implicits.
Arguments ev : clear implicits.
Arguments sys : clear implicits.
Arguments call : clear implicits.
Arguments label : clear implicits.
