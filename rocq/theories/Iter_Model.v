(** Model of iterator/iterator.go (and Slice.Iter / Slice.All of
    collections/slice/slice.go:27-45, which share its shape).

    An [iterator.Iter[T]] is a Go closure: a state plus a step function
    [St -> res (option T * St)]; [Some v] is (v, true), [None] is (zero, false).
    A yield callback is [T -> Y -> res (bool * Y)] with its own state. *)
From Verif Require Import Base.

Section iter.
  Context {T St Y : Type}.
  Definition puller := St -> res (option T * St).
  Definition yielder := T -> Y -> res (bool * Y).

  (** CastToPush, iterator.go:26-35.  The unbounded [for] is run with fuel. *)
  Fixpoint cast_to_push (fuel : nat) (next : puller) (s : St) (yield : yielder) (y : Y)
    : res (St * Y) :=
    match fuel with
    | 0 => Fuel
    | S f =>
        let! (o, s1) := next s in
        match o with
        | None => Ok (s1, y)                         (* !ok: break *)
        | Some v =>
            let! (b, y1) := yield v y in
            if b then cast_to_push f next s1 yield y1
            else Ok (s1, y1)                         (* !yield(v): break *)
        end
    end.

  (** Iter.All, iterator.go:82-86: yield's result is discarded *)
  Fixpoint iter_all (fuel : nat) (next : puller) (s : St) (yield : yielder) (y : Y)
    : res (St * Y) :=
    match fuel with
    | 0 => Fuel
    | S f =>
        let! (o, s1) := next s in
        match o with
        | None => Ok (s1, y)
        | Some v => let! (_, y1) := yield v y in iter_all f next s1 yield y1
        end
    end.
End iter.

(** FromSlice, iterator.go:88-98, and Slice.Iter, slice.go:27-37 (same body):
    the closure state is [idx]; the slice's cells are fixed here. *)
Definition from_slice {T} (s : list T) (idx : nat) : res (option T * nat) :=
  if decide (idx < length s)
  then let! v := deref (s !! idx) in Ok (Some v, idx + 1)
  else Ok (None, idx).

(** Slice.All, slice.go:39-45 *)
Fixpoint slice_all {T Y} (s : list T) (yield : T -> Y -> res (bool * Y)) (y : Y) : res Y :=
  match s with
  | [] => Ok y
  | v :: s' => let! (b, y1) := yield v y in if b then slice_all s' yield y1 else Ok y1
  end.

(** Lines, iterator.go:58-80.  A file is either not openable or a byte
    sequence followed by end-of-file or a read error.  bufio.Reader.ReadString
    is modelled by its contract: bytes up to and including the first newline,
    or all remaining bytes together with the terminal error. *)
Definition newline : N := 10%N.
Inductive ferr := EOF | ReadErr (e : N).
Inductive file := NoOpen (e : N) | Content (bytes : list N) (fin : ferr).
Fixpoint read_string (bs : list N) : option (list N * list N) :=
  match bs with
  | [] => None
  | b :: bs' =>
      if decide (b = newline) then Some ([b], bs')
      else match read_string bs' with Some (l, r) => Some (b :: l, r) | None => None end
  end.
Section lines.
  Context {Y : Type} (yield : list N * option N -> Y -> res (bool * Y)).
  Fixpoint lines_loop (fuel : nat) (bs : list N) (fin : ferr) (y : Y) : res Y :=
    match fuel with
    | 0 => Fuel
    | S f =>
        match read_string bs with
        | None =>                                       (* err != nil *)
            match fin with
            | EOF => Ok y
            | ReadErr e => let! (_, y1) := yield ([], Some e) y in Ok y1
            end
        | Some (line, rest) =>
            let! (b, y1) := yield (line, None) y in
            if b then lines_loop f rest fin y1 else Ok y1
        end
    end.
  Definition lines (fl : file) (y : Y) : res Y :=
    match fl with
    | NoOpen e => let! (_, y1) := yield ([], Some e) y in Ok y1
    | Content bs fin => lines_loop (S (length bs)) bs fin y
    end.
End lines.

(** CastToPull, iterator.go:37-56, as a transition system.

    The producer's push function is arbitrary client code: a state [P] with
    [pstep p = Some v] when its next action is to call the callback on [v] and
    [None] when it returns, and [pnext p b] its state after the callback
    returned [b].  [waiting] counts goroutines blocked in next(). *)
Section cast_to_pull.
  Context {T P : Type} (pstep : P -> option T) (pnext : P -> bool -> P).

  Inductive producer :=
  | Running (p : P)            (* inside push, between callbacks *)
  | Offering (p : P) (v : T)   (* in the select of lines 43-48 *)
  | Returned                   (* push returned, close(ch) not yet executed *)
  | Closed.                    (* after close(ch), line 50 *)

  Record pstate := PState {
    prod : producer;
    cancelled : bool;          (* ctx cancelled by stop *)
    waiting : nat;
    pushed : list T;           (* ghost: arguments of the callback so far *)
    results : list (option T); (* ghost: results of next, in order *)
  }.
  Definition pinit (p : P) : pstate := PState (Running p) false 0 [] [].

  (** internal steps: those of the producer goroutine and of blocked next calls *)
  Inductive pint : pstate -> pstate -> Prop :=
  | PCall p v c w l r : pstep p = Some v ->
      pint (PState (Running p) c w l r) (PState (Offering p v) c w (l ++ [v]) r)
  | PRet p c w l r : pstep p = None ->
      pint (PState (Running p) c w l r) (PState Returned c w l r)
  | PClose c w l r :
      pint (PState Returned c w l r) (PState Closed c w l r)
  | PDone p v w l r :              (* case <-ctx.Done(): return false *)
      pint (PState (Offering p v) true w l r) (PState (Running (pnext p false)) true w l r)
  | PSend p v c w l r :            (* case ch <- v meets a receiver *)
      pint (PState (Offering p v) c (S w) l r)
           (PState (Running (pnext p true)) c w l (r ++ [Some v]))
  | PRecvClosed c w l r :          (* receive from the closed channel *)
      pint (PState Closed c (S w) l r) (PState Closed c w l (r ++ [None])).

  (** all steps: also a client calling next or stop *)
  Inductive pstep_all : pstate -> pstate -> Prop :=
  | PInt s s' : pint s s' -> pstep_all s s'
  | PNext q c w l r : pstep_all (PState q c w l r) (PState q c (S w) l r)
  | PStop q c w l r : pstep_all (PState q c w l r) (PState q true w l r).
End cast_to_pull.
Arguments Running {T P} p.
Arguments Offering {T P} p v.
Arguments Returned {T P}.
Arguments Closed {T P}.
Arguments PState {T P} _ _ _ _ _.
Arguments prod {T P} _.
Arguments cancelled {T P} _.
Arguments waiting {T P} _.
Arguments pushed {T P} _.
Arguments results {T P} _.
Arguments pinit {T P} p.
