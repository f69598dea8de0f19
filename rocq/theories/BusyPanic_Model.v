(** Parallel FoldWith, Collect and TryFold (stream/fold.go:26-50,
    stream/collect.go:21-30, stream/tryfold.go:23-64) with callbacks that take
    time (Busy_Model.v) and may panic: a call of a function of the caller's ends
    with an answer, or with a panic, or never.
    Nothing there recovers or defers: a panic in a goroutine of doParallel
    (stream/stream.go:32-35) ends the process, a panic of the combiner (fold.go:45)
    or of f (tryfold.go:53) in the caller leaves the call, past close(resChan)
    (fold.go:48) and cancel() (tryfold.go:55), while the goroutines go on. *)
From Verif Require Import Base Lin_Spec Busy_Model.

Section panics.
  (** [inside x i]: goroutine [i] is in a callback or in pull; [calling x]: the
      caller is in its callback; [kept x y]: the caller has not moved *)
  Context {S E : Type} (step : S -> option E -> S -> Prop) (inside : S -> nat -> Prop) (calling : S -> Prop) (kept : S -> S -> Prop).
  Inductive status := Up | Left | Down.    (* Left: the call has panicked; Down: the process has ended *)
  Inductive pev :=
  | Ev (e : E)                             (* an event without a panic *)
  | Throws                                 (* the callback run by the caller panics, and the call with it *)
  | Boom (i : nat).                        (* what goroutine [i] runs panics and ends the process *)
  Inductive pstep : S * status -> option pev -> S * status -> Prop :=
  | ps_go x e y : step x e y -> pstep (x, Up) (option_map Ev e) (y, Up)
  | ps_throws x : calling x -> pstep (x, Up) (Some Throws) (x, Left)
  | ps_left x e y : step x e y -> kept x y -> pstep (x, Left) (option_map Ev e) (y, Left)
  | ps_boom x i st : inside x i -> st <> Down -> pstep (x, st) (Some (Boom i)) (x, Down).
End panics.
Arguments pev : clear implicits.
Arguments Ev {E} e. Arguments Throws {E}. Arguments Boom {E} i.

(** FoldWith *)
Definition fold_step {T R} (p : nat) (segs : list (list T)) (init : R) : fstate T R * status -> option (pev (fev T R)) -> fstate T R * status -> Prop :=
  pstep (fstep p segs init)
    (fun x i => fdead x = false /\ exists w, fws x !! i = Some w /\ executing w)   (* fold.go:33-34 *)
    (fun x => fdead x = false /\ exists n a r, fm x = FComb n a r)                 (* fold.go:45 *)
    (fun x y => fm x = fm y).
(** Collect: the caller runs no callback *)
Definition collect_step {T} (segs : list (list T)) : cstate T * status -> option (pev (cev T)) -> cstate T * status -> Prop :=
  pstep (cstep segs)
    (fun x i => exists w, cws x !! i = Some w /\ executing w)                      (* collect.go:25-26 *)
    (fun _ => False) (fun x y => cm x = cm y).
(** TryFold *)
Definition tryfold_step {T} (zero : T) (p : nat) (segs : list (list T)) (init : T) : tstate T * status -> option (pev (tev T)) -> tstate T * status -> Prop :=
  pstep (tstep zero p segs init)
    (fun x i => exists w, tws x !! i = Some w /\ texecuting w)                     (* tryfold.go:30, 35 *)
    (fun x => exists n a r, tm x = TFolding n a r)                                 (* tryfold.go:53 *)
    (fun x y => tm x = tm y).
