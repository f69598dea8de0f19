(** What it means for a concurrent history to be linearizable.  Independent of
    any implementation. *)
From Verif Require Import Base.

Inductive event (Op Ret : Type) : Type :=
| Call (t : nat) (o : Op)         (* goroutine [t] invokes [o] *)
| Return (t : nat) (r : Ret).     (* goroutine [t]'s pending call returns [r] *)
Arguments Call {Op Ret} t o.
Arguments Return {Op Ret} t r.

Section lin.
  Context {Op Ret St : Type}.
  (** [legal s o r s']: the sequential object in state [s] may answer [o] with [r] and move to [s'] *)
  Context (legal : St -> Op -> Ret -> St -> Prop).

  (** a history in which the moments at which the calls take effect are marked *)
  Inductive mark : Type :=
  | Ev (e : event Op Ret)
  | Eff (t : nat) (o : Op) (r : Ret).
  Definition thread_of (m : mark) : nat :=
    match m with Ev (Call t _) | Ev (Return t _) | Eff t _ _ => t end.
  (** forget the marks *)
  Definition history (ms : list mark) : list (event Op Ret) :=
    omap (fun m => match m with Ev e => Some e | Eff _ _ _ => None end) ms.
  (** the marks alone, in order *)
  Definition effects (ms : list mark) : list (Op * Ret) :=
    omap (fun m => match m with Eff _ o r => Some (o, r) | Ev _ => None end) ms.
  (** one goroutine: calls in sequence, each taking effect once between its call
      and its return, with the result it returns; the last call may be pending *)
  Inductive thread_ok (t : nat) : list mark -> Prop :=
  | TNone : thread_ok t []
  | TCalled o : thread_ok t [Ev (Call t o)]
  | TEffect o r : thread_ok t [Ev (Call t o); Eff t o r]
  | TReturned o r ms : thread_ok t ms ->
      thread_ok t (Ev (Call t o) :: Eff t o r :: Ev (Return t r) :: ms).
  (** the effects, one after the other, are a legal sequential history *)
  Inductive legal_run : St -> list (Op * Ret) -> St -> Prop :=
  | LNil s : legal_run s [] s
  | LCons s s1 s2 o r l : legal s o r s1 -> legal_run s1 l s2 -> legal_run s ((o, r) :: l) s2.

  Definition linearizes (s0 : St) (h : list (event Op Ret)) (ms : list mark) (s : St) : Prop :=
    history ms = h /\
    (forall t, thread_ok t (filter (fun m => thread_of m = t) ms)) /\
    legal_run s0 (effects ms) s.
  Definition linearizable (s0 : St) (h : list (event Op Ret)) : Prop :=
    exists ms s, linearizes s0 h ms s.
End lin.
Arguments mark : clear implicits.

(** runs of a transition system with observable events *)
Inductive exec {C E : Type} (step : C -> option E -> C -> Prop) : C -> list E -> C -> Prop :=
| exec_nil c : exec step c [] c
| exec_silent c c1 h c2 : exec step c h c1 -> step c1 None c2 -> exec step c h c2
| exec_event c c1 h e c2 : exec step c h c1 -> step c1 (Some e) c2 -> exec step c (h ++ [e]) c2.
