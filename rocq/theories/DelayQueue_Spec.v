(** Reading the log of a delay queue. *)
From Verif Require Import Base PQ_Model DelayQueue_Model.

Section spec.
  Context {T : Type}.
  (** everything pushed / everything taken out, in order *)
  Definition pushed (L : list (ev T)) : list T :=
    omap (fun e => match e with Pushed v => Some v | _ => None end) L.
  Definition taken (L : list (ev T)) : list T :=
    omap (fun e => match e with Taken _ v _ _ => Some v | _ => None end) L.
  (** what goroutine [t] took out, and what became of it: handed to the caller or dropped *)
  Definition taken_by (t : nat) (L : list (ev T)) : list T :=
    omap (fun e => match e with Taken u v _ _ => if decide (u = t) then Some v else None | _ => None end) L.
  Definition settled_by (t : nat) (L : list (ev T)) : list T :=
    omap (fun e => match e with
                   | Returned u v | Dropped u v => if decide (u = t) then Some v else None
                   | _ => None end) L.
  Definition dropped (L : list (ev T)) : list T :=
    omap (fun e => match e with Dropped _ v => Some v | _ => None end) L.
  (** the elements stored in the priority queue *)
  Definition queued (x : sys T) : list T := fst <$> take (qsize (q x)) (PQ_Model.elements (q x)).
  (** an element goroutine [t] has removed but not yet returned or dropped *)
  Definition in_hand (p : pc T) : list T :=
    match p with PoUnlock (Some d) _ | PoRet d => [d.1] | _ => [] end.

  (** all calls allowed / only Pop, by goroutine [c] only / no new calls *)
  Definition anything (l : label T) : Prop := True.
  Definition no_ctx (l : label T) : Prop := match l with LCall _ (CPopCtx _) => False | _ => True end.
  Definition one_consumer (c : nat) (l : label T) : Prop :=
    match l with LCall t CPop => t = c | LCall _ (CPopCtx _) => False | _ => True end.
  Definition no_calls (l : label T) : Prop := match l with LCall _ _ => False | _ => True end.
  (** no goroutine starts another Pop or PopWithCtx *)
  Definition no_pops (l : label T) : Prop :=
    match l with LCall _ CPop | LCall _ (CPopCtx _) => False | _ => True end.
  (** ... and whatever is still pushed satisfies [ok] *)
  Definition pushes_only (ok : T -> Prop) (l : label T) : Prop :=
    match l with LCall _ CPop | LCall _ (CPopCtx _) => False | LCall _ (CPush v) => ok v | _ => True end.
  (** one call of Pop by [t]; the clock stands still *)
  Definition just_pop (t : nat) (l : label T) : Prop :=
    match l with LCall u CPop => u = t | LRun => True | _ => False end.

  (** [v] is among [l] and nothing in [l] expires earlier *)
  Definition earliest (expi : T -> Z) (v : T) (l : list T) : Prop :=
    v ∈ l /\ forall w, w ∈ l -> (expi v <= expi w)%Z.
  (** the only places where a call may have to wait: in the select of a Pop whose
      context is not cancelled and whose timer, if it has one, has not run out; for
      the signal a Push promised; for somebody to take its signal; for the mutex,
      whose holder can go on *)
  Definition waits (zero : T) (expi : T -> Z) (comp : T -> T -> Z) (x : sys T) (t : nat) : Prop :=
    (exists w, pcs x t = PoWait w /\ ctxs x t <> Some true /\ forall dl, w = Some dl -> (now x < dl)%Z) \/
    pcs x t = PoRecv \/ pcs x t = PuSend \/
    (((exists v, pcs x t = PuLock v) \/ pcs x t = PoLock \/ pcs x t = PlLock) /\
     exists u, u <> t /\ holder x = Some u /\ exists p y, tstep zero expi comp u x p y).
End spec.
