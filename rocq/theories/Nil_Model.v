(** A container made with a nil comparator that is given one later: SetCompareFunc,
    redblacktree.go:70-74, skiplist.go:172-176 ("if comp == nil"). *)
From Verif Require Import Base PanicComp_Model.

Section late.
  Context {S O K R : Type}.
  (** [nil_step]: a call while the comparator is nil; [step f]: a call with comparator [f] *)
  Context (nil_step : S -> O -> cr S (R * S)) (step : (K -> K -> Z) -> S -> O -> res (R * S)).
  Inductive event := Call (o : O) | SetCompare (f : K -> K -> Z).
  (** the comparator the container has after SetCompareFunc(f) *)
  Definition set_compare (c : option (K -> K -> Z)) (f : K -> K -> Z) : option (K -> K -> Z) :=
    match c with None => Some f | Some g => Some g end.
  (** the results of the calls ([None]: it panicked, and the caller recovered) *)
  Fixpoint late_run (c : option (K -> K -> Z)) (s : S) (es : list event) : res (list (option R) * S) :=
    match es with
    | [] => Ok ([], s)
    | SetCompare f :: es => late_run (set_compare c f) s es
    | Call o :: es =>
        match c with
        | None =>
            match nil_step s o with
            | Done r _ => let! (rs, s) := late_run c (snd r) es in Ok (Some (fst r) :: rs, s)
            | Crash s => let! (rs, s) := late_run c s es in Ok (None :: rs, s)
            | CPanic => Panic
            | CFuel => Fuel
            end
        | Some f => let! (r, s) := step f s o in let! (rs, s) := late_run c s es in Ok (Some r :: rs, s)
        end
    end.
  (** the calls of a history *)
  Definition calls (es : list event) : list O := omap (fun e => match e with Call o => Some o | SetCompare _ => None end) es.
End late.
Arguments event : clear implicits.
