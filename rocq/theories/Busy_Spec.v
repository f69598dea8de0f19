(** What goroutines of parallel streams may do, in terms of the history of
    entries to and exits from the caller's functions. *)
From Verif Require Import Base Lin_Spec Busy_Model.

Section worker.
  Context {T R : Type}.
  (** a goroutine that starts with accumulator [a] on the segment [l] has got
      this far: it pulls and calls in turn, one thing at a time, in the order of
      the segment, every call getting the answer of the one before *)
  Inductive runs : R -> list T -> list (wev T R) -> Prop :=
  | r_none a l : runs a l []
  | r_pull a l : runs a l [Pull]
  | r_end a : runs a [] [Pull; Pulled None]
  | r_got a x l : runs a (x :: l) [Pull; Pulled (Some x)]
  | r_call a x l : runs a (x :: l) [Pull; Pulled (Some x); Call a x]
  | r_ret a x l b es : runs b l es -> runs a (x :: l) ([Pull; Pulled (Some x); Call a x; Ret b] ++ es).
  (** it is through, with result [r] *)
  Inductive completes : R -> list T -> list (wev T R) -> R -> Prop :=
  | co_end a : completes a [] [Pull; Pulled None] a
  | co_step a x l b es r : completes b l es r -> completes a (x :: l) ([Pull; Pulled (Some x); Call a x; Ret b] ++ es) r.
  (** the calls the caller of FoldWith makes of the combiner *)
  Inductive combines : R -> list R -> list (fev T R) -> R -> Prop :=
  | cb_nil a : combines a [] [] a
  | cb_cons a r rs b es v : combines b rs es v -> combines a (r :: rs) (Comb a r :: Combined b :: es) v.
  (** the part of goroutine [i] in a history, and the caller's *)
  Definition own (i : nat) (h : list (fev T R)) : list (wev T R) :=
    omap (fun e => match e with Go j e => if decide (j = i) then Some e else None | _ => None end) h.
  Definition by_caller (h : list (fev T R)) : list (fev T R) :=
    filter (fun e => Is_true (match e with Comb _ _ | Combined _ => true | _ => false end)) h.
End worker.
Definition cown {T} (i : nat) (h : list (cev T)) : list (wev T unit) :=
  omap (fun e => match e with CGo j e => if decide (j = i) then Some e else None | _ => None end) h.

Section tryfold.
  Context {T : Type}.
  Definition towner (e : tev T) : option nat :=
    match e with TPull i | TPulled i _ | TCall i _ _ | TRet i _ _ => Some i | _ => None end.
  Definition town (i : nat) (h : list (tev T)) : list (tev T) := filter (fun e => towner e = Some i) h.
  (** as [runs]; between pull and call the goroutine may find the fold given up
      and stop, and it stops after a refusal *)
  Inductive truns (i : nat) : T -> list T -> list (tev T) -> Prop :=
  | tr_none a l : truns i a l []
  | tr_pull a l : truns i a l [TPull i]
  | tr_end a : truns i a [] [TPull i; TPulled i None]
  | tr_got a x l : truns i a (x :: l) [TPull i; TPulled i (Some x)]
  | tr_call a x l : truns i a (x :: l) [TPull i; TPulled i (Some x); TCall i a x]
  | tr_no a x l b : truns i a (x :: l) [TPull i; TPulled i (Some x); TCall i a x; TRet i b false]
  | tr_ret a x l b es : truns i b l es -> truns i a (x :: l) ([TPull i; TPulled i (Some x); TCall i a x; TRet i b true] ++ es).
  Inductive tcompletes (i : nat) : T -> list T -> list (tev T) -> T -> Prop :=
  | tc_end a : tcompletes i a [] [TPull i; TPulled i None] a
  | tc_step a x l b es r : tcompletes i b l es r ->
      tcompletes i a (x :: l) ([TPull i; TPulled i (Some x); TCall i a x; TRet i b true] ++ es) r.
  (** the calls of f made by the caller of TryFold, all accepted *)
  Inductive tfolds : T -> list T -> list (tev T) -> T -> Prop :=
  | tf_nil a : tfolds a [] [] a
  | tf_cons a r rs b es v : tfolds b rs es v -> tfolds a (r :: rs) (TFold a r :: TFolded b true :: es) v.
  Definition tby_caller (h : list (tev T)) : list (tev T) :=
    filter (fun e => Is_true (match e with TFold _ _ | TFolded _ _ => true | _ => false end)) h.
  (** the results the caller of TryFold has received *)
  Definition received (h : list (tev T)) : list T := omap (fun e => match e with TFold _ r => Some r | _ => None end) h.
  Definition begins_call (i : nat) (e : tev T) : bool := match e with TCall j _ _ => j =? i | _ => false end.
  Definition begins_pull (i : nat) (e : tev T) : bool := match e with TPull j => j =? i | _ => false end.
  Definition count (f : tev T -> bool) (h : list (tev T)) : nat := length (List.filter f h).
End tryfold.
