(** Specification vocabulary for streams whose callbacks may panic. *)
From Verif Require Import Base Stream_Model Stream_Spec PanicPar_Model.

(** What a segment does when it is pulled to the end: it yields some elements in
    order and then ends, or panics *)
Record course (T : Type) := Course { elems : list T; booms : bool }.
Arguments Course {T} _ _.
Arguments elems {T} _.
Arguments booms {T} _.

(** the iterator [it] yields [l] and then panics ([b]) or ends, whatever happens
    to the world between the calls *)
Fixpoint runs {U T} (it : iter U T) (l : list T) (b : bool) : Prop :=
  match l with
  | [] => if b then forall w, panics it w else forall w, exists it' w', returns it w None it' w'
  | v :: l => forall w, exists it' w', returns it w (Some v) it' w' /\ runs it' l b
  end.
Fixpoint gruns {U T} (g : gen U T) (cs : list (course T)) : Prop :=
  match cs with
  | [] => forall w, exists g' w', greturns g w None g' w'
  | c :: cs => forall w, exists it g' w', greturns g w (Some it) g' w' /\ runs it (elems c) (booms c) /\ gruns g' cs
  end.
(** activated with parallelism [p], the stream [s] has the segments [cs] *)
Definition segments {U T} (s : stream U T) (p : Z) (cs : list (course T)) : Prop := gruns (activate s p) cs.

(** folding with a callback that may panic: the calls made, and the value if none panics *)
Fixpoint folding {T R} (f : R -> T -> option R) (acc : R) (l : list T) : list T * option R :=
  match l with
  | [] => ([], Some acc)
  | x :: l => match f acc x with
              | Some a => let '(calls, o) := folding f a l in (x :: calls, o)
              | None => ([x], None)
              end
  end.
(** one segment; [None]: something panics *)
Definition fold_course {T R} (f : R -> T -> option R) (acc : R) (c : course T) : option R :=
  if booms c then None else (folding f acc (elems c)).2.
(** all segments one after the other *)
Fixpoint fold_courses {T R} (f : R -> T -> option R) (acc : R) (cs : list (course T)) : list T * option R :=
  match cs with
  | [] => ([], Some acc)
  | c :: cs =>
      let '(calls, o) := folding f acc (elems c) in
      match (if booms c then None else o) with
      | Some a => let '(calls', o') := fold_courses f a cs in (calls ++ calls', o')
      | None => (calls, None)
      end
  end.
(** combining the results; [None]: the combiner panics *)
Fixpoint combining {R} (comb : R -> R -> option R) (acc : R) (rs : list R) : option R :=
  match rs with
  | [] => Some acc
  | r :: rs => match comb acc r with Some a => combining comb a rs | None => None end
  end.
(** the elements goroutine [j] has handed to the consumer, in order *)
Definition handed {T} (j : nat) (log : list (nat * T)) : list T := (fun e => e.2) <$> filter (fun e => e.1 = j) log.

(** a callback that answers [g x] whatever the user's state is ([None]: it panics),
    but may change the state *)
Definition answers {U T R} (f : T -> U -> option (R * U)) (g : T -> option R) : Prop :=
  forall x u, match g x, f x u with Some y, Some (y', _) => y' = y | None, None => True | _, _ => False end.
(** stages, segment by segment *)
Fixpoint map_course {T R} (g : T -> option R) (l : list T) (b : bool) : course R :=
  match l with
  | [] => Course [] b
  | x :: l => match g x with
              | None => Course [] true
              | Some y => let c := map_course g l b in Course (y :: elems c) (booms c)
              end
  end.
Fixpoint filter_course {T} (q : T -> option bool) (l : list T) (b : bool) : course T :=
  match l with
  | [] => Course [] b
  | x :: l => match q x with
              | None => Course [] true
              | Some false => filter_course q l b
              | Some true => let c := filter_course q l b in Course (x :: elems c) (booms c)
              end
  end.
