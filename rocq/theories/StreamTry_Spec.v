(** Specification vocabulary for the parallel TryFold: the sequential one on a
    list, and the state of a goroutine that can do nothing any more. *)
From Verif Require Import Base.

(** fold a list as long as [f] agrees *)
Fixpoint try_seq {T} (f : T -> T -> T * bool) (l : list T) (a : T) : T * bool :=
  match l with
  | [] => (a, true)
  | x :: l => let (a', ok) := f a x in if ok then try_seq f l a' else (a', false)
  end.
(** the value folded from a segment *)
Definition seg_val {T} (f : T -> T -> T * bool) (init : T) (seg : list T) : T := (try_seq f seg init).1.
Definition seg_ok {T} (f : T -> T -> T * bool) (init : T) (seg : list T) : Prop := (try_seq f seg init).2 = true.
