(** AllMatch and AnyMatch as calls of TryFold: the function given to TryFold,
    and histories in which it answers as it does. *)
From Verif Require Import Base Lin_Spec Busy_Model Busy_Spec.

Section matching.
  Context {T : Type} (q : T -> bool).
  (** stream/all_any_match.go:8-13; AllMatch returns the ok of TryFold *)
  Definition all_match_cb (a b : T) : T * bool := (a, q b).
  (** stream/all_any_match.go:22-27; AnyMatch returns the opposite of that ok *)
  Definition any_match_cb (a b : T) : T * bool := (a, negb (q b)).
End matching.

(** every call of f in the history that has ended got the answer [f] gives: those
    made by the goroutines and those made by the caller *)
Definition answers_as {T} (f : T -> T -> T * bool) (h : list (tev T)) : Prop :=
  (forall i h1 a x b ok h2, town i h = h1 ++ TCall i a x :: TRet i b ok :: h2 -> (b, ok) = f a x) /\
  (forall h1 a r b ok h2, tby_caller h = h1 ++ TFold a r :: TFolded b ok :: h2 -> (b, ok) = f a r).
