(** Vocabulary for stating the properties of the combinators. *)
From Verif Require Import Base Fn_Model.

(** Instrumented callbacks: a total function [P] that records its name. *)
Definition logged {A B L} (name : L) (P : A -> B) : fun1 (list L) A B :=
  fun a log => Ok (P a, log ++ [name]).
(** A callback that panics. *)
Definition panics {St A B} : fun1 St A B := fun _ _ => Panic.
