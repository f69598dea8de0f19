(** Specification of a FIFO queue as a list of values, oldest first. *)
From Verif Require Import Base Lin_Spec Queue_Model.

Section spec.
  Context {T : Type}.
  (** [fifo s o r s']: on contents [s], [o] returns [r] and leaves [s'].
      Pop and Peek of an empty queue panic and change nothing. *)
  Inductive fifo : list T -> op T -> ret T -> list T -> Prop :=
  | F_push s v : fifo s (OPush v) RUnit (s ++ [v])
  | F_pop v s : fifo (v :: s) OPop (RVal v) s
  | F_pop_empty : fifo [] OPop RPanic []
  | F_peek v s : fifo (v :: s) OPeek (RVal v) (v :: s)
  | F_peek_empty : fifo [] OPeek RPanic []
  | F_len s : fifo s OLen (RInt (Z.of_nat (length s))) s
  | F_empty s b : (b = true <-> s = []) -> fifo s OEmpty (RBool b) s.

  Inductive fifo_run : list T -> list (op T) -> list (ret T) -> list T -> Prop :=
  | FNil s : fifo_run s [] [] s
  | FCons s s1 s2 o os r rs : fifo s o r s1 -> fifo_run s1 os rs s2 -> fifo_run s (o :: os) (r :: rs) s2.
End spec.

(** every further history on [q] is a FIFO history from contents [s] *)
Definition behaves_as {T} (q : queue T) (s : list T) : Prop :=
  forall os, exists rs q' s', run os q = Ok (rs, q') /\ fifo_run s os rs s'.
(** [pops q k vs q']: [k] calls of Pop return [vs] (none panics) and leave [q'] *)
Inductive pops {T} : queue T -> list T -> queue T -> Prop :=
| PopsNil q : pops q [] q
| PopsCons q q1 q2 v vs : pop q = Ok (Some v, q1) -> pops q1 vs q2 -> pops q (v :: vs) q2.
