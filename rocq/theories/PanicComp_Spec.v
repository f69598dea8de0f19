(** Vocabulary for C74: what is left of a container when its comparator panics
    in the middle of a call and the caller recovers. *)
From Verif Require Import Base PQ_Model PanicComp_Model.

(** [recovers m r]: the call [m] makes some number [k] of comparisons.  If the
    comparator answers at least [k] times the call ends as [r] says; if it
    answers fewer times the call is abandoned. *)
Definition recovers {S A} (m : cm S A) (r : res A) : Prop :=
  exists k, (forall n, n < k -> exists s, m n = Crash s) /\ forall n, m (k + n) = cl r n.

(** whenever the call is abandoned, the state left behind is [P] *)
Definition abandoned {S A} (m : cm S A) (P : S -> Prop) : Prop :=
  forall n s, m n = Crash s -> P s.

Section spec.
  Context {T : Type} (zero : T).
  (** A bag with abandoned calls ([None]): an abandoned Push has added its
      element all the same, an abandoned Pop has removed nothing.  A Pop or Peek
      that returns gives some element of the bag. *)
  Inductive cbag_step : list T -> PQ_Model.op -> option PQ_Model.out -> list T -> Prop :=
  | CPush b v : cbag_step b (Push v) (Some (OBool true)) (v :: b)
  | CPushLost b v : b <> [] -> cbag_step b (Push v) None (v :: b)
  | CPopEmpty : cbag_step [] Pop (Some (OVal zero false)) []
  | CPop b b' v : b ≡ₚ v :: b' -> cbag_step b Pop (Some (OVal v true)) b'
  | CPopLost b : 3 <= length b -> cbag_step b Pop None b
  | CPeekEmpty : cbag_step [] Peek (Some (OVal zero false)) []
  | CPeek b v : v ∈ b -> cbag_step b Peek (Some (OVal v true)) b
  | CLen b : cbag_step b Len (Some (OLen (Z.of_nat (length b)))) b.
  Inductive cbag_run : list T -> list PQ_Model.op -> list (option PQ_Model.out) -> list T -> Prop :=
  | CNil b : cbag_run b [] [] b
  | CCons b b1 b2 o os r rs :
      cbag_step b o r b1 -> cbag_run b1 os rs b2 -> cbag_run b (o :: os) (r :: rs) b2.

  (** what the queue holds *)
  Definition holds (q : queue T) (b : list T) : Prop :=
    qsize q <= length (PQ_Model.elements q) /\ take (qsize q) (PQ_Model.elements q) ≡ₚ b.
End spec.
