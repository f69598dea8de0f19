(** Specification of a priority queue: a bag (list up to permutation) with
    extract-min.  Independent of the heap model except for the names of the
    operations and results. *)
From Verif Require Import Base PQ_Model.

Section spec.
  Context {T : Type} (zero : T) (comp : T -> T -> Z).

  (** [x] is a least element of the bag *)
  Definition least (x : T) (bag : list T) : Prop :=
    forall y, y ∈ bag -> (comp x y <= 0)%Z.

  (** [bag_step b o r b']: operation [o] on bag [b] may return [r], leaving [b'] *)
  Inductive bag_step : list T -> op -> out -> list T -> Prop :=
  | BPush b v : bag_step b (Push v) (OBool true) (v :: b)
  | BPopEmpty : bag_step [] Pop (OVal zero false) []
  | BPop b b' v : b ≡ₚ v :: b' -> least v b -> bag_step b Pop (OVal v true) b'
  | BPeekEmpty : bag_step [] Peek (OVal zero false) []
  | BPeek b v : v ∈ b -> least v b -> bag_step b Peek (OVal v true) b
  | BLen b : bag_step b Len (OLen (Z.of_nat (length b))) b.

  Inductive bag_run : list T -> list op -> list out -> list T -> Prop :=
  | BNil b : bag_run b [] [] b
  | BCons b b1 b2 o os r rs :
      bag_step b o r b1 -> bag_run b1 os rs b2 -> bag_run b (o :: os) (r :: rs) b2.
End spec.
