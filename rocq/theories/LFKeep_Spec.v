(** Vocabulary for what the lock-free skip list keeps reachable. *)
From Verif Require Import Base Lin_Spec LockFree_Model LockFree_Spec.

Section spec.
  Context {T : Type} (comp : T -> T -> Z).
  (** the node at address [i], which holds the value [w], is met when the bottom
      links (marked or not) are followed from the head *)
  Definition linked (x : sys T) (i : nat) (w : T) : Prop :=
    exists ids, path (heap (shared x)) 0 head ids /\ i ∈ ids /\ value <$> heap (shared x) !! i = Some w.
  (** a call on its own, and several removals one after the other *)
  Definition del_calls (t : nat) (vs : list T) : list (event (op T) (ret T)) :=
    concat ((fun v => [Call t (Del v); Return t (RBool true)]) <$> vs).
End spec.
