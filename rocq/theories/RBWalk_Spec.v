(** Vocabulary for C76: walking a red-black tree from node to node. *)
From Verif Require Import Base RBTree_Model.

Section spec.
  Context {K V : Type}.
  (** [x] is [l] or below it *)
  Inductive under (h : heap K V) (l : loc) : loc -> Prop :=
  | U0 : under h l l
  | UL p x : under h l p -> left (h p) = Some x -> under h l x
  | UR p x : under h l p -> right (h p) = Some x -> under h l x.

  (** [step] leads from the first of [ls] to the second and so on, and from the
      last to nil *)
  Fixpoint leads (step : loc -> res (option loc)) (ls : list loc) : Prop :=
    match ls with
    | [] => True
    | l :: ls => step l = Ok (head ls) /\ leads step ls
    end.
End spec.
