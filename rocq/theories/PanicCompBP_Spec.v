(** Vocabulary for C75: what an abandoned call leaves of a B+ tree. *)
From Verif Require Import Base BPlus_Model BPlus_Spec.

Section spec.
  Context {K V : Type}.
  Implicit Types (t : @tree K V).

  (** nothing happened, or an entry is there twice and a later one is gone *)
  Definition doubled (es es' : list (K * V)) : Prop :=
    es' = es \/ exists a x b z c, es = a ++ x :: b ++ z :: c /\ es' = a ++ x :: x :: b ++ c.

  (** as [tree_reads], except that Size may be more than the number of entries *)
  Definition tree_stands t (d : nat) (w : list item) : Prop :=
    exists r fp, root t = Some r /\ reads (degree t) (hp t) d r fp w
      /\ NoDup fp /\ Forall (fun l => l < brk t) fp
      /\ (Z.of_nat (length (entries w)) <= size t)%Z.

  (** the same tree one level down: the root has no key left and a single child
      [y], which has at least degree-1 keys *)
  Definition tree_hollow t (d : nat) (w : list item) : Prop :=
    exists r y nx vs cs fp, root t = Some r /\ hp t r = Node nx vs (Some y :: cs) 0 false
      /\ length vs = 2 * degree t - 1 /\ S (length cs) = 2 * degree t
      /\ reads (degree t) (hp t) d y fp w /\ degree t - 1 <= num (hp t y)
      /\ NoDup (r :: fp) /\ Forall (fun l => l < brk t) (r :: fp)
      /\ (Z.of_nat (length (entries w)) <= size t)%Z.

  (** the root has no room for another key *)
  Definition root_full t : Prop := exists r, root t = Some r /\ num (hp t r) = 2 * degree t - 1.

  (** what an insertion abandoned on its way down leaves: Size as it was, the
      entries as they were or one doubled and a later one gone; if the root was
      full, some of the last entries, degree-1 or more of them, are gone as well *)
  Definition insertion_cut (comp : K -> K -> Z) t t' : Prop :=
    size t' = size t /\ degree t' = degree t
    /\ (exists d', tree_stands t' d' (reading t'))
    /\ (cmp_ok comp -> in_order comp (reading t) -> in_order comp (reading t'))
    /\ exists es lost, entries (reading t) = es ++ lost /\ doubled es (entries (reading t'))
        /\ (~ root_full t -> lost = []) /\ (root_full t -> degree t - 1 <= length lost).
End spec.

Section hist.
  Context {K V : Type}.
  (** the entries a history with abandoned calls ([None]) says it stored: those
      of the insertions that returned true *)
  Fixpoint stored_c (os : list (@op K V * nat)) (rs : list (option (@reply V))) : list (K * V) :=
    match os, rs with
    | (InsertEqual k v, _) :: os, Some (RBool true) :: rs | (InsertUnique k v, _) :: os, Some (RBool true) :: rs => (k, v) :: stored_c os rs
    | _ :: os, _ :: rs => stored_c os rs
    | _, _ => []
    end.
End hist.
