(** Vocabulary for C74, the skip list: histories with abandoned calls, on the
    sequence of entries a client sees. *)
From Verif Require Import Base Iter_Model Iter_Spec SkipList_Model SkipList_Spec PanicComp_Model.

Section spec.
  Context {K V : Type} (comp : K -> K -> Z).
  (** what an abandoned call may have done: an insertion, Delete or
      DeleteByWholeMapping nothing; DeleteKeys the deletions of some of the first
      keys; DeleteRangeByKey has removed some of the first entries of the block
      it was to remove.  Clear and SetValue are never abandoned. *)
  Definition lost_spec (m : list (K * V)) (o : op K V) (m' : list (K * V)) : Prop :=
    match o with
    | OInsertUnique _ _ _ | OInsertEquals _ _ _ | ODelete _ | ODeleteWhole _ _ _ => m' = m
    | ODeleteKeys ks => exists j c, j < length ks /\ dels_spec comp (take j ks) m c m'
    | ODeleteRange min max => m' = m \/ exists A M B, m = A ++ M ++ B /\ m' = A ++ B /\
        Forall (fun e => comp e.1 max = (-1)%Z) M /\
        after_test (fun k' => comp k' min = (-1)%Z) A /\ stops (fun k' => comp k' min = (-1)%Z) (M ++ B)
    | OClear | OSetValue _ _ => False
    end.
  Inductive seq_run_c : list (K * V) -> list (op K V) -> list (option out) -> list (K * V) -> Prop :=
  | SeqCNil m : seq_run_c m [] [] m
  | SeqCDone m o r m1 os rs m2 : op_spec comp m o r m1 -> seq_run_c m1 os rs m2 -> seq_run_c m (o :: os) (Some r :: rs) m2
  | SeqCLost m o m1 os rs m2 : lost_spec m o m1 -> seq_run_c m1 os rs m2 -> seq_run_c m (o :: os) (None :: rs) m2.
End spec.
