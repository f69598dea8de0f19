(** C66, the linked list as the source of a parallel pipeline. *)
From Verif Require Stream_Model ParPipe_Model ParPipe_Spec ParPipe_Proofs3 ParPipe_Proofs4.
From Verif Require Import Base Iter_Spec Split_Model WalkSplit_Model WalkSplit_Spec WalkSplit_Proofs LinkedList_Model LinkedList_Spec LinkedList_Proofs LinkedList_Proofs2 LinkedList_Proofs3 LinkedList_Proofs4.

(** After every proper history, a stream over list [l] is cut like the slice of its elements. *)
Theorem C66_linkedlist_is_cut_like_its_slice :
  forall (U T : Type) (zero : T) os rs s l q, spec_execs zero lists0 os rs s -> ready s l = true ->
  let m := (execs zero mem0 os).1 in
  ParPipe_Spec.like_slice (U:=U)
    (ParPipe_Model.walk_stream (front l m) (elt_next m) (value zero m) (len m l)
       (ParPipe_Model.machine_iter (iter_next zero l m) (Root l)) q)
    (contents zero s l).
Proof.
  intros U T zero os rs s l q H Hr m.
  destruct (refine_execs zero os mem0 lists0 rs s inv_init H) as [I _]. fold m in I.
  assert (Ec : contents zero s l = value zero m <$> (Elt <$> elems s l)).
  { unfold contents. rewrite <- list_fmap_compose. apply list_fmap_ext. intros i x _. symmetry. by apply (rd_value zero m s x). }
  assert (Ef : front l m = Elt <$> head (elems s l)).
  { unfold front. rewrite (I_len _ _ I). destruct (rd_root m s l I Hr) as [-> _].
    destruct (elems s l); [by rewrite decide_True|by rewrite decide_False]. }
  pose proof (ParPipe_Proofs4.walk_like_slice (U:=U) (elt_next m) (value zero m) (front l m) (Elt <$> elems s l)
    (ParPipe_Model.machine_iter (iter_next zero l m) (Root l)) q) as W.
  rewrite fmap_length, <- (I_len _ _ I), <- Ec in W. apply W.
  - rewrite Ef. by eapply (node_path_elems m s l I Hr _ []).
  - eapply ParPipe_Proofs3.machine_yields. by apply iter_drains.
Qed.
Print Assumptions C66_linkedlist_is_cut_like_its_slice.
