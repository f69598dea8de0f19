(** C66, the skip list as the source of a parallel pipeline. *)
From Verif Require Stream_Model ParPipe_Model ParPipe_Spec ParPipe_Proofs3 ParPipe_Proofs4.
From Verif Require Import Base Iter_Spec Split_Model WalkSplit_Model WalkSplit_Spec WalkSplit_Proofs SkipList_Model SkipList_Spec SkipList_Proofs SkipList_Proofs2 SkipList_Proofs3 SkipList_Proofs4 SkipList_Proofs5.

(** After every history, for every comparator, a stream over the list is cut like the slice of its entries. *)
Theorem C66_skiplist_is_cut_like_its_slice :
  forall (U K V : Type) (kzero : K) (vzero : V) (comp : K -> K -> Z) os fuel q, length os < fuel ->
  exists rs s m, run kzero vzero comp fuel (new_list kzero vzero) os = Ok (rs, s) /\ shows vzero fuel s m /\
  ParPipe_Spec.like_slice (U:=U)
    (ParPipe_Model.walk_stream (first s) (next s) (entry s) (size s)
       (ParPipe_Model.machine_iter (iter_next s) (first s)) q) m.
Proof.
  intros U K V kz vz comp os fuel q Hf. destruct (run_new comp kz vz os fuel Hf) as (rs & s & ns & E & HR & HZ & HL & HS).
  exists rs, s, (ents s ns). splits; [done|apply shows_ok; [done|lia|apply HZ]|].
  rewrite (r_size _ _ HR). destruct (iter_drains s ns HR) as [st Hd].
  apply (ParPipe_Proofs4.walk_like_slice (next s) (entry s) (first s) ns); [exact (node_path_ok s ns HR)|].
  by eapply ParPipe_Proofs3.machine_yields.
Qed.
Print Assumptions C66_skiplist_is_cut_like_its_slice.
