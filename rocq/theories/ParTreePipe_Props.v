(** C66, the red-black tree as the source of a parallel pipeline. *)
From Verif Require Stream_Model ParPipe_Model ParPipe_Spec ParPipe_Proofs3 ParPipe_Proofs4.
From Verif Require Import Base Iter_Spec Split_Model WalkSplit_Model WalkSplit_Spec WalkSplit_Proofs RBTree_Model RBTree_Spec RBTree_Proofs RBTree_Proofs2 RBTree_Proofs3 RBTree_Proofs4 RBTree_Proofs5 RBTree_Proofs6
  RBTree_Proofs7 RBTree_Proofs8 RBTree_Proofs9 RBTree_Proofs10 RBTree_Proofs11.

(** On the non-empty trees of C38 a stream over the tree is cut like the slice of its entries. *)
Theorem C66_rbtree_is_cut_like_its_slice :
  forall (U K V : Type) (kzero : K) (vzero : V) (comp : K -> K -> Z), cmp_ok comp -> cmp_unit comp ->
  forall os fuel q, allowed vzero comp (fun m o => ascending comp m o /\ keeps_min comp kzero m o) [] os -> length os + 2 <= fuel ->
  exists rs t m, run vzero comp fuel (new_tree kzero vzero) os = Ok (rs, t) /\ map_run vzero comp [] os rs m /\
  (m <> [] -> ParPipe_Spec.like_slice (U:=U)
    (ParPipe_Model.walk_stream (left_most t) (next_node fuel t) (entry t) (size t)
       (ParPipe_Model.machine_iter (iter_next fuel t) (left_most t)) q) m) /\
  (forall l, linked (hp t) l -> next fuel (hp t) l = Ok (next_node fuel t l)).
Proof.
  intros U K V kzero vzero comp Hc Hu os fuel q HA Hf.
  destruct (sinv_run kzero vzero comp Hc Hu _ os [] _ Leaf [] fuel (fun m o H => proj1 H) (sinv_new kzero vzero comp) HA ltac:(simpl; lia))
    as (rs & t & bt & m & own & H1 & H2 & HI & HL & _).
  specialize (HL ltac:(by intros []) (fun m o H => proj2 H)). pose proof HI as [I E HS Hz _].
  exists rs, t, m. split; [done|]. split; [done|].
  assert (Hlen : length m <= length os).
  { exact (map_run_len vzero comp [] os rs m H2). }
  pose proof (height_locs bt) as Hh. assert (Hl2 : length (locs bt) = length m) by (rewrite <- E; unfold locs, entries; by rewrite !fmap_length).
  split.
  - intros HN. assert (HN' : locs bt <> []). { intros G. apply HN. apply locs_nil in G. congruence. }
    assert (Hfu : height bt <= fuel) by lia.
    destruct (rb_path kzero own t bt fuel I Hfu (io bt) [] eq_refl) as [P1 P2].
    assert (E1 : entry t <$> locs bt = entries bt) by exact P2.
    pose proof (ParPipe_Proofs4.walk_like_slice (U:=U) (next_node fuel t) (entry t) (left_most t) (locs bt)
      (ParPipe_Model.machine_iter (iter_next fuel t) (left_most t)) q) as W.
    rewrite E1, E in W. replace (size t) with (Z.of_nat (length (locs bt))) by (by rewrite Hz, Hl2). apply W.
    + rewrite (HL HN'). exact P1.
    + eapply ParPipe_Proofs3.machine_yields. rewrite <- E. by eapply (iter_drains kzero).
  - intros l Hl. apply (linked_locs _ _ (i_tree _ _ _ _ I)) in Hl. apply focus_loc in Hl as (C & c & k & v & a & b & ->).
    unfold next_node. by rewrite (next_ok (hp t) C c l k v a b fuel (i_tree _ _ _ _ I)) by lia.
Qed.
Print Assumptions C66_rbtree_is_cut_like_its_slice.
