(** C76: walking a red-black tree from node to node. *)
From Verif Require Import Base RBTree_Model RBTree_Spec RBTree_Proofs RBTree_Proofs2 RBTree_Proofs3 RBTree_Proofs4 RBTree_Proofs5 RBTree_Proofs6
  RBTree_Proofs7 RBTree_Proofs8 RBTree_Proofs9 RBTree_Proofs10 RBTree_Proofs11 RBWalk_Spec RBWalk_Proofs.

Local Lemma ok_ex {A B} (r : res (A * B)) (P : A -> B -> Prop) :
  match r with Ok (x, y) => P x y | _ => False end -> exists x y, r = Ok (x, y) /\ P x y.
Proof. destruct r as [[x y]| |]; [|done|done]. intros H. by exists x, y. Qed.


(** In every state of every history, with any comparator: the nodes of the tree
    stand in a line in which Next leads forwards and Prev backwards, to nil at
    the ends; MinChildNode and MaxChildNode of a node are the first and the last
    of those below it, which stand together in the line. *)
Theorem C76_nodes_in_line {K V} (kzero : K) (vzero : V) (comp : K -> K -> Z) own (t : tree K V) :
  reach kzero vzero comp own t ->
  exists ls, NoDup ls /\ (forall l, linked (hp t) l <-> l ∈ ls) /\
  forall fuel, length ls <= fuel ->
    leads (next fuel (hp t)) ls /\ leads (prev fuel (hp t)) (reverse ls) /\
    forall l, linked (hp t) l -> exists a xs b, ls = a ++ xs ++ b /\ (forall x, under (hp t) l x <-> x ∈ xs) /\
      (exists m, min_child fuel (hp t) l = Ok m /\ head xs = Some m) /\
      (exists m, max_child fuel (hp t) l = Ok m /\ last xs = Some m).
Proof.
  intros HR. destruct (reach_inv kzero vzero comp own t HR) as [bt I]. pose proof (i_tree _ _ _ _ I) as H.
  exists (locs bt). pose proof H as (_ & _ & ND). apply NoDup_cons in ND as [_ ND]. split; [done|]. split; [by apply linked_locs|].
  intros fuel Hf. pose proof (height_locs bt) as Hh. assert (Hf2 : height bt <= fuel) by lia.
  split; [by apply leads_next|]. split; [by apply leads_prev|].
  intros l Hl. apply (linked_locs _ _ H) in Hl. destruct (child_ok (hp t) bt fuel l H Hf2 Hl) as (xs & A1 & (a & b & A2) & A3 & A4).
  exists a, xs, b. splits; done.
Qed.
Print Assumptions C76_nodes_in_line.

(** Histories of Puts in ascending order and any deletions (C35): the entries of
    the nodes, in that line, are those of the map in key order. *)
Theorem C76_line_is_in_key_order {K V} (kzero : K) (vzero : V) (comp : K -> K -> Z) : cmp_ok comp -> cmp_unit comp ->
  forall os fuel, allowed vzero comp (ascending comp) [] os -> length os + 2 <= fuel ->
  exists rs t m ls, run vzero comp fuel (new_tree kzero vzero) os = Ok (rs, t) /\ map_run vzero comp [] os rs m /\
    (forall l, linked (hp t) l <-> l ∈ ls) /\ entry t <$> ls = m /\ sorted comp m /\
    leads (next fuel (hp t)) ls /\ leads (prev fuel (hp t)) (reverse ls).
Proof.
  intros Hc Hu os fuel HA Hf.
  destruct (sinv_run kzero vzero comp Hc Hu _ os [] _ Leaf [] fuel ltac:(done) (sinv_new kzero vzero comp) HA ltac:(simpl; lia))
    as (rs & t & bt & m & own & H1 & H2 & [I E HS Hz _] & _).
  pose proof (i_tree _ _ _ _ I) as H. pose proof (map_run_len vzero comp [] os rs m H2) as Hlen. cbn [length] in Hlen.
  pose proof (height_locs bt) as Hh. assert (Hl2 : length (locs bt) = length m) by (rewrite <- E; unfold locs, entries; by rewrite !fmap_length).
  exists rs, t, m, (locs bt). splits; try done.
  - by apply linked_locs.
  - destruct (rb_path kzero own t bt (height bt) I ltac:(lia) (io bt) [] eq_refl) as [_ P]. by rewrite <- E.
  - apply leads_next; [done|lia].
  - apply leads_prev; [done|lia].
Qed.
Print Assumptions C76_line_is_in_key_order.

(** without deletions RightMost and Prev give the entries backwards *)
Theorem C76_backwards_from_rightmost {K V} (kzero : K) (vzero : V) (comp : K -> K -> Z) : cmp_ok comp -> cmp_unit comp ->
  forall os fuel, allowed vzero comp (fun m o => ascending comp m o /\ no_delete m o) [] os -> length os + 2 <= fuel ->
  exists rs t m, run vzero comp fuel (new_tree kzero vzero) os = Ok (rs, t) /\ map_run vzero comp [] os rs m /\
    (m <> [] -> exists ls, right_most t = head ls /\ leads (prev fuel (hp t)) ls /\ entry t <$> ls = reverse m).
Proof.
  intros Hc Hu os fuel HA Hf.
  destruct (sinv_run kzero vzero comp Hc Hu _ os [] _ Leaf [] fuel (fun m o H => proj1 H) (sinv_new kzero vzero comp) HA ltac:(simpl; lia))
    as (rs & t & bt & m & own & H1 & H2 & HI & _ & HR).
  specialize (HR ltac:(by intros []) (fun m o H => proj2 H)). pose proof HI as [I E HS Hz _].
  exists rs, t, m. split; [done|]. split; [done|]. intros HN.
  assert (HN2 : locs bt <> []) by (intros G; apply HN; by apply locs_nil in G; congruence).
  pose proof (i_tree _ _ _ _ I) as H. pose proof (map_run_len vzero comp [] os rs m H2) as Hlen. cbn [length] in Hlen.
  pose proof (height_locs bt) as Hh. assert (Hl2 : length (locs bt) = length m) by (rewrite <- E; unfold locs, entries; by rewrite !fmap_length).
  exists (reverse (locs bt)). split; [by rewrite head_reverse, (HR HN2)|]. split; [apply leads_prev; [done|lia]|].
  rewrite fmap_reverse. f_equal. destruct (rb_path kzero own t bt (height bt) I ltac:(lia) (io bt) [] eq_refl) as [_ P]. by rewrite <- E.
Qed.
Print Assumptions C76_backwards_from_rightmost.

(** a tree of seven nodes, with deletions *)
Example C76_seven :
  exists rs t, run 0%Z Zcomp 20 (new_tree 0 0)%Z [OPut 1 1; OPut 2 2; OPut 3 3; OPut 4 4; OPut 5 5; ODelete 2; OPut 6 6; OPut 7 7]%Z = Ok (rs, t)
    /\ parent (hp t 0) = Some 15 /\ min_child 20 (hp t) 15 = Ok 16 /\ max_child 20 (hp t) 15 = Ok 10
    /\ next 20 (hp t) 16 = Ok (Some 15) /\ next 20 (hp t) 15 = Ok (Some 13) /\ prev 20 (hp t) 13 = Ok (Some 15)
    /\ prev 20 (hp t) 16 = Ok None /\ next 20 (hp t) 10 = Ok None.
Proof. apply ok_ex. by vm_compute. Qed.
Example C76_allowed :
  allowed 0%Z Zcomp (fun m o => ascending Zcomp m o /\ no_delete m o) [] [OPut (-3) 1; OPut 2 5; OPut 4 6; OPut 2 7; OGet 2; OSize]%Z.
Proof.
  simpl. repeat match goal with
  | |- _ /\ _ => split
  | |- forall _, _ => intro
  | H : _ /\ _ |- _ => destruct H
  | H : exists _, _ |- _ => destruct H
  | |- _ => progress subst
  | |- True => exact I
  end; try (vm_compute in * ; subst; done); try (by left); try (by right; vm_compute; repeat constructor);
  try (by right; left); try (by right; right; vm_compute; repeat constructor).
Qed.
