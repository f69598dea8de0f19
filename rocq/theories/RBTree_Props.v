(** Property theorems for the red-black tree (C35-C39, C61, and its part of C13 and C59). *)
From Verif Require Import Base Iter_Model Iter_Spec Split_Model WalkSplit_Model WalkSplit_Spec
  RBTree_Model RBTree_Spec RBTree_Proofs RBTree_Proofs2 RBTree_Proofs3 RBTree_Proofs4 RBTree_Proofs5 RBTree_Proofs6
  RBTree_Proofs7 RBTree_Proofs8 RBTree_Proofs9 RBTree_Proofs10 RBTree_Proofs11.

(** C35: for a total order answering -1, 0, 1, every history in which each Put
    hits a present key or brings one above all present ones is answered like a
    map, deletions of any kind included; no call panics or runs forever *)
Theorem C35_map_for_ascending_histories :
  forall (K V : Type) (kzero : K) (vzero : V) (comp : K -> K -> Z), cmp_ok comp -> cmp_unit comp ->
  forall os fuel, allowed vzero comp (ascending comp) [] os -> length os + 2 <= fuel ->
  exists rs t m, run vzero comp fuel (new_tree kzero vzero) os = Ok (rs, t) /\
    map_run vzero comp [] os rs m /\ sorted comp m.
Proof.
  intros K V kzero vzero comp Hc Hu os fuel HA Hf.
  destruct (sinv_run kzero vzero comp Hc Hu (ascending comp) os [] _ Leaf [] fuel ltac:(done) (sinv_new kzero vzero comp) HA ltac:(simpl; lia))
    as (rs & t & bt & m & own & H1 & H2 & [_ _ H3 _ _] & _). by exists rs, t, m.
Qed.
Print Assumptions C35_map_for_ascending_histories.

(** C36: every state of every history with every comparator (even a
    nonsensical one) is a red-black tree without sharing or cycles; its height
    is logarithmic *)
Theorem C36_red_black_always :
  forall (K V : Type) (kzero : K) (vzero : V) (comp : K -> K -> Z) own (t : tree K V),
  reach kzero vzero comp own t ->
  exists bt, is_tree (hp t) bt /\ red_black bt /\ (forall l, linked (hp t) l <-> l ∈ locs bt) /\
    height bt <= 2 * Nat.log2 (length (locs bt) + 1).
Proof.
  intros K V kzero vzero comp own t HR. destruct (reach_inv kzero vzero comp own t HR) as [bt [H1 H2 _ _]].
  exists bt. split; [done|]. split; [done|]. split; [by apply linked_locs|by apply height_log].
Qed.
Print Assumptions C36_red_black_always.

(** C36: every call returns (a bound on its loops is the number of nodes), and
    no call other than a deletion dereferences nil *)
Theorem C36_calls_return :
  forall (K V : Type) (kzero : K) (vzero : V) (comp : K -> K -> Z) own (t : tree K V) bt o fuel,
  reach kzero vzero comp own t -> is_tree (hp t) bt -> legal own o -> length (locs bt) + 2 <= fuel ->
  step vzero comp fuel t o <> Fuel /\
  (step vzero comp fuel t o = Panic -> match o with ODelete _ | ODeleteKeys _ | ODeleteWhole _ _ _ => True | _ => False end).
Proof.
  intros K V kzero vzero comp own t bt o fuel HR HT HL Hf. destruct (reach_inv kzero vzero comp own t HR) as [bt2 I].
  assert (Hl : length (locs bt2) = length (locs bt)).
  { pose proof (i_tree _ _ _ _ I) as HT2. pose proof (linked_locs _ _ HT) as L1. pose proof (linked_locs _ _ HT2) as L2.
    destruct HT as (_ & _ & N1). destruct HT2 as (_ & _ & N2). apply NoDup_cons in N1 as [_ N1]. apply NoDup_cons in N2 as [_ N2].
    apply Permutation_length, NoDup_Permutation; [done|done|]. intros l. by rewrite <- L1, <- L2. }
  destruct (step_ok kzero vzero comp own t bt2 o fuel I HL ltac:(lia)) as [[HD E]|(r & t' & bt' & E & _)]; rewrite E; [|done].
  split; [done|]. intros _. exact HD.
Qed.
Print Assumptions C36_calls_return.

(** C36: a deletion dereferences nil exactly when the node found has a key
    below the zero key while LeftMost is nil *)
Theorem C36_delete_panics_iff :
  forall (K V : Type) (kzero : K) (vzero : V) (comp : K -> K -> Z) own (t : tree K V) bt k l fuel,
  reach kzero vzero comp own t -> is_tree (hp t) bt -> length (locs bt) + 2 <= fuel ->
  find comp fuel t k = Ok (Some l) ->
  (delete comp fuel t k = Panic <-> ((comp (key (hp t l)) kzero <= -1)%Z /\ left_most t = None)).
Proof.
  intros K V kzero vzero comp own t bt k l fuel HR HT Hf HF. destruct (reach_inv kzero vzero comp own t HR) as [bt2 I].
  assert (Hl : length (locs bt2) = length (locs bt)).
  { pose proof (i_tree _ _ _ _ I) as HT2. pose proof (linked_locs _ _ HT) as L1. pose proof (linked_locs _ _ HT2) as L2.
    destruct HT as (_ & _ & N1). destruct HT2 as (_ & _ & N2). apply NoDup_cons in N1 as [_ N1]. apply NoDup_cons in N2 as [_ N2].
    apply Permutation_length, NoDup_Permutation; [done|done|]. intros x. by rewrite <- L1, <- L2. }
  pose proof (height_locs bt2) as Hh.
  destruct (delete_ok kzero comp own t bt2 k fuel I ltac:(lia)) as [(C & _ & _ & E)|(C & c & l2 & k' & v & a & b & _ & _ & _ & _ & EF & Ek & HD)].
  - unfold delete in E. rewrite HF in E. cbn [rbind] in E. destruct (remove_node comp fuel t l) as [[]| |]; done.
  - rewrite HF in EF. injection EF as <-. rewrite Ek. destruct HD as [[[D1 D2] E]|[ND (r & t' & E & _)]]; rewrite E.
    + split; [|done]. intros _. split; [lia|exact D2].
    + split; [done|]. intros [G1 G2]. destruct ND. split; [lia|exact G2].
Qed.
Print Assumptions C36_delete_panics_iff.

(** C36: such a state is reachable: Put -90, -95, -80, then Delete -80, -95, -90 *)
Theorem C36_delete_never_panics_refuted :
  let puts := [OPut (-90) 0; OPut (-95) 0; OPut (-80) 0; ODelete (-80); ODelete (-95)]%Z in
  exists rs t, run 0%Z Zcomp 20 (new_tree 0 0)%Z puts = Ok (rs, t) /\
    has Zcomp 20 t (-90)%Z = Ok true /\ delete Zcomp 20 t (-90)%Z = Panic.
Proof. apply ok_ex. by vm_compute. Qed.
Print Assumptions C36_delete_never_panics_refuted.

(** C37: on a sorted tree, Put of a key whose search ends at the left of a node
    (key kp, right subtree b) answers true and adds 1 to Size, but links the
    new entry after kp and drops all of b; afterwards the keys of b are gone, and
    the new key and kp are not both found *)
Theorem C37_put_on_the_left_loses_data :
  forall (K V : Type) (kzero : K) (vzero : V) (comp : K -> K -> Z), cmp_ok comp -> cmp_unit comp ->
  forall own (t : tree K V) bt k v kp vp b,
  reach kzero vzero comp own t -> is_tree (hp t) bt -> sorted comp (entries bt) -> ends_left comp k bt kp vp b ->
  exists t' bt' X Y, (forall fuel, height bt + 2 <= fuel -> put comp fuel t k v = Ok (true, t')) /\
    size t' = (size t + 1)%Z /\ is_tree (hp t') bt' /\
    entries bt = X ++ (kp, vp) :: entries b ++ Y /\ entries bt' = X ++ (kp, vp) :: (k, v) :: Y /\ (comp k kp < 0)%Z /\
    (forall fuel, height bt' < fuel ->
       ~ (has comp fuel t' k = Ok true /\ has comp fuel t' kp = Ok true) /\
       forall e, e ∈ entries b -> has comp fuel t' e.1 = Ok false).
Proof.
  intros K V kzero vzero comp Hc Hu own t bt k v kp vp b HR HT HS HE. destruct (reach_inv kzero vzero comp own t HR) as [bt2 I].
  assert (bt2 = bt) as ->.
  { pose proof (i_tree _ _ _ _ I) as HT2. by apply (tree_unique (hp t)). }
  destruct (put_left kzero comp Hc Hu own t bt k v kp vp b (height bt + 2) I HS HE ltac:(lia)) as (t' & bt' & X & Y & Ep & Hs & I' & E1 & E2 & H3 & _ & H4).
  exists t', bt', X, Y. split; [|split; [done|split; [apply (i_tree _ _ _ _ I')|done]]].
  intros fuel Hf. rewrite <- Ep. apply put_st; [done|by rewrite Ep].
Qed.
Print Assumptions C37_put_on_the_left_loses_data.

(** C37: in particular, on every sorted non-empty tree and every key below all
    its keys: the new key and the old minimum are not both found afterwards *)
Theorem C37_put_below_the_minimum :
  forall (K V : Type) (kzero : K) (vzero : V) (comp : K -> K -> Z), cmp_ok comp -> cmp_unit comp ->
  forall own (t : tree K V) bt k v kmin vmin es,
  reach kzero vzero comp own t -> is_tree (hp t) bt -> sorted comp (entries bt) ->
  entries bt = (kmin, vmin) :: es -> (comp k kmin < 0)%Z ->
  exists t' n, (forall fuel, n <= fuel -> put comp fuel t k v = Ok (true, t') /\
    ~ (has comp fuel t' k = Ok true /\ has comp fuel t' kmin = Ok true)).
Proof.
  intros K V kzero vzero comp Hc Hu own t bt k v kmin vmin es HR HT HS HE Hk.
  assert (HN : bt <> Leaf) by (by intros ->).
  destruct (min_ends_left comp Hc Hu k bt HN) as (kp & vp & b & HL & EH); [|done|].
  { intros e He. rewrite HE in He, HS. apply elem_of_cons in He as [-> |He]; [done|].
    apply (sorted_app comp [(kmin, vmin)]) in HS as (_ & _ & HS). specialize (HS (kmin, vmin) e ltac:(by left) He).
    by apply (cmp_lt_trans comp Hc _ kmin). }
  rewrite HE in EH. injection EH as <- <-.
  destruct (C37_put_on_the_left_loses_data K V kzero vzero comp Hc Hu own t bt k v _ _ _ HR HT HS HL) as (t' & bt' & X & Y & Ep & _ & _ & _ & _ & _ & H4).
  exists t', (height bt + 2 + height bt' + 1). intros fuel Hf. split; [apply Ep; lia|]. apply H4. lia.
Qed.
Print Assumptions C37_put_below_the_minimum.

(** C37: two Puts after which the second key is not found; three Puts after
    which the second key is lost while Size says 3 *)
Theorem C37_two_puts :
  exists rs t, run 0%Z Zcomp 20 (new_tree 0 0)%Z [OPut 5 50; OPut 3 30]%Z = Ok (rs, t) /\ rs = [RBool true; RBool true] /\
    has Zcomp 20 t 3%Z = Ok false /\ has Zcomp 20 t 5%Z = Ok true /\ size t = 2%Z.
Proof. apply ok_ex. by vm_compute. Qed.
Print Assumptions C37_two_puts.
Theorem C37_three_puts :
  exists rs t, run 0%Z Zcomp 20 (new_tree 0 0)%Z [OPut 5 50; OPut 7 70; OPut 3 30]%Z = Ok (rs, t) /\ rs = [RBool true; RBool true; RBool true] /\
    has Zcomp 20 t 7%Z = Ok false /\ has Zcomp 20 t 3%Z = Ok false /\ size t = 3%Z.
Proof. apply ok_ex. by vm_compute. Qed.
Print Assumptions C37_three_puts.

(** C38: ascending histories whose deletions never take the smallest entry
    unless its key is below the zero key: on a non-empty tree Iter yields
    exactly the map's entries in increasing order, LeftMost the first *)
Theorem C38_iteration_in_order :
  forall (K V : Type) (kzero : K) (vzero : V) (comp : K -> K -> Z), cmp_ok comp -> cmp_unit comp ->
  forall os fuel, allowed vzero comp (fun m o => ascending comp m o /\ keeps_min comp kzero m o) [] os -> length os + 2 <= fuel ->
  exists rs t m, run vzero comp fuel (new_tree kzero vzero) os = Ok (rs, t) /\
    map_run vzero comp [] os rs m /\ sorted comp m /\
    (m <> [] -> drains (iter_next fuel t) (left_most t) m None /\ entry t <$> left_most t = head m).
Proof.
  intros K V kzero vzero comp Hc Hu os fuel HA Hf.
  destruct (sinv_run kzero vzero comp Hc Hu _ os [] _ Leaf [] fuel (fun m o H => proj1 H) (sinv_new kzero vzero comp) HA ltac:(simpl; lia))
    as (rs & t & bt & m & own & H1 & H2 & HI & HL & _).
  specialize (HL ltac:(by intros []) (fun m o H => proj2 H)). pose proof HI as [I E HS Hz _].
  exists rs, t, m. split; [done|]. split; [done|]. split; [done|]. intros HN.
  assert (Hlen : length m <= length os).
  { exact (map_run_len vzero comp [] os rs m H2). }
  pose proof (height_locs bt) as Hh. assert (Hl2 : length (locs bt) = length m) by (rewrite <- E; unfold locs, entries; by rewrite !fmap_length).
  assert (HN2 : locs bt <> []) by (intros G; apply HN; by apply locs_nil in G; congruence).
  split.
  - rewrite <- E. apply (iter_drains kzero own t bt fuel I HL HN2). lia.
  - rewrite (HL HN2). destruct (rb_path kzero own t bt fuel I ltac:(lia) (io bt) [] eq_refl) as [_ P].
    rewrite <- E. unfold entries, locs. destruct (io bt) as [|x L]; [done|]. injection P as P _. simpl. by f_equal.
Qed.
Print Assumptions C38_iteration_in_order.

(** C38: without deletions RightMost is the greatest entry too *)
Theorem C38_rightmost_without_deletions :
  forall (K V : Type) (kzero : K) (vzero : V) (comp : K -> K -> Z), cmp_ok comp -> cmp_unit comp ->
  forall os fuel, allowed vzero comp (fun m o => ascending comp m o /\ no_delete m o) [] os -> length os + 2 <= fuel ->
  exists rs t m, run vzero comp fuel (new_tree kzero vzero) os = Ok (rs, t) /\
    map_run vzero comp [] os rs m /\ (m <> [] -> entry t <$> right_most t = last m).
Proof.
  intros K V kzero vzero comp Hc Hu os fuel HA Hf.
  destruct (sinv_run kzero vzero comp Hc Hu _ os [] _ Leaf [] fuel (fun m o H => proj1 H) (sinv_new kzero vzero comp) HA ltac:(simpl; lia))
    as (rs & t & bt & m & own & H1 & H2 & HI & _ & HR).
  specialize (HR ltac:(by intros []) (fun m o H => proj2 H)). pose proof HI as [I E HS Hz _].
  exists rs, t, m. split; [done|]. split; [done|]. intros HN.
  assert (HN2 : locs bt <> []) by (intros G; apply HN; by apply locs_nil in G; congruence).
  rewrite (HR HN2). destruct (rb_path kzero own t bt (height bt) I ltac:(lia) (io bt) [] eq_refl) as [_ P].
  rewrite <- E. unfold entries, locs. rewrite <- P. clear. generalize (io bt).*1. intros l.
  induction l as [|x [|y l] IH]; [done|done|]. exact IH.
Qed.
Print Assumptions C38_rightmost_without_deletions.

(** C38: on a new tree and on any cleared tree the first pull of Iter does not
    return, however long it runs *)
Theorem C38_iter_of_an_empty_tree_hangs :
  forall (K V : Type) (kzero : K) (vzero : V) (t : tree K V) fuel,
  iter_next fuel (new_tree kzero vzero) (left_most (new_tree kzero vzero)) = Fuel /\
  iter_next fuel (clear t) (left_most (clear t)) = Fuel.
Proof.
  intros. split; apply iter_empty; unfold new_tree, clear; cbn [hp]; by rewrite fn_lookup_insert.
Qed.
Print Assumptions C38_iter_of_an_empty_tree_hangs.

(** C38: without the restriction on deletions Iter can yield a deleted entry *)
Theorem C38_iteration_after_any_deletion_refuted :
  exists rs t, run 0%Z Zcomp 20 (new_tree 0 0)%Z [OPut 1 10; OPut 2 20; ODelete 1]%Z = Ok (rs, t) /\
    has Zcomp 20 t 1%Z = Ok false /\ drains (iter_next 20 t) (left_most t) [(1, 10); (2, 20)]%Z None.
Proof.
  assert (G : exists rs t, run 0%Z Zcomp 20 (new_tree 0 0)%Z [OPut 1 10; OPut 2 20; ODelete 1]%Z = Ok (rs, t) /\
    has Zcomp 20 t 1%Z = Ok false /\ pull_all 5 (iter_next 20 t) (left_most t) = Ok ([(1, 10); (2, 20)]%Z, None))
    by (apply ok_ex; by vm_compute).
  destruct G as (rs & t & H1 & H2 & H3). exists rs, t. split; [done|]. split; [done|]. by eapply pull_all_drains.
Qed.
Print Assumptions C38_iteration_after_any_deletion_refuted.

(** C39: in every reachable state the linked nodes, the caller's nodes, the
    header and the pooled nodes are pairwise distinct; the free list holds at
    most 16 nodes besides the rest of the slice *)
Theorem C39_pool_disjoint :
  forall (K V : Type) (kzero : K) (vzero : V) (comp : K -> K -> Z) own (t : tree K V),
  reach kzero vzero comp own t ->
  exists ls, pooled t ls /\ NoDup (own ++ ls) /\ length ls <= 16 + cursor (buf t) /\
    forall l, linked (hp t) l -> l <> 0 /\ l ∉ own /\ l ∉ ls.
Proof.
  intros K V kzero vzero comp own t HR. destruct (reach_inv kzero vzero comp own t HR) as [bt I].
  destruct (inv_pooled kzero comp own t bt I) as (ls & H1 & H2 & H3). exists ls. split; [done|].
  apply NoDup_cons in H2 as [H2 H4]. apply NoDup_app in H4 as (_ & H5 & H4). split; [done|]. split; [done|].
  intros l Hl. apply (linked_locs _ _ (i_tree _ _ _ _ I)) in Hl. split; [intros ->; set_solver|]. specialize (H5 l Hl). set_solver.
Qed.
Print Assumptions C39_pool_disjoint.

(** C39: the node a Put allocates was neither linked nor the caller's *)
Theorem C39_put_uses_an_unused_node :
  forall (K V : Type) (kzero : K) (vzero : V) (comp : K -> K -> Z) own (t t' : tree K V) k v fuel,
  reach kzero vzero comp own t -> put comp fuel t k v = Ok (true, t') ->
  exists n, ~ linked (hp t) n /\ n ∉ own /\ n <> 0 /\ linked (hp t') n /\ entry t' n = (k, v) /\
    forall l, linked (hp t') l -> l = n \/ (linked (hp t) l /\ entry t' l = entry t l).
Proof.
  intros K V kzero vzero comp own t t' k v fuel HR E. destruct (reach_inv kzero vzero comp own t HR) as [bt I].
  set (f := fuel `max` (height bt + 2)). assert (E' : put comp f t k v = Ok (true, t')). { rewrite (put_st comp t k v fuel f); [done|lia|by rewrite E]. }
  destruct (put_ok kzero comp own t bt k v f I ltac:(lia)) as [(C & c & l & k' & v' & a & b & t2 & _ & _ & _ & _ & Ep & _)|(C & n & t2 & bt' & Eb & HC & Ep & I' & Hs & Hio & Hn & Ho & _)]; rewrite E' in Ep; [done|].
  injection Ep as <-. exists n.
  assert (Hin : (n, (k, v)) ∈ io bt'). { rewrite Hio. destruct C as [|[] C]; simpl; set_solver. }
  assert (Hent : forall l kv, (l, kv) ∈ io bt' -> entry t' l = kv). { intros l kv Hl. by apply (inv_entry kzero own t' bt'). }
  assert (Hn' : n ∈ locs bt') by (apply elem_of_list_fmap; by eexists (_, _)).
  split; [by rewrite (linked_locs _ _ (i_tree _ _ _ _ I))|]. split; [done|].
  split; [intros ->; pose proof (i_tree _ _ _ _ I') as (_ & _ & ND); by apply NoDup_cons in ND as [ND _]|].
  split; [by apply (linked_locs _ _ (i_tree _ _ _ _ I'))|]. split; [by apply Hent|].
  intros l Hl. apply (linked_locs _ _ (i_tree _ _ _ _ I')) in Hl. apply elem_of_list_fmap in Hl as ([l' kv] & -> & Hl). cbn [fst].
  assert (Hl2 : (l', kv) = (n, (k, v)) \/ (l', kv) ∈ io bt).
  { rewrite Hio in Hl. rewrite Eb, io_plug. destruct C as [|[] C]; simpl in *; set_solver. }
  destruct Hl2 as [[= -> ->]|Hl2]; [by left|right]. split.
  - apply (linked_locs _ _ (i_tree _ _ _ _ I)). apply elem_of_list_fmap. by eexists (_, _).
  - rewrite (Hent l' kv Hl). symmetry. by apply (inv_entry kzero own t bt).
Qed.
Print Assumptions C39_put_uses_an_unused_node.

(** C61: the node Delete answers is unlinked and keeps its contents, but it is
    either the node found (the deleted entry) or that node's successor, whose
    entry has moved into the node found, which stays linked *)
Theorem C61_node_returned_by_delete :
  forall (K V : Type) (kzero : K) (vzero : V) (comp : K -> K -> Z) own (t t' : tree K V) bt k r fuel,
  reach kzero vzero comp own t -> is_tree (hp t) bt -> length (locs bt) + 2 <= fuel ->
  delete comp fuel t k = Ok (Some r, t') ->
  exists l, find comp fuel t k = Ok (Some l) /\ ~ linked (hp t') r /\ entry t' r = entry t r /\
    (r = l \/ (next fuel (hp t) l = Ok (Some r) /\ linked (hp t') l /\ entry t' l = entry t r)).
Proof.
  intros K V kzero vzero comp own t t' bt k r fuel HR HT Hf E. destruct (reach_inv kzero vzero comp own t HR) as [bt2 I].
  assert (bt2 = bt) as -> by (by apply (tree_unique (hp t)); [apply (i_tree _ _ _ _ I)|]).
  pose proof (height_locs bt) as Hh.
  destruct (delete_ok kzero comp own t bt k fuel I ltac:(lia)) as [(C & _ & _ & E2)|(C & c & l & k' & v & a & b & Eb & _ & _ & _ & EF & Ek & HD)]; [congruence|].
  destruct HD as [[_ E2]|[_ (r2 & t2 & E2 & HRm)]]; [congruence|]. rewrite E in E2. injection E2 as <- <-.
  destruct HRm as (bt' & I' & Hio & _ & Hr & _). exists l. split; [done|].
  split.
  { rewrite (linked_locs _ _ (i_tree _ _ _ _ I')). pose proof (pool_nodup kzero comp _ _ (i_pool _ _ _ _ I')) as ND.
    apply NoDup_cons in ND as [_ ND]. apply NoDup_app in ND as (_ & ND & _). intros G. apply (ND r G). by left. }
  split; [unfold entry; by rewrite Hr|].
  destruct Hio as [[-> _]|(kv & B' & _ & _ & EB & Hio)]; [by left|right]. subst bt.
  split; [rewrite (next_ok (hp t) C c l k' v a b fuel HT), EB by lia; done|].
  assert (Hin : (l, kv) ∈ io bt') by (rewrite Hio; set_solver).
  split; [apply (linked_locs _ _ (i_tree _ _ _ _ I')); apply elem_of_list_fmap; by eexists (_, _)|].
  rewrite (inv_entry kzero (r :: own) t' bt' l kv I' Hin). symmetry. apply (inv_entry kzero own t _ r kv I).
  assert (E3 : io (plug C (T c l k' v a b)) = (iol C ++ io a) ++ (l, (k', v)) :: io b ++ ior C) by (rewrite io_plug; simpl; by rewrite <- !app_assoc).
  rewrite E3, EB. set_solver.
Qed.
Print Assumptions C61_node_returned_by_delete.

(** C61: PutNode never changes Size, so Delete followed by PutNode of the
    answer leaves Size one short; and the entry put back can be a different one *)
Theorem C61_put_node_keeps_size :
  forall (K V : Type) (comp : K -> K -> Z) (t t' : tree K V) n b fuel,
  put_node comp fuel t n = Ok (b, t') -> size t' = size t.
Proof.
  intros K V comp t t' n b fuel. unfold put_node. destruct (descend comp fuel (hp t) (key (hp t n)) None (parent (hp t 0))) as [[l|p]| |]; cbn [rbind]; try done.
  - by intros [= _ <-].
  - destruct (link fuel (hp t) p n); cbn [rbind]; try done. by intros [= _ <-].
Qed.
Print Assumptions C61_put_node_keeps_size.
Theorem C61_delete_then_put_node_refuted :
  exists n rs t, run 0%Z Zcomp 20 (new_tree 0 0)%Z [OPut 1 10; OPut 2 20; OPut 3 30; ODelete 2; OPutNode n]%Z = Ok (rs, t) /\
    last rs = Some (RBool false) /\ rs !! 3 = Some (RNode (Some n)) /\
    entry t n = (3, 30)%Z /\ has Zcomp 20 t 2%Z = Ok false /\ size t = 2%Z.
Proof. exists 14. apply ok_ex. by vm_compute. Qed.
Print Assumptions C61_delete_then_put_node_refuted.

(** C13 (red-black tree): on the non-empty trees of C38 the segment generator
    agrees with that of the slice of the tree's entries *)
Theorem C13_rbtree_splits_like_its_slice :
  forall (K V : Type) (kzero : K) (vzero : V) (comp : K -> K -> Z), cmp_ok comp -> cmp_unit comp ->
  forall os fuel p n, allowed vzero comp (fun m o => ascending comp m o /\ keeps_min comp kzero m o) [] os -> length os + 2 <= fuel ->
  exists rs t m, run vzero comp fuel (new_tree kzero vzero) os = Ok (rs, t) /\ map_run vzero comp [] os rs m /\
  (m <> [] -> exists outs outs' fin fin',
    length outs = n /\
    pulled (split_next m p) 0 outs fin /\
    pulled (walk_next (next_node fuel t) (size t) p) (walk_init (left_most t)) outs' fin' /\
    Forall2 (same_segment (next_node fuel t) (entry t)
               (fun xs => exists st, drains (iter_next fuel t) (left_most t) xs st)) outs outs') /\
  (forall l, linked (hp t) l -> next fuel (hp t) l = Ok (next_node fuel t l)).
Proof.
  intros K V kzero vzero comp Hc Hu os fuel p n HA Hf.
  destruct (sinv_run kzero vzero comp Hc Hu _ os [] _ Leaf [] fuel (fun m o H => proj1 H) (sinv_new kzero vzero comp) HA ltac:(simpl; lia))
    as (rs & t & bt & m & own & H1 & H2 & HI & HL & _).
  specialize (HL ltac:(by intros []) (fun m o H => proj2 H)). pose proof HI as [I E HS Hz _].
  exists rs, t, m. split; [done|]. split; [done|].
  assert (Hlen : length m <= length os).
  { exact (map_run_len vzero comp [] os rs m H2). }
  pose proof (height_locs bt) as Hh. assert (Hl2 : length (locs bt) = length m) by (rewrite <- E; unfold locs, entries; by rewrite !fmap_length).
  split.
  - intros HN. rewrite <- E. apply (rb_split kzero own t bt fuel p I ltac:(lia) HL); [|by rewrite E].
    intros G. apply HN. apply locs_nil in G. congruence.
  - intros l Hl. apply (linked_locs _ _ (i_tree _ _ _ _ I)) in Hl. apply focus_loc in Hl as (C & c & k & v & a & b & ->).
    unfold next_node. by rewrite (next_ok (hp t) C c l k v a b fuel (i_tree _ _ _ _ I)) by lia.
Qed.
Print Assumptions C13_rbtree_splits_like_its_slice.

(** C59: with the comparator a - b, Put 1 then Put 3 overwrites *)
Theorem C59_rbtree_needs_unit_comparators :
  exists rs t, run 0%Z Z.sub 20 (new_tree 0 0)%Z [OPut 1 10; OPut 3 30]%Z = Ok (rs, t) /\ rs = [RBool true; RBool false] /\
    get 0%Z Z.sub 20 t 1%Z = Ok 30%Z /\ size t = 1%Z.
Proof. apply ok_ex. by vm_compute. Qed.
Print Assumptions C59_rbtree_needs_unit_comparators.

(** Non-vacuity *)
Example demo_ascending :
  allowed 0%Z Zcomp (fun m o => ascending Zcomp m o /\ keeps_min Zcomp 0%Z m o) []
    [OPut (-3) 1; OPut 2 5; OPut 4 6; OPut 2 7; ODelete 4; ODelete (-3); OPut 9 9; OGet 2; OSize]%Z.
Proof.
  simpl. repeat match goal with
  | |- _ /\ _ => split
  | |- forall _, _ => intro
  | H : _ /\ _ |- _ => destruct H
  | H : exists _, _ |- _ => destruct H
  | |- _ => progress subst
  | |- True => exact I
  end; try (vm_compute in * ; subst; done); try (by left); try (by right; vm_compute; repeat constructor);
  try (by right; left); try (by right; right; vm_compute; repeat constructor).
Qed.

Lemma run_reach {K V} (kzero : K) (vzero : V) comp fuel os : forall own t rs t',
  reach kzero vzero comp own t -> Forall (legal []) os -> run vzero comp fuel t os = Ok (rs, t') ->
  exists own', reach kzero vzero comp own' t'.
Proof.
  induction os as [|o os IH]; intros own t rs t' HR HL; cbn [run]; [intros [= _ <-]; eauto|].
  apply Forall_cons in HL as [Ho HL]. destruct (step vzero comp fuel t o) as [[r t1]| |] eqn:E; cbn [rbind]; try done.
  destruct (run vzero comp fuel t1 os) as [[rs2 t2]| |] eqn:E2; cbn [rbind]; try done. intros [= _ <-].
  eapply IH; [|done|done]. eapply reach_step; [done| |done]. destruct o; try done; exfalso; by apply elem_of_nil in Ho.
Qed.
(** the hypotheses of C36, C37, C39 and C61 are met by the tree after Put 5, Put 7,
    with k = 3, kp = 5, b the node of 7 *)
Example demo_left : exists own t bt b, reach 0%Z 0%Z Zcomp own t /\ is_tree (hp t) bt /\ sorted Zcomp (entries bt) /\
  ends_left Zcomp 3%Z bt 5%Z 50%Z b /\ entries b = [(7, 70)]%Z.
Proof.
  assert (G : exists rs t, run 0%Z Zcomp 20 (new_tree 0 0)%Z [OPut 5 50; OPut 7 70]%Z = Ok (rs, t) /\
    parent (hp t 0) = Some 16 /\ hp t 16 = Node Black None None (Some 15) 5%Z 50%Z /\ hp t 15 = Node Red (Some 16) None None 7%Z 70%Z)
    by (apply ok_ex; by vm_compute).
  destruct G as (rs & t & H1 & H2 & H3 & H4).
  eapply run_reach in H1 as [own HR]; [|apply (reach_new 0%Z)|by repeat constructor].
  exists own, t, (T Black 16 5%Z 50%Z Leaf (T Red 15 7%Z 70%Z Leaf Leaf)), (T Red 15 7%Z 70%Z Leaf Leaf). split; [done|].
  split; [split; [done|split; [done|]]|split].
  - simpl. repeat constructor; set_solver.
  - repeat constructor.
  - split; [by constructor|done].
Qed.
