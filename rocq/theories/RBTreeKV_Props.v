(** C61, the node a caller owns keeps its contents (collections/rbtree/rbtree.go,
    modelled in RBTree_Model.v). *)
From Verif Require Import Base RBTree_Model RBTree_Spec RBTree_Proofs RBTree_Proofs2 RBTree_Proofs3 RBTree_Proofs4 RBTree_Proofs5 RBTree_Proofs6
  RBTree_Proofs7 RBTree_Proofs8 RBTree_Proofs9 RBTree_Proofs10 RBTree_Proofs11 RBTree_Props RBTreeKV_Proofs RBTreeKV_Proofs2.

(** calls made while the caller neither rewrites node [n] nor hands it over with
    PutNode; anything else, rewriting of other nodes included, is allowed *)
Inductive untouched {K V} (vzero : V) (comp : K -> K -> Z) (n : loc) : list loc -> tree K V -> list loc -> tree K V -> Prop :=
| untouched_end own t : untouched vzero comp n own t own t
| untouched_call own t fuel o r t1 own2 t2 :
    legal own o -> (forall k v, o <> OSetNode n k v) -> o <> OPutNode n ->
    step vzero comp fuel t o = Ok (r, t1) ->
    untouched vzero comp n (own_after own o r) t1 own2 t2 -> untouched vzero comp n own t own2 t2.

(** One call: whatever it is, only SetKey/SetValue on the owned node itself
    changes what the node holds; handing it over with PutNode does not. *)
Theorem C61_owned_nodes_keep_their_contents :
  forall (K V : Type) (kzero : K) (vzero : V) (comp : K -> K -> Z) own (t t' : tree K V) n fuel o r,
  reach kzero vzero comp own t -> n ∈ own -> legal own o -> (forall k v, o <> OSetNode n k v) ->
  step vzero comp fuel t o = Ok (r, t') -> entry t' n = entry t n.
Proof. intros K V kzero vzero comp own t t' n fuel o r R Hn HL No E. by eapply (owned_entry kzero). Qed.
Print Assumptions C61_owned_nodes_keep_their_contents.

(** Any number of calls later the node is still the caller's, still outside the
    tree and still holds what it held: Put never reuses it, rebalancing never
    writes it, Delete never hands it out a second time. *)
Theorem C61_owned_until_handed_back :
  forall (K V : Type) (kzero : K) (vzero : V) (comp : K -> K -> Z) own (t : tree K V) n own' t',
  reach kzero vzero comp own t -> n ∈ own -> untouched vzero comp n own t own' t' ->
  n ∈ own' /\ NoDup own' /\ ~ linked (hp t') n /\ entry t' n = entry t n.
Proof.
  intros K V kzero vzero comp own t n own' t' R Hn U. induction U as [own t|own t fuel o r t1 own2 t2 HL N1 N2 Es U IH].
  - split; [done|]. split; [|split; [by apply (not_linked kzero vzero comp own)|done]].
    destruct (C39_pool_disjoint K V kzero vzero comp own t R) as (ls & _ & ND & _). by apply NoDup_app in ND as [ND _].
  - pose proof (reach_step kzero vzero comp own t fuel o r t1 R HL Es) as R1.
    assert (Hn1 : n ∈ own_after own o r).
    { destruct o, r as [[]| | |[]|]; cbn; try done; try (by right). apply elem_of_list_filter. split; [|done]. intros ->. by apply N2. }
    destruct (IH R1 Hn1) as (A & B & C & D). split; [done|]. split; [done|]. split; [done|]. rewrite D.
    by eapply (owned_entry kzero).
Qed.
Print Assumptions C61_owned_until_handed_back.

(** PutNode that answers true links exactly the node handed over, with the key and
    the value it holds; every other node of the tree was there before, with the
    same entry (but nodes can be lost, as in C37). *)
Theorem C61_put_node_links_the_node :
  forall (K V : Type) (kzero : K) (vzero : V) (comp : K -> K -> Z) own (t t' : tree K V) n fuel,
  reach kzero vzero comp own t -> n ∈ own -> put_node comp fuel t n = Ok (true, t') ->
  linked (hp t') n /\ entry t' n = entry t n /\
  forall l, linked (hp t') l -> l = n \/ (linked (hp t) l /\ entry t' l = entry t l).
Proof.
  intros K V kzero vzero comp own t t' n fuel HR Hn E. destruct (reach_inv kzero vzero comp own t HR) as [bt I].
  set (f := fuel `max` (height bt + 2)). assert (E' : put_node comp f t n = Ok (true, t')). { rewrite (put_node_st comp t n fuel f); [done|lia|by rewrite E]. }
  destruct (put_node_ok kzero comp own t bt n f I Hn ltac:(lia)) as [(C & c & l & k' & v' & a & b & t2 & _ & _ & _ & _ & Ep & _)|(C & t2 & bt' & Eb & HC & Ep & I' & Hs & Hio & _)]; rewrite E' in Ep; [done|].
  injection Ep as <-.
  assert (Hin : (n, entry t n) ∈ io bt'). { rewrite Hio. unfold entry. destruct C as [|[] C]; simpl; set_solver. }
  assert (Hent : forall l kv, (l, kv) ∈ io bt' -> entry t' l = kv). { intros l kv Hl. by eapply (inv_entry kzero _ t' bt'). }
  assert (Hn' : n ∈ locs bt') by (apply elem_of_list_fmap; by eexists (_, _)).
  split; [by apply (linked_locs _ _ (i_tree _ _ _ _ I'))|]. split; [by apply Hent|].
  intros l Hl. apply (linked_locs _ _ (i_tree _ _ _ _ I')) in Hl. apply elem_of_list_fmap in Hl as ([l' kv] & -> & Hl). cbn [fst].
  assert (Hl2 : (l', kv) = (n, entry t n) \/ (l', kv) ∈ io bt).
  { rewrite Hio in Hl. rewrite Eb, io_plug. unfold entry. destruct C as [|[] C]; simpl in *; set_solver. }
  destruct Hl2 as [[= -> _]|Hl2]; [by left|right]. split.
  - apply (linked_locs _ _ (i_tree _ _ _ _ I)). apply elem_of_list_fmap. by eexists (_, _).
  - rewrite (Hent l' kv Hl). symmetry. by apply (inv_entry kzero own t bt).
Qed.
Print Assumptions C61_put_node_links_the_node.

(** PutNode that answers false leaves the node handed over outside the tree: it
    stays the caller's, and a node of the tree gets its value instead; the tree has
    the same nodes as before, with the same entries but that one. *)
Theorem C61_put_node_of_a_present_key :
  forall (K V : Type) (kzero : K) (vzero : V) (comp : K -> K -> Z) own (t t' : tree K V) n fuel,
  reach kzero vzero comp own t -> n ∈ own -> put_node comp fuel t n = Ok (false, t') ->
  ~ linked (hp t') n /\ entry t' n = entry t n /\ (forall l, linked (hp t') l <-> linked (hp t) l) /\
  exists l, linked (hp t) l /\ comp (entry t n).1 (entry t l).1 <> (-1)%Z /\ comp (entry t n).1 (entry t l).1 <> 1%Z /\
    entry t' l = ((entry t l).1, (entry t n).2) /\ forall x, linked (hp t) x -> x <> l -> entry t' x = entry t x.
Proof.
  intros K V kzero vzero comp own t t' n fuel HR Hn E. destruct (reach_inv kzero vzero comp own t HR) as [bt I].
  set (f := fuel `max` (height bt + 2)). assert (E' : put_node comp f t n = Ok (false, t')). { rewrite (put_node_st comp t n fuel f); [done|lia|by rewrite E]. }
  destruct (put_node_ok kzero comp own t bt n f I Hn ltac:(lia)) as [(C & c & l & k' & v' & a & b & t2 & Eb & _ & N1 & N2 & Ep & I' & _)|(C & t2 & bt' & Eb & HC & Ep & _)]; rewrite E' in Ep; [|done].
  injection Ep as <-.
  assert (Es : step vzero comp fuel t (OPutNode n) = Ok (RBool false, t')). { cbn [step]. rewrite E. done. }
  assert (El : locs (plug C (T c l k' (val (hp t n)) a b)) = locs bt). { rewrite Eb. unfold locs. rewrite !io_plug. cbn [io]. by rewrite !fmap_app, !fmap_cons. }
  assert (HL : forall x, linked (hp t') x <-> linked (hp t) x). { intros x. rewrite (linked_locs _ _ (i_tree _ _ _ _ I')), (linked_locs _ _ (i_tree _ _ _ _ I)), El. done. }
  assert (Hl : entry t l = (k', v')). { apply (inv_entry kzero own t bt l (k', v') I). rewrite Eb, io_plug. cbn. set_solver. }
  assert (Hl' : entry t' l = (k', val (hp t n))). { eapply (inv_entry kzero own t' _ l); [exact I'|]. rewrite io_plug. cbn. set_solver. }
  split; [rewrite HL; by apply (not_linked kzero vzero comp own)|].
  split; [by eapply (owned_entry kzero vzero comp own t n fuel (OPutNode n))|]. split; [done|].
  exists l. split; [apply (linked_locs _ _ (i_tree _ _ _ _ I)); rewrite Eb; unfold locs; rewrite io_plug, !fmap_app; cbn; rewrite fmap_app; set_solver|].
  rewrite Hl. unfold entry at 1 2. cbn [fst]. split; [done|]. split; [done|]. split; [done|].
  intros x Hx Nx. apply (linked_locs _ _ (i_tree _ _ _ _ I)) in Hx. apply elem_of_list_fmap in Hx as ([x' kv] & -> & Hx). cbn [fst] in *.
  rewrite (inv_entry kzero own t bt x' kv I Hx). eapply (inv_entry kzero own t' _ x'); [exact I'|]. rewrite Eb in Hx. rewrite io_plug in *. cbn in *.
  rewrite !elem_of_app, !elem_of_cons in *. naive_solver.
Qed.
Print Assumptions C61_put_node_of_a_present_key.

(** Without the condition the statement fails: a node handed over belongs to the
    tree, and the next Put of its key rewrites its value. *)
Theorem C61_handed_over_nodes_keep_their_contents_refuted :
  exists n rs t rs' t', run 0%Z Zcomp 20 (new_tree 0 0)%Z [OPut 1 10; OPut 2 20; OPut 3 30; ODelete 3; OPutNode n]%Z = Ok (rs, t) /\
    rs !! 3 = Some (RNode (Some n)) /\ entry t n = (3, 30)%Z /\
    run 0%Z Zcomp 20 t [OPut 3 31]%Z = Ok (rs', t') /\ entry t' n = (3, 31)%Z.
Proof.
  exists 14.
  assert (G : match run 0%Z Zcomp 20 (new_tree 0 0)%Z [OPut 1 10; OPut 2 20; OPut 3 30; ODelete 3; OPutNode 14]%Z with
    | Ok (rs, t) => rs !! 3 = Some (RNode (Some 14)) /\ entry t 14 = (3, 30)%Z /\
        match run 0%Z Zcomp 20 t [OPut 3 31]%Z with Ok (rs', t') => entry t' 14 = (3, 31)%Z | _ => False end
    | _ => False end) by (vm_compute; done).
  destruct (run 0%Z Zcomp 20 (new_tree 0 0)%Z _) as [[rs t]| |]; [|done|done]. destruct G as (A & B & C).
  destruct (run 0%Z Zcomp 20 t _) as [[rs' t']| |] eqn:E; [|done|done]. by exists rs, t, rs', t'.
Qed.
Print Assumptions C61_handed_over_nodes_keep_their_contents_refuted.

(** Non-vacuity.  The caller makes a node and hands it over with a new key, makes
    another with the key now present and hands that over too: PutNode answers true,
    then false; Put 9 and Put 10 leave the second node untouched. *)
Ltac step_of G E := lazymatch type of G with match ?x with _ => _ end => destruct x as [[r t]| |] eqn:E end.
Ltac fin := lazymatch goal with G : False |- _ => destruct G | _ => idtac end.
Example demo_owned : exists own1 t1 n1 t2 own3 t3 n3 t4 own5 t5,
  reach 0%Z 0%Z Zcomp own1 t1 /\ n1 ∈ own1 /\ put_node Zcomp 20 t1 n1 = Ok (true, t2) /\
  reach 0%Z 0%Z Zcomp own3 t3 /\ n3 ∈ own3 /\ put_node Zcomp 20 t3 n3 = Ok (false, t4) /\ entry t4 n1 = (7, 71)%Z /\
  untouched 0%Z Zcomp n3 own3 t3 own5 t5 /\ size t5 = 2%Z.
Proof.
  assert (G : match step 0%Z Zcomp 20 (new_tree 0 0)%Z (ONewNode 7 70)%Z with
    | Ok (RNode (Some n1), t1) => match put_node Zcomp 20 t1 n1 with
      | Ok (true, t2) => match step 0%Z Zcomp 20 t2 (ONewNode 7 71)%Z with
        | Ok (RNode (Some n3), t3) => match put_node Zcomp 20 t3 n3 with
          | Ok (false, t4) => match step 0%Z Zcomp 20 t3 (OPut 9 90)%Z with
             | Ok (RBool true, t5) => match step 0%Z Zcomp 20 t5 (OPut 10 80)%Z with
               | Ok (RBool true, t6) => entry t4 n1 = (7, 71)%Z /\ size t6 = 2%Z | _ => False end
             | _ => False end
          | _ => False end
        | _ => False end
      | _ => False end
    | _ => False end) by (vm_compute; split; reflexivity).
  step_of G E1; [|exact (False_ind _ G)|exact (False_ind _ G)]. destruct r as [| | |[n1|]|]; rename t into t1; fin.
  step_of G E2; [|exact (False_ind _ G)|exact (False_ind _ G)]. destruct r as [|]; rename t into t2; fin.
  step_of G E3; [|exact (False_ind _ G)|exact (False_ind _ G)]. destruct r as [| | |[n3|]|]; rename t into t3; fin.
  step_of G E4; [|exact (False_ind _ G)|exact (False_ind _ G)]. destruct r as [|]; rename t into t4; fin.
  step_of G E5; [|exact (False_ind _ G)|exact (False_ind _ G)]. destruct r as [[|]| | |[?|]|]; rename t into t5; fin.
  step_of G E6; [|exact (False_ind _ G)|exact (False_ind _ G)]. destruct r as [[|]| | |[?|]|]; rename t into t6; fin.
  destruct G as [G1 G2].
  assert (Es : step 0%Z Zcomp 20 t1 (OPutNode n1) = Ok (RBool true, t2)) by (cbn [step]; rewrite E2; reflexivity).
  set (t0 := new_tree 0%Z 0%Z) in E1. assert (R0 : reach 0%Z 0%Z Zcomp [] t0) by constructor. clearbody t0.
  pose proof (reach_step 0%Z 0%Z Zcomp [] t0 20 (ONewNode 7 70)%Z _ t1 R0 Logic.I E1) as R1. cbn [own_after] in R1.
  pose proof (reach_step 0%Z 0%Z Zcomp [n1] t1 20 (OPutNode n1) _ t2 R1 ltac:(left) Es) as R2.
  pose proof (reach_step 0%Z 0%Z Zcomp _ t2 20 (ONewNode 7 71)%Z _ t3 R2 Logic.I E3) as R3.
  set (o3 := own_after _ (ONewNode 7 71)%Z _) in R3.
  exists [n1], t1, n1, t2, o3, t3, n3, t4, o3, t6.
  split; [exact R1|]. split; [left|]. split; [exact E2|]. split; [exact R3|]. split; [left|]. split; [exact E4|]. split; [exact G1|].
  split; [|exact G2].
  refine (untouched_call 0%Z Zcomp n3 o3 t3 20 (OPut 9 90)%Z _ t5 o3 t6 Logic.I ltac:(discriminate) ltac:(discriminate) E5 _).
  refine (untouched_call 0%Z Zcomp n3 o3 t5 20 (OPut 10 80)%Z _ t6 o3 t6 Logic.I ltac:(discriminate) ltac:(discriminate) E6 _).
  constructor.
Qed.
