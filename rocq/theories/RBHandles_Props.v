(** C67, red-black tree: nodes (and the entries inside them, to which Iter
    hands out pointers: redblacktree.go:149-161) while the tree changes. *)
From Verif Require Import Base Iter_Model Iter_Spec Split_Model WalkSplit_Model WalkSplit_Spec
  RBTree_Model RBTree_Spec RBTree_Proofs RBTree_Proofs2 RBTree_Proofs3 RBTree_Proofs4 RBTree_Proofs5 RBTree_Proofs6
  RBTree_Proofs7 RBTree_Proofs8 RBTree_Proofs9 RBTree_Proofs10 RBTree_Proofs11.

Local Lemma ok_ex {A B : Type} (r : res (A * B)) (P : A -> B -> Prop) :
  match r with Ok (x, y) => P x y | _ => False end -> exists x y, r = Ok (x, y) /\ P x y.
Proof. destruct r as [[x y]| |]; [eauto|done|done]. Qed.
Local Lemma io_fst {K V} (bt : btree K V) l : l ∈ locs bt -> exists kv, (l, kv) ∈ io bt.
Proof. intros ([l' kv] & -> & H)%elem_of_list_fmap. by exists kv. Qed.
Local Lemma io_in {K V} (bt : btree K V) l kv : (l, kv) ∈ io bt -> l ∈ locs bt.
Proof. intros H. apply elem_of_list_fmap. by exists (l, kv). Qed.
Local Lemma ends_plug {K V} (comp : K -> K -> Z) k (C : list (frame K V)) : Forall (turn comp k) C ->
  forall s kp vp b, ends_left comp k s kp vp b -> ends_left comp k (plug C s) kp vp b.
Proof.
  induction 1 as [|f C Hf _ IH]; intros s kp vp b Hs; [done|]. destruct f; simpl in *; apply IH; by constructor.
Qed.

Local Ltac inl := repeat first [rewrite elem_of_app in * | rewrite elem_of_cons in * | rewrite elem_of_nil in *]; tauto.

(** An iterator holds the node it will yield next.  Whatever happened to the
    tree, if that node is still linked the iterator yields the entries from there on,
    as they are now. *)
Theorem C67_tree_iterator_from_a_node :
  forall (K V : Type) (kzero : K) (vzero : V) (comp : K -> K -> Z) own (t : tree K V) bt l X Y fuel,
  reach kzero vzero comp own t -> is_tree (hp t) bt -> length (locs bt) <= fuel -> locs bt = X ++ l :: Y ->
  drains (iter_next fuel t) (Some l) (entry t <$> l :: Y) None /\ entries bt = entry t <$> locs bt.
Proof.
  intros K V kzero vzero comp own t bt l X Y fuel HR HT Hf E. destruct (reach_inv kzero vzero comp own t HR) as [bt2 I].
  assert (bt2 = bt) as -> by (by apply (tree_unique (hp t)); [apply (i_tree _ _ _ _ I)|]).
  pose proof (height_locs bt) as Hh.
  assert (Hsp : exists X' Y', io bt = X' ++ Y' /\ Y'.*1 = l :: Y).
  { exists (take (length X) (io bt)), (drop (length X) (io bt)). split; [by rewrite take_drop|].
    rewrite fmap_drop. unfold locs in E. rewrite E. by rewrite drop_app. }
  destruct Hsp as (X' & Y' & EX & EY).
  destruct (rb_path kzero own t bt fuel I ltac:(lia) Y' X' EX) as [_ P].
  destruct (rb_path kzero own t bt fuel I ltac:(lia) (io bt) [] eq_refl) as [_ P0].
  split; [|done]. exists None. split; [|done].
  pose proof (iter_pulls kzero own t bt fuel I ltac:(lia) Y' X' EX) as G. by rewrite <- P, EY in G.
Qed.
Print Assumptions C67_tree_iterator_from_a_node.

Local Fixpoint stop {K V} (comp : K -> K -> Z) (k : K) (bt : btree K V) : option loc :=
  match bt with
  | Leaf => None
  | T _ l k' _ a b => if decide (comp k k' = -1)%Z then stop comp k a else if decide (comp k k' = 1)%Z then stop comp k b else Some l
  end.
Local Lemma stop_plug {K V} (comp : K -> K -> Z) k (C : list (frame K V)) : Forall (turn comp k) C -> forall s, stop comp k (plug C s) = stop comp k s.
Proof.
  induction 1 as [|f C Hf _ IH]; intros s; [done|]. destruct f; simpl in *; rewrite IH; simpl; rewrite Hf; [by rewrite decide_True|].
  rewrite decide_False by done. by rewrite decide_True.
Qed.
Local Lemma find_stop {K V} kzero (comp : K -> K -> Z) own (t : tree K V) bt k fuel : inv kzero own t bt -> height bt < fuel ->
  find comp fuel t k = Ok (stop comp k bt).
Proof.
  intros I Hf. destruct (find_ok kzero comp own t bt k fuel I Hf) as [(C & c & l & k' & v & a & b & -> & HC & N1 & N2 & -> & _)|(C & -> & HC & ->)];
    rewrite (stop_plug comp k C HC); simpl; [|done]. by rewrite !decide_False.
Qed.

(** Put leaves every node in place with its entry, except that it overwrites
    the value of the node found, and that it drops the right subtree of the node to
    whose left the key belongs (see C37). *)
Theorem C67_tree_nodes_and_put :
  forall (K V : Type) (kzero : K) (vzero : V) (comp : K -> K -> Z) own (t t' : tree K V) bt k v b fuel,
  reach kzero vzero comp own t -> is_tree (hp t) bt -> length (locs bt) + 2 <= fuel ->
  put comp fuel t k v = Ok (b, t') ->
  exists f, find comp fuel t k = Ok f /\ (b = true <-> f = None) /\
  forall l, linked (hp t) l ->
  (linked (hp t') l /\ entry t' l = if decide (f = Some l) then ((entry t l).1, v) else entry t l) \/
  (exists kp vp s, ends_left comp k bt kp vp s /\ l ∈ locs s /\ ~ linked (hp t') l).
Proof.
  intros K V kzero vzero comp own t t' bt k v b fuel HR HT Hf E. destruct (reach_inv kzero vzero comp own t HR) as [bt2 I].
  assert (bt2 = bt) as -> by (by apply (tree_unique (hp t)); [apply (i_tree _ _ _ _ I)|]).
  pose proof (height_locs bt) as Hh.
  pose proof HT as (_ & _ & ND). apply NoDup_cons in ND as [_ ND].
  exists (stop comp k bt). split; [apply (find_stop kzero comp own); [done|lia]|].
  destruct (put_ok kzero comp own t bt k v fuel I ltac:(lia)) as [P|P].
  - destruct P as (C & c & l0 & k' & v' & a & b0 & t2 & Eb & HC & N1 & N2 & E2 & I' & _ & _).
    rewrite E in E2. injection E2 as -> <-. assert (ES : stop comp k bt = Some l0).
    { rewrite Eb, (stop_plug comp k C HC). simpl. by rewrite !decide_False. }
    rewrite ES. split; [by split|]. intros l Hl. left. apply (linked_locs _ _ HT) in Hl.
    assert (Hio : io bt = (iol C ++ io a) ++ (l0, (k', v')) :: io b0 ++ ior C) by (rewrite Eb, io_plug; simpl; by rewrite <- !app_assoc).
    assert (Hio' : io (plug C (T c l0 k' v a b0)) = (iol C ++ io a) ++ (l0, (k', v)) :: io b0 ++ ior C) by (rewrite io_plug; simpl; by rewrite <- !app_assoc).
    assert (Hloc : locs (plug C (T c l0 k' v a b0)) = locs bt) by (unfold locs; rewrite Hio, Hio'; by rewrite !fmap_app).
    split; [apply (linked_locs _ _ (i_tree _ _ _ _ I')); by rewrite Hloc|].
    apply io_fst in Hl as [kv Hkv]. rewrite (inv_entry kzero own t bt l kv I Hkv).
    rewrite Hio in Hkv. case_decide as D.
    + injection D as <-. apply (inv_entry kzero own t' _ _ _ I'). rewrite Hio'.
      assert (kv = (k', v')) as ->; [|inl].
      assert (G : (l0, kv) = (l0, (k', v'))); [|congruence].
      unfold locs in ND. rewrite Hio in ND. rewrite fmap_app, fmap_cons in ND. apply NoDup_app in ND as (_ & N3 & N4). apply NoDup_cons in N4 as [N4 _].
      apply elem_of_app in Hkv as [Hk|[Hk|Hk]%elem_of_cons]; [exfalso|done|exfalso].
      * apply (N3 l0); [apply elem_of_list_fmap; by exists (l0, kv)|inl].
      * apply N4. apply elem_of_list_fmap. by exists (l0, kv).
    + apply (inv_entry kzero own t' _ _ _ I'). rewrite Hio'.
      apply elem_of_app in Hkv as [Hk|[Hk|Hk]%elem_of_cons]; [inl| |inl]. congruence.
  - destruct P as (C & n & t2 & bt' & Eb & HC & E2 & I' & _ & Hio' & Hn & _).
    rewrite E in E2. injection E2 as -> <-. assert (ES : stop comp k bt = None) by (by rewrite Eb, (stop_plug comp k C HC)).
    rewrite ES. split; [by split|]. intros l Hl. apply (linked_locs _ _ HT) in Hl. rewrite decide_False by done.
    pose proof Hl as [kv Hkv]%io_fst. rewrite (inv_entry kzero own t bt l kv I Hkv).
    assert (Hok : (l, kv) ∈ io bt' -> linked (hp t') l /\ entry t' l = kv).
    { intros G. split; [|by apply (inv_entry kzero own t' bt')]. apply (linked_locs _ _ (i_tree _ _ _ _ I')). by eapply io_in. }
    assert (Hio : io bt = iol C ++ ior C) by (by rewrite Eb, io_plug).
    destruct C as [|[c p kp vp s|c p kp vp s] C]; simpl in *.
    + rewrite Hio in Hkv. inl.
    + rewrite Hio in Hkv. destruct (decide (l ∈ locs s)) as [Hs|Hs].
      * right. exists kp, vp, s. apply Forall_cons in HC as [HC1 HC]. split; [|split; [done|]].
        { rewrite Eb. apply (ends_plug comp k C HC). by constructor. }
        rewrite (linked_locs _ _ (i_tree _ _ _ _ I')). intros G. unfold locs in G, ND. rewrite Hio' in G. rewrite Hio in ND.
        rewrite !fmap_app, !fmap_cons, fmap_app in ND. rewrite fmap_app, !fmap_cons in G. cbn [fst] in *.
        apply NoDup_app in ND as (_ & N1 & N2). apply NoDup_cons in N2 as [N2 N3]. apply NoDup_app in N3 as (_ & N3 & _).
        fold (locs s) in *. assert (l <> n) by (intros ->; done).
        apply elem_of_app in G as [G|[G|[G|G]%elem_of_cons]%elem_of_cons].
        -- apply (N1 l G). inl.
        -- subst. inl.
        -- done.
        -- by apply (N3 l Hs).
      * left. apply Hok. rewrite Hio'.
        apply elem_of_app in Hkv as [Hk|[Hk|Hk]%elem_of_cons]; [inl|inl|].
        apply elem_of_app in Hk as [Hk|Hk]; [|inl]. exfalso. apply Hs. by eapply io_in.
    + left. apply Hok. rewrite Hio'. rewrite Hio in Hkv. inl.
Qed.
Print Assumptions C67_tree_nodes_and_put.

(** Delete: every node but the one it returns stays linked; the node found, if it
    is not the one returned, takes over the entry of the one returned, all other
    nodes keep theirs *)
Theorem C67_tree_nodes_and_delete :
  forall (K V : Type) (kzero : K) (vzero : V) (comp : K -> K -> Z) own (t t' : tree K V) bt k r fuel,
  reach kzero vzero comp own t -> is_tree (hp t) bt -> length (locs bt) + 2 <= fuel ->
  delete comp fuel t k = Ok (Some r, t') ->
  exists f, find comp fuel t k = Ok (Some f) /\ ~ linked (hp t') r /\
  forall l, linked (hp t) l -> l <> r -> linked (hp t') l /\ entry t' l = if decide (l = f) then entry t r else entry t l.
Proof.
  intros K V kzero vzero comp own t t' bt k r fuel HR HT Hf E. destruct (reach_inv kzero vzero comp own t HR) as [bt2 I].
  assert (bt2 = bt) as -> by (by apply (tree_unique (hp t)); [apply (i_tree _ _ _ _ I)|]).
  pose proof (height_locs bt) as Hh.
  destruct (delete_ok kzero comp own t bt k fuel I ltac:(lia)) as [(C & _ & _ & E2)|(C & c & l & k' & v & a & b & Eb & _ & _ & _ & EF & Ek & HD)]; [congruence|].
  destruct HD as [[_ E2]|[_ (r2 & t2 & E2 & HRm)]]; [congruence|]. rewrite E in E2. injection E2 as <- <-.
  destruct HRm as (bt' & I' & Hio' & _ & Hr & _). exists l. split; [done|].
  split.
  { rewrite (linked_locs _ _ (i_tree _ _ _ _ I')). pose proof (pool_nodup kzero comp _ _ (i_pool _ _ _ _ I')) as ND.
    apply NoDup_cons in ND as [_ ND]. apply NoDup_app in ND as (_ & ND & _). intros G. apply (ND r G). by left. }
  intros x Hx Hxr. apply (linked_locs _ _ HT) in Hx. apply io_fst in Hx as [kv Hkv].
  assert (Hio : io bt = (iol C ++ io a) ++ (l, (k', v)) :: io b ++ ior C) by (rewrite Eb, io_plug; simpl; by rewrite <- !app_assoc).
  assert (Hok : forall kw, (x, kw) ∈ io bt' -> linked (hp t') x /\ entry t' x = kw).
  { intros kw G. split; [|by apply (inv_entry kzero (r :: own) t' bt')]. apply (linked_locs _ _ (i_tree _ _ _ _ I')). by eapply io_in. }
  pose proof (inv_entry kzero own t bt x kv I Hkv) as Ex. rewrite Hio in Hkv.
  destruct Hio' as [[-> Hio']|(kw & B' & _ & Hrl & EB & Hio')].
  - rewrite decide_False by done. apply Hok. rewrite Ex, Hio'.
    apply elem_of_app in Hkv as [Hk|[Hk|Hk]%elem_of_cons]; [inl|congruence|inl].
  - rewrite EB in Hkv, Hio. case_decide as D.
    + subst x. apply Hok. rewrite (inv_entry kzero own t bt r kw I) by (rewrite Hio; inl). rewrite Hio'. inl.
    + apply Hok. rewrite Ex, Hio'.
      apply elem_of_app in Hkv as [Hk|[Hk|[Hk|Hk]%elem_of_cons]%elem_of_cons]; [inl|congruence|congruence|inl].
Qed.
Print Assumptions C67_tree_nodes_and_delete.


(** Deleting while iterating, on the tree with keys 1, 2, 3.  After two pulls
    the iterator holds the node of 3.  Deleting 2, the key just yielded, moves
    the entry of 3 into another node: the iterator yields 3 twice.  Deleting 3
    itself: the iterator still yields it, and then 2 a second time. *)
Definition pulls_around (ks : list Z) (n : nat) (del : op Z Z) (m : nat) : res (list (option (Z * Z)) * list (option (Z * Z))) :=
  let pulls := fix go k t p := match k with
    | 0 => Ok ([], p)
    | S k => let! (o, p) := iter_next 20 t p in let! (os, p) := go k t p in Ok (o :: os, p)
    end in
  let! (_, t) := run 0%Z Zcomp 20 (new_tree 0 0)%Z ((fun k => OPut k (10 * k)%Z) <$> ks) in
  let! (xs, p) := pulls n t (left_most t) in
  let! (_, t) := run 0%Z Zcomp 20 t [del] in
  let! (ys, _) := pulls m t p in
  Ok (xs, ys).
Theorem C67_tree_iteration_and_deletion_refuted :
  pulls_around [1; 2; 3]%Z 2 (ODelete 2)%Z 3 = Ok ([Some (1, 10); Some (2, 20)], [Some (3, 30); Some (3, 30); None])%Z /\
  pulls_around [1; 2; 3]%Z 2 (ODelete 3)%Z 3 = Ok ([Some (1, 10); Some (2, 20)], [Some (3, 30); Some (2, 20); None])%Z.
Proof. by vm_compute. Qed.
Print Assumptions C67_tree_iteration_and_deletion_refuted.

(** Writing an entry through a node (SetKey, SetValue) or through a pointer got
    from Iter - to a linked node, one held back or one long freed - changes the
    entry of that node and nothing else: the same nodes in the same order,
    still a red-black tree (the result is in [reach] again). *)
Theorem C67_tree_write_through_a_handle :
  forall (K V : Type) (kzero : K) (vzero : V) (comp : K -> K -> Z) own (t : tree K V) bt n k v fuel,
  reach kzero vzero comp own t -> is_tree (hp t) bt -> n <> 0 ->
  exists t' bt', step vzero comp fuel t (OSetNode n k v) = Ok (RUnit, t') /\ reach kzero vzero comp own t' /\
    is_tree (hp t') bt' /\ locs bt' = locs bt /\ size t' = size t /\ left_most t' = left_most t /\ right_most t' = right_most t /\
    (forall l, entry t' l = if decide (l = n) then (k, v) else entry t l) /\
    entries bt' = (fun l => if decide (l = n) then (k, v) else entry t l) <$> locs bt.
Proof.
  intros K V kzero vzero comp own t bt n k v fuel HR HT Hn. destruct (reach_inv kzero vzero comp own t HR) as [bt2 I].
  assert (bt2 = bt) as -> by (by apply (tree_unique (hp t)); [apply (i_tree _ _ _ _ I)|]).
  pose proof (inv_set_node kzero own t bt n k v I Hn) as I'.
  eexists _, (rekey n k v bt). split; [reflexivity|].
  split; [exact (reach_step kzero vzero comp own t 0 (OSetNode n k v) RUnit _ HR Hn eq_refl)|].
  split; [exact (i_tree _ _ _ _ I')|]. split; [apply rekey_locs|]. split; [done|].
  split; [unfold left_most; cbn; by rewrite fn_lookup_insert_ne|]. split; [unfold right_most; cbn; by rewrite fn_lookup_insert_ne|].
  split.
  - intros l. unfold entry. cbn. case_decide as D; [subst l; by rewrite fn_lookup_insert|by rewrite fn_lookup_insert_ne by congruence].
  - unfold entries, locs. rewrite rekey_io, <- !list_fmap_compose. apply list_fmap_ext. intros i [l kv] Hl. simpl. case_decide; [done|].
    symmetry. apply (inv_entry kzero own t bt l kv I). by eapply elem_of_list_lookup_2.
Qed.
Print Assumptions C67_tree_write_through_a_handle.

(** On every reachable tree whose entries are in order - whatever was written
    into its nodes - Has, Get and Put of a present key are those of a map *)
Theorem C67_tree_lookup_while_sorted :
  forall (K V : Type) (kzero : K) (vzero : V) (comp : K -> K -> Z), cmp_ok comp -> cmp_unit comp ->
  forall own (t : tree K V) bt k fuel,
  reach kzero vzero comp own t -> is_tree (hp t) bt -> sorted comp (entries bt) -> length (locs bt) + 2 <= fuel ->
  has comp fuel t k = Ok (mem comp (entries bt) k) /\
  get vzero comp fuel t k = Ok (default vzero (lookup comp (entries bt) k)) /\
  (mem comp (entries bt) k = true -> forall v, exists t' bt', put comp fuel t k v = Ok (false, t') /\ is_tree (hp t') bt' /\
     entries bt' = update comp (entries bt) k v).
Proof.
  intros K V kzero vzero comp Hc Hu own t bt k fuel HR HT HS Hf. destruct (reach_inv kzero vzero comp own t HR) as [bt2 I].
  assert (bt2 = bt) as -> by (by apply (tree_unique (hp t)); [apply (i_tree _ _ _ _ I)|]).
  pose proof (height_locs bt) as Hh.
  assert (G : (exists l v, find comp fuel t k = Ok (Some l) /\ val (hp t l) = v /\ mem comp (entries bt) k = true /\ lookup comp (entries bt) k = Some v) \/
    (find comp fuel t k = Ok None /\ mem comp (entries bt) k = false /\ lookup comp (entries bt) k = None)).
  { destruct (find_ok kzero comp own t bt k fuel I ltac:(lia)) as [(C & c & l & k' & v & a & b & E & HC & N1 & N2 & EF & _ & EV)|(C & E & HC & EF)]; rewrite E in *.
    - left. exists l, v. destruct (split_found comp Hc Hu C c l k k' v a b HS HC N1 N2) as (E0 & Em & _ & _ & DX & DY).
      destruct (present comp _ _ k k' v DX DY E0) as (P1 & P2 & _). rewrite Em. done.
    - right. destruct (split_absent comp Hc C k HS HC) as (_ & _ & _ & D).
      destruct (absent comp _ k D) as (P1 & P2 & _). done. }
  unfold has, get. split; [|split].
  - destruct G as [(l & v & -> & _ & -> & _)|(-> & -> & _)]; done.
  - destruct G as [(l & v & -> & <- & _ & ->)|(-> & _ & ->)]; done.
  - intros Hm v. destruct (put_ok kzero comp own t bt k v fuel I ltac:(lia)) as [P|P].
    + destruct P as (C & c & l0 & k' & v' & a & b0 & t2 & Eb & HC & N1 & N2 & E2 & I' & _ & _). rewrite Eb in HS |- *.
      destruct (split_found comp Hc Hu C c l0 k k' v' a b0 HS HC N1 N2) as (E0 & Em & _ & _ & DX & DY).
      destruct (present comp _ _ k k' v' DX DY E0) as (_ & _ & _ & P4). rewrite Em, P4.
      eexists _, _. split; [done|]. split; [exact (i_tree _ _ _ _ I')|]. unfold entries. rewrite io_plug. simpl.
      repeat (rewrite fmap_app || rewrite fmap_cons). cbn [fst snd]. by rewrite <- ?app_assoc.
    + destruct P as (C & n & t2 & bt' & Eb & HC & E2 & _). rewrite Eb in HS, Hm.
      destruct (split_absent comp Hc C k HS HC) as (_ & _ & _ & D). destruct (absent comp _ k D) as (P1 & _). congruence.
Qed.
Print Assumptions C67_tree_lookup_while_sorted.

(** but a key written out of order is lost to lookups although Iter shows it:
    the nodes of 5 and 7 are 16 and 15 (in order); 9 is written into the first *)
Theorem C67_tree_write_out_of_order_refuted :
  exists rs t, run 0%Z Zcomp 20 (new_tree 0 0)%Z [OPut 5 50; OPut 7 70; OSetNode 16 9 90; OHas 9; OHas 7; OGet 9; OSize]%Z = Ok (rs, t) /\
    rs = [RBool true; RBool true; RUnit; RBool true; RBool false; RVal 90; RInt 2]%Z /\
    (let! (a, p) := iter_next 20 t (left_most t) in let! (b, p) := iter_next 20 t p in Ok (a, b)) = Ok (Some (9, 90), Some (7, 70))%Z.
Proof. apply ok_ex. by vm_compute. Qed.
Print Assumptions C67_tree_write_out_of_order_refuted.

(** Non-vacuity: the tree after Put 5, Put 7 (nodes 16 and 15), a Put 6 in it and a Delete 5 *)
Local Lemma run_reach2 {K V} (kzero : K) (vzero : V) comp fuel os : forall own t rs t',
  reach kzero vzero comp own t -> Forall (legal []) os -> run vzero comp fuel t os = Ok (rs, t') ->
  exists own', reach kzero vzero comp own' t'.
Proof.
  induction os as [|o os IH]; intros own t rs t' HR HL; cbn [run]; [intros [= _ <-]; eauto|].
  apply Forall_cons in HL as [Ho HL]. destruct (step vzero comp fuel t o) as [[r t1]| |] eqn:E; cbn [rbind]; try done.
  destruct (run vzero comp fuel t1 os) as [[rs2 t2]| |] eqn:E2; cbn [rbind]; try done. intros [= _ <-].
  eapply IH; [|done|done]. eapply reach_step; [done| |done]. destruct o; try done; exfalso; by apply elem_of_nil in Ho.
Qed.
Example demo_handles : exists own t bt b t1 r t2, reach 0%Z 0%Z Zcomp own t /\ is_tree (hp t) bt /\ locs bt = [16] ++ 15 :: [] /\
  put Zcomp 20 t 6%Z 60%Z = Ok (b, t1) /\ delete Zcomp 20 t 5%Z = Ok (Some r, t2).
Proof.
  assert (G : exists rs t, run 0%Z Zcomp 20 (new_tree 0 0)%Z [OPut 5 50; OPut 7 70]%Z = Ok (rs, t) /\
    parent (hp t 0) = Some 16 /\ hp t 16 = Node Black None None (Some 15) 5%Z 50%Z /\ hp t 15 = Node Red (Some 16) None None 7%Z 70%Z /\
    match put Zcomp 20 t 6%Z 60%Z with Ok _ => True | _ => False end /\
    match delete Zcomp 20 t 5%Z with Ok (Some _, _) => True | _ => False end)
    by (apply ok_ex; by vm_compute).
  destruct G as (rs & t & H1 & H2 & H3 & H4 & H5 & H6).
  eapply run_reach2 in H1 as [own HR]; [|apply (reach_new 0%Z)|by repeat constructor].
  destruct (put Zcomp 20 t 6%Z 60%Z) as [[b t1]| |] eqn:E1; [|done|done].
  destruct (delete Zcomp 20 t 5%Z) as [[[r|] t2]| |] eqn:E2; [|done..].
  exists own, t, (T Black 16 5%Z 50%Z Leaf (T Red 15 7%Z 70%Z Leaf Leaf)), b, t1, r, t2. splits; try done.
  split; [done|]. split; [done|]. apply (bool_decide_unpack (NoDup [0; 16; 15])). by vm_compute.
Qed.
