(** Property theorems for C80: what a container keeps reachable. *)
From stdpp Require Import functions gmap.
From Verif Require Import Base.
From Verif Require PQ_Model PQ_Spec.
From Verif Require Queue_Model Queue_Spec Queue_Proofs.
From Verif Require LinkedList_Model LinkedList_Spec LinkedList_Proofs LinkedList_Proofs2 LinkedList_Proofs3 LinkedList_Proofs4.
From Verif Require SkipList_Model SkipList_Spec SkipList_Proofs SkipList_Proofs4.
From Verif Require RBTree_Model RBTree_Spec.
From Verif Require BPlus_Model BPlus_Spec.
From Verif Require Slice_Model Slice_Spec.
From Verif Require Import Keep_Spec Keep_Proofs Keep_Proofs2 Keep_Proofs3 Keep_Proofs4 Keep_Proofs5 Keep_Proofs6.

(** C80, priority queue, any comparator, any history: the slots of the slice behind
    the elements hold what was popped, most recent first, except where a later Push
    took the slot over; Pop lets go of nothing *)
Theorem C80_priority_queue_keeps_what_it_popped :
  forall (T : Type) (zero : T) (comp : T -> T -> Z) (size : Z) (sizes : list Z) (os : list PQ_Model.op),
  exists q0 rs q,
  PQ_Model.q_new zero (size :: sizes) = Ok q0 /\ PQ_Model.q_run zero comp q0 os = Ok (rs, q) /\
  PQ_Model.elements q =
    take (PQ_Model.qsize q) (PQ_Model.elements q) ++ left_behind (replicate 8 zero) os rs.
Proof.
  intros T zero comp size sizes os. eexists. destruct (run_left zero comp os (PQ_Model.Queue (replicate 8 zero) 0)) as (rs & q & E & _ & D).
  { unfold roomy. cbn. lia. }
  exists rs, q. split; [reflexivity|]. split; [exact E|]. cbn in D |- *. rewrite <- D. by rewrite take_drop.
Qed.
Print Assumptions C80_priority_queue_keeps_what_it_popped.

(** C80, linked queue: from the queue one gets to exactly the nodes of its elements *)
Theorem C80_queue_keeps_only_its_elements :
  forall (T : Type) (os : list (Queue_Model.op T)),
  exists rs q (s : list T) (ns : list nat),
  Queue_Model.run os Queue_Model.new = Ok (rs, q) /\ Queue_Spec.fifo_run [] os rs s /\
  NoDup ns /\ length ns = length s /\
  (forall i n, ns !! i = Some n -> Queue_Model.nval <$> Queue_Model.heap q !! n = s !! i) /\
  forall n, kept (queue_root q) (queue_edge q) n <-> n ∈ ns.
Proof.
  intros T os. destruct (Queue_Proofs.run_ok Queue_Model.new [] os Queue_Proofs.rep_new) as (rs & q & ls & E & H & F).
  exists rs, q, ls.*2, ls.*1. split; [done|]. split; [done|]. split; [apply H|]. split; [by rewrite !fmap_length|].
  split; [|by apply queue_kept]. intros i n Hi. rewrite (list_lookup_fmap fst ls i) in Hi. rewrite (list_lookup_fmap snd ls i).
  destruct (ls !! i) as [[n' v]|] eqn:El; [|done]. cbn in Hi. injection Hi as <-.
  apply elem_of_list_lookup_2 in El. destruct (Queue_Proofs.chain_in _ _ _ _ _ (Queue_Proofs.rep_chain _ _ H) El) as [o ->]. done.
Qed.
Print Assumptions C80_queue_keeps_only_its_elements.

(** C80, linked queue: a node handed out by PopNode keeps every node that was behind
    it, for as long as the caller holds it -- also those popped in the meantime *)
Theorem C80_popped_node_keeps_those_behind_it :
  forall (T : Type) (os1 os2 : list (Queue_Model.op T)) rs1 q1 rs2 q2 n q,
  Queue_Model.run os1 Queue_Model.new = Ok (rs1, q) ->
  Queue_Model.pop_node q = Ok (Some n, q1) -> Queue_Model.run os2 q1 = Ok (rs2, q2) ->
  forall m, kept (queue_root q) (queue_edge q) m -> kept (eq n) (queue_edge q2) m.
Proof.
  intros T os1 os2 rs1 q1 rs2 q2 n q E1 E2 E3 m Hm.
  destruct (Queue_Proofs.run_ok Queue_Model.new [] os1 Queue_Proofs.rep_new) as (rs & q' & ls & E & H & _).
  rewrite E1 in E. injection E as <- <-. apply (queue_kept _ _ H) in Hm.
  destruct ls as [|[n0 v] ls]; [by apply elem_of_nil in Hm|].
  destruct (Queue_Proofs.rep_pop_node _ _ _ _ H) as (q' & E & H1 & Hn & Hh). rewrite E2 in E. injection E as -> ->.
  apply (kept_mono (eq n0) (eq n0) (queue_edge q')); [done|by eapply (run_edges os2)|].
  apply (popped_kept q' n0 v ls); [|done]. split; [done|]. eexists. split; [exact Hh|].
  destruct H1 as [_ Hc _ _ _ _]. destruct ls as [|[n1 v1] ls]; [done|]. cbn in Hc |- *. destruct Hc as [_ Hc]. by split.
Qed.
Print Assumptions C80_popped_node_keeps_those_behind_it.

(** C80, linked list: from a list in use one gets to exactly its elements (and the
    list itself, to which they refer) *)
Theorem C80_list_keeps_only_its_elements :
  forall (T : Type) (zero : T) (os : list (LinkedList_Model.op T)) rs s l,
  LinkedList_Spec.spec_execs zero LinkedList_Spec.lists0 os rs s -> LinkedList_Spec.ready s l = true ->
  let m := (LinkedList_Model.execs zero LinkedList_Model.mem0 os).1 in
  forall x, kept (eq (LinkedList_Model.Root l)) (list_edge m) x <->
    x = LinkedList_Model.Root l \/ exists e, e ∈ LinkedList_Spec.elems s l /\ x = LinkedList_Model.Elt e.
Proof.
  intros T zero os rs s l H Hr m. destruct (LinkedList_Proofs4.refine_execs zero os _ _ rs s LinkedList_Proofs2.inv_init H) as [I _].
  apply list_kept; [by apply (LinkedList_Proofs2.I_ready _ _ I)|].
  intros e He. apply (LinkedList_Proofs2.I_own _ _ I). by left.
Qed.
Print Assumptions C80_list_keeps_only_its_elements.

(** C80: an element that was removed refers to nothing, whoever still holds it *)
Theorem C80_removed_element_keeps_nothing :
  forall (T : Type) (zero : T) (os : list (LinkedList_Model.op T)) rs s l e,
  LinkedList_Spec.spec_execs zero LinkedList_Spec.lists0 os rs s -> e ∈ LinkedList_Spec.elems s l ->
  let m := (LinkedList_Model.execs zero LinkedList_Model.mem0 (os ++ [LinkedList_Model.Remove l e])).1 in
  (forall x, kept (eq (LinkedList_Model.Elt e)) (list_edge m) x <-> x = LinkedList_Model.Elt e) /\
  ~ kept (eq (LinkedList_Model.Root l)) (list_edge m) (LinkedList_Model.Elt e).
Proof.
  intros T zero os rs s l e H He m.
  destruct (LinkedList_Proofs4.refine_execs zero os _ _ rs s LinkedList_Proofs2.inv_init H) as [I _].
  set (m1 := (LinkedList_Model.execs zero LinkedList_Model.mem0 os).1) in *.
  assert (Em : m = (LinkedList_Model.exec zero m1 (LinkedList_Model.Remove l e)).1).
  { apply execs_snoc. }
  pose proof (proj2 (LinkedList_Proofs2.I_own _ _ I e l) (or_introl He)) as Ho.
  pose proof (LinkedList_Proofs2.inv_is_ready _ _ _ _ I He) as Hrd.
  destruct (LinkedList_Proofs3.refine_step zero m1 s (LinkedList_Model.Remove l e) I) as (s' & [Hs1 Hs2] & I').
  { split; [apply (LinkedList_Proofs2.I_alloc _ _ I e l); by left|]. by rewrite (LinkedList_Proofs2.I_lost _ _ I e l He). }
  rewrite <- Em in I'. rewrite decide_True in Hs2 by done.
  assert (exists m3, LinkedList_Model.remove l e m1 = Ok m3 /\ m = m3) as (m3 & ER & E3).
  { unfold LinkedList_Model.exec, LinkedList_Model.run in Em, Hs1. rewrite decide_True in Em, Hs1 by done.
    destruct (LinkedList_Model.remove l e m1) as [m3| |]; [by exists m3|done..]. }
  split; [rewrite E3; by eapply removed_kept|]. intros Hk.
  assert (Hrd' : LinkedList_Spec.ready s' l = true) by (by rewrite Hs2).
  apply (list_kept m l (LinkedList_Spec.elems s' l)) in Hk; [|by apply (LinkedList_Proofs2.I_ready _ _ I')|
    intros x Hx; apply (LinkedList_Proofs2.I_own _ _ I'); by left].
  destruct Hk as [Hk|(x & Hx & [= <-])]; [done|]. rewrite Hs2 in Hx. cbn in Hx. rewrite fn_lookup_insert in Hx.
  unfold LinkedList_Spec.without in Hx. by apply elem_of_list_filter in Hx as [Hx _].
Qed.
Print Assumptions C80_removed_element_keeps_nothing.

(** C80: Clear keeps every element: they stay reachable from the list until something
    is inserted again *)
Theorem C80_clear_keeps_every_element :
  forall (T : Type) (zero : T) (os : list (LinkedList_Model.op T)) rs s l,
  LinkedList_Spec.spec_execs zero LinkedList_Spec.lists0 os rs s -> LinkedList_Spec.ready s l = true ->
  let m := (LinkedList_Model.execs zero LinkedList_Model.mem0 (os ++ [LinkedList_Model.Clear l])).1 in
  LinkedList_Model.len m l = 0%Z /\
  forall x, kept (eq (LinkedList_Model.Root l)) (list_edge m) x <->
    x = LinkedList_Model.Root l \/ exists e, e ∈ LinkedList_Spec.elems s l /\ x = LinkedList_Model.Elt e.
Proof.
  intros T zero os rs s l H Hr m. destruct (LinkedList_Proofs4.refine_execs zero os _ _ rs s LinkedList_Proofs2.inv_init H) as [I _].
  unfold m. rewrite execs_snoc. cbn. split; [by rewrite fn_lookup_insert|].
  apply cleared_kept; [by apply (LinkedList_Proofs2.I_ready _ _ I)|].
  intros e He. apply (LinkedList_Proofs2.I_own _ _ I). by left.
Qed.
Print Assumptions C80_clear_keeps_every_element.

(** C80, skip list: from the list one gets to exactly the header and one node for each
    entry, after any history of calls *)
Theorem C80_skip_list_keeps_only_its_entries :
  forall (K V : Type) (kzero : K) (vzero : V) (comp : K -> K -> Z) (os : list (SkipList_Model.op K V)) fuel,
  length os < fuel ->
  exists rs s ns (es : list (K * V)),
  SkipList_Model.run kzero vzero comp fuel (SkipList_Model.new_list kzero vzero) os = Ok (rs, s) /\
  SkipList_Spec.seq_run comp [] os rs es /\ NoDup (SkipList_Model.hdr s :: ns) /\
  es = (fun l => (SkipList_Model.key (SkipList_Model.hp s l), SkipList_Model.val (SkipList_Model.hp s l))) <$> ns /\
  forall l, kept (skip_root s) (skip_edge s) l <-> l = SkipList_Model.hdr s \/ l ∈ ns.
Proof.
  intros K V kzero vzero comp os fuel Hf.
  destruct (SkipList_Proofs4.run_new comp kzero vzero os fuel Hf) as (rs & s & ns & E & HR & _ & _ & HS).
  exists rs, s, ns, (SkipList_Proofs.ents s ns). split; [done|]. split; [done|]. split; [apply HR|]. split; [done|].
  by apply skip_kept.
Qed.
Print Assumptions C80_skip_list_keeps_only_its_entries.

(** C80, red-black tree: the node DeleteKeys takes out keeps its key and value, and
    stays in the tree's pool (unless the pool's free list is full: 16 nodes) *)
Theorem C80_tree_keeps_deleted_entries :
  forall (K V : Type) (kzero : K) (vzero : V) (comp : K -> K -> Z) own (t t' : RBTree_Model.tree K V) bt k fuel,
  RBTree_Spec.reach kzero vzero comp own t -> RBTree_Spec.is_tree (RBTree_Model.hp t) bt ->
  length (RBTree_Spec.locs bt) + 2 <= fuel ->
  RBTree_Model.delete_keys comp fuel t [k] = Ok (1%Z, t') ->
  exists l n, RBTree_Model.find comp fuel t k = Ok (Some l) /\
    (n = l \/ RBTree_Model.next fuel (RBTree_Model.hp t) l = Ok (Some n)) /\
    ~ RBTree_Spec.linked (RBTree_Model.hp t') n /\ RBTree_Model.entry t' n = RBTree_Model.entry t n /\
    ((exists ls, RBTree_Spec.pooled t' (n :: ls)) \/ RBTree_Model.lsize (RBTree_Model.buf t') = 16).
Proof. exact @freed_kept. Qed.
Print Assumptions C80_tree_keeps_deleted_entries.

(** C80, slices: Delete leaves the cells behind the result as they were, in the same
    array, so the last elements of the old slice stay there, also when they are among
    the deleted ones: the old slice reads the result and then those *)
Theorem C80_slice_delete_keeps_the_last_cells :
  forall (T : Type) (zero : T) (growcap : nat -> nat -> nat) (m : Slice_Model.mem T) (s : Slice_Model.slice) (i j : Z),
  Slice_Spec.wf m s -> (0 <= i <= j /\ j <= Z.of_nat (Slice_Model.len s))%Z ->
  exists s' m', Slice_Model.delete zero growcap m s i j = Ok (s', m') /\
    Slice_Model.arr s' = Slice_Model.arr s /\ Slice_Model.off s' = Slice_Model.off s /\
    Slice_Model.cap s' = Slice_Model.cap s /\ Slice_Model.len s' + Z.to_nat (j - i) = Slice_Model.len s /\
    Slice_Spec.wf m' s /\
    Slice_Model.contents m' s =
      (take (Z.to_nat i) (Slice_Model.contents m s) ++ drop (Z.to_nat j) (Slice_Model.contents m s))
      ++ drop (Slice_Model.len s') (Slice_Model.contents m s).
Proof. exact @delete_tail. Qed.
Print Assumptions C80_slice_delete_keeps_the_last_cells.

(** C80, B+ tree: it does not forget what Delete took out: three entries put in and
    deleted again, and an empty tree whose root still holds the entry deleted first in
    every slot *)
Theorem C80_bplus_forgets_deleted_entries_refuted :
  ~ (forall (os : list (@BPlus_Spec.op Z Z)) t rs k v (l : nat),
     BPlus_Spec.run_new 0%Z 0%Z Zcomp Zcomp 2 os = Ok (t, rs) -> BPlus_Model.size t = 0%Z ->
     BPlus_Model.root t = Some l -> (k, v) ∈ BPlus_Model.vals (BPlus_Model.hp t l) -> (k, v) = (0, 0)%Z).
Proof.
  intros H. set (os := [BPlus_Spec.InsertEqual 1 10; BPlus_Spec.InsertEqual 3 30; BPlus_Spec.InsertEqual 5 50;
    BPlus_Spec.Delete 5; BPlus_Spec.Delete 3; BPlus_Spec.Delete 1]%Z : list (@BPlus_Spec.op Z Z)).
  destruct (BPlus_Spec.run_new 0%Z 0%Z Zcomp Zcomp 2 os) as [[t rs]| |] eqn:E; [|by vm_compute in E|by vm_compute in E].
  assert (E' := E). vm_compute in E'. injection E' as Et Er.
  assert (F : (5%Z, 50%Z) = (0%Z, 0%Z)); [|done].
  apply (H os t rs 5%Z 50%Z 0%nat E); rewrite <- Et; cbn; [done|done|].
  apply elem_of_list_In. cbn. tauto.
Qed.
Print Assumptions C80_bplus_forgets_deleted_entries_refuted.

(** Satisfiability. *)

(** pushing 3, 1, 2 and popping once leaves the popped 1 behind the two elements;
    the next Push takes its slot *)
Example C80_queue_left : 
  left_behind (replicate 2 0) [PQ_Model.Push 3; PQ_Model.Push 1; PQ_Model.Push 2; PQ_Model.Pop]
    [PQ_Model.OBool true; PQ_Model.OBool true; PQ_Model.OBool true; PQ_Model.OVal 1 true] = [1].
Proof. reflexivity. Qed.
Example C80_pq_run :
  exists rs q, PQ_Model.q_run 0%Z Zcomp (PQ_Model.Queue (replicate 8 0%Z) 0)
    [PQ_Model.Push 3; PQ_Model.Push 1; PQ_Model.Push 2; PQ_Model.Pop]%Z = Ok (rs, q) /\
    PQ_Model.qsize q = 2 /\ PQ_Model.elements q = [2; 3; 1; 0; 0; 0; 0; 0]%Z /\
    left_behind (replicate 8 0%Z) [PQ_Model.Push 3; PQ_Model.Push 1; PQ_Model.Push 2; PQ_Model.Pop]%Z rs = [1; 0; 0; 0; 0; 0]%Z.
Proof. eexists _, _. split; [by vm_compute|]. done. Qed.
(** two elements, Clear: both still reachable *)
Example C80_clear_history :
  exists rs s, LinkedList_Spec.spec_execs 0%Z LinkedList_Spec.lists0
    [LinkedList_Model.PushBack 0 5%Z; LinkedList_Model.PushBack 0 6%Z] rs s /\
    LinkedList_Spec.ready s 0 = true /\ LinkedList_Spec.elems s 0 = [0; 1].
Proof.
  eexists _, _. split.
  - econstructor; [done|split; reflexivity|]. econstructor; [done|split; reflexivity|]. constructor.
  - done.
Qed.
(** a tree whose only entry was deleted still holds its value *)
Example C80_empty_tree_holds_value :
  exists t t', RBTree_Model.run 0%Z Zcomp 9 (RBTree_Model.new_tree 0%Z 0%Z) [RBTree_Model.OPut 7 70]%Z = Ok ([RBTree_Model.RBool true], t) /\
    RBTree_Model.delete_keys Zcomp 9 t [7%Z] = Ok (1%Z, t') /\ RBTree_Model.size t' = 0%Z /\
    exists n, RBTree_Model.flist (RBTree_Model.buf t') = Some n /\ RBTree_Model.entry t' n = (7, 70)%Z.
Proof. eexists _, _. split; [by vm_compute|]. split; [by vm_compute|]. split; [done|]. eexists. by split. Qed.

(** deleting the last two of four: both are still in the array *)
Example C80_slice_delete_ex :
  let m := {[ 0 := [1; 2; 3; 4] ]} : Slice_Model.mem nat in let s := Slice_Model.Sl (Some 0) 0 4 4 in
  Slice_Spec.wf m s /\
  match Slice_Model.delete 0 (fun _ n => n) m s 2 4 with
  | Ok (s', m') => Slice_Model.contents m' s' = [1; 2] /\ Slice_Model.contents m' s = [1; 2; 3; 4]
  | _ => False end.
Proof. split; [|by vm_compute]. split; [done|]. cbn. exists [1; 2; 3; 4]. split; [by vm_compute|cbn; lia]. Qed.
