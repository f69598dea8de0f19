(** Property theorems for collections/linkedlist (C07-C11, C13). *)
From Verif Require Import Base Iter_Model Iter_Spec Split_Model WalkSplit_Model WalkSplit_Spec
  LinkedList_Model LinkedList_Spec LinkedList_Proofs LinkedList_Proofs2 LinkedList_Proofs3 LinkedList_Proofs4.

(** C07: any history of calls, on any number of lists that start as zero
    values, returns exactly what the sequences of the specification return -
    unless at some point a handle that Clear or Init dropped from a list is
    passed back to it (or a handle that does not exist is used). *)
Theorem C07_list_is_a_sequence :
  forall (T : Type) (zero : T) (os : list (op T)),
  (exists s, spec_execs zero lists0 os (execs zero mem0 os).2 s) \/
  (exists os1 o os2 s1 rs1, os = os1 ++ o :: os2 /\ spec_execs zero lists0 os1 rs1 s1 /\
     rs1 = take (length os1) (execs zero mem0 os).2 /\ ~ proper s1 o).
Proof. intros T zero os. exact (refine_history zero os mem0 lists0 inv_init). Qed.
Print Assumptions C07_list_is_a_sequence.

(** C07, the two specification invariants a reader would expect: elements are
    never duplicated, neither within a list nor across lists. *)
Theorem C07_one_place_per_element :
  forall (T : Type) (zero : T) os rs s, spec_execs zero lists0 os rs s ->
  (forall l, NoDup (elems s l)) /\
  (forall l l' e, e ∈ elems s l -> e ∈ elems s l' -> l = l') /\
  (forall l e, e ∈ elems s l -> e < next_id s).
Proof.
  intros T zero os rs s H. destruct (refine_execs zero os mem0 lists0 rs s inv_init H) as [I _].
  splits; intros; [by eapply inv_nodup|by eapply inv_disj|by eapply I_alloc; [|left]].
Qed.
Print Assumptions C07_one_place_per_element.

(** C08: after any proper history, calls given an element that is not in the
    list (foreign or removed) change nothing at all in memory. *)
Theorem C08_foreign_elements_ignored :
  forall (T : Type) (zero : T) os rs s l e v x, spec_execs zero lists0 os rs s ->
  e ∉ elems s l -> lost s e <> Some l ->
  let m := (execs zero mem0 os).1 in
  exec zero m (Remove l e) = (m, Ok (RVal (value_of zero s e))) /\
  exec zero m (InsertBefore l v e) = (m, Ok (RElt None)) /\
  exec zero m (InsertAfter l v e) = (m, Ok (RElt None)) /\
  exec zero m (MoveToFront l e) = (m, Ok RUnit) /\
  exec zero m (MoveToBack l e) = (m, Ok RUnit) /\
  exec zero m (MoveBefore l e x) = (m, Ok RUnit) /\
  exec zero m (MoveBefore l x e) = (m, Ok RUnit) /\
  exec zero m (MoveAfter l e x) = (m, Ok RUnit) /\
  exec zero m (MoveAfter l x e) = (m, Ok RUnit).
Proof.
  intros T zero os rs s l e v x H H1 H2 m. destruct (refine_execs zero os mem0 lists0 rs s inv_init H) as [I _].
  by apply (foreign_ignored zero m s l e v I H1 H2 x).
Qed.
Print Assumptions C08_foreign_elements_ignored.

(** C08: moving an element next to itself, in any memory *)
Theorem C08_self_move_ignored :
  forall (T : Type) (zero : T) (m : mem T) l e,
  exec zero m (MoveBefore l e e) = (m, Ok RUnit) /\ exec zero m (MoveAfter l e e) = (m, Ok RUnit).
Proof. exact @self_move. Qed.
Print Assumptions C08_self_move_ignored.

(** C09: Clear, in any memory whatsoever *)
Theorem C09_clear_and_reuse :
  forall (T : Type) (zero : T) (m : mem T) l v,
  let m1 := (exec zero m (Clear l)).1 in
  (execs zero m1 [Len l; Front l; Back l; ToSlice l]) = (m1, [Ok (RInt 0); Ok (RElt None); Ok (RElt None); Panic]) /\
  (exists m2, execs zero m1 [PushFront l v; ToSlice l; Len l] =
    (m2, [Ok (RElt (Some (Elt (length (vals m))))); Ok (RSlice [v]); Ok (RInt 1)])) /\
  (exists m2, execs zero m1 [PushBack l v; ToSlice l; Len l] =
    (m2, [Ok (RElt (Some (Elt (length (vals m))))); Ok (RSlice [v]); Ok (RInt 1)])).
Proof. exact @clear_then. Qed.
Print Assumptions C09_clear_and_reuse.

(** C09: the same panic on a never-used zero-value list, for ToSlice and for
    the first pull of Iter *)
Theorem C09_zero_value_panics :
  forall (T : Type) (zero : T) os rs s l, spec_execs zero lists0 os rs s -> ready s l = false ->
  let m := (execs zero mem0 os).1 in
  iter_next zero l m (Root l) = Panic /\ exec zero m (ToSlice l) = (m, Panic) /\
  exec zero m (Len l) = (m, Ok (RInt 0)).
Proof.
  intros T zero os rs s l H Hr m. destruct (refine_execs zero os mem0 lists0 rs s inv_init H) as [I _].
  fold m in I. destruct (I_unready _ _ I l Hr) as [E1 E2].
  assert (N : iter_next zero l m (Root l) = Panic) by (unfold iter_next; by rewrite E2).
  splits; [done| |].
  - unfold exec. cbn [run]. unfold to_slice. cbn [collect]. by rewrite N.
  - unfold exec. cbn [run]. by rewrite (I_len _ _ I), E1.
Qed.
Print Assumptions C09_zero_value_panics.

(** C09: a handle dropped by Clear and given back to Remove drives Len to -1,
    whatever list it came from *)
Theorem C09_orphan_makes_len_negative :
  forall (T : Type) (zero : T) os rs s l e, spec_execs zero lists0 os rs s -> e ∈ elems s l ->
  (execs zero (execs zero mem0 os).1 [Clear l; Remove l e; Len l]).2 =
    [Ok RUnit; Ok (RVal (value_of zero s e)); Ok (RInt (-1))].
Proof.
  intros T zero os rs s l e H He. destruct (refine_execs zero os mem0 lists0 rs s inv_init H) as [I _].
  by apply clear_orphan.
Qed.
Print Assumptions C09_orphan_makes_len_negative.

(** C10: the k-th pull is the (k mod (n+1))-th value; exhaustion is the one
    index n of each round *)
Theorem C10_iter_cycles :
  forall (T : Type) (zero : T) os rs s l k, spec_execs zero lists0 os rs s -> ready s l = true ->
  let m := (execs zero mem0 os).1 in
  let n := length (contents zero s l) in
  exec zero m (ToSlice l) = (m, Ok (RSlice (contents zero s l))) /\
  exists outs fin, pulled (iter_next zero l m) (Root l) outs fin /\ length outs = k /\
    forall i, i < k -> outs !! i = Some (contents zero s l !! (i mod (n + 1))).
Proof.
  intros T zero os rs s l k H Hr m n. destruct (refine_execs zero os mem0 lists0 rs s inv_init H) as [I _]. fold m in I.
  split.
  - destruct (refine_step zero m s (ToSlice l) I Logic.I) as (s' & [-> E] & _). rewrite Hr in E.
    unfold exec in *. cbn [run] in *. destruct (to_slice zero l m); cbn [rbind snd] in *; by inversion E.
  - destruct (iter_cycle zero m s l I Hr k) as (outs & fin & ? & ? & E). exists outs, fin. splits; try done.
    intros i Hi. rewrite E by done. by rewrite Nat.add_1_r.
Qed.
Print Assumptions C10_iter_cycles.

(** C11: copying lists, including onto themselves ([o] may equal [l]) *)
Theorem C11_push_lists :
  forall (T : Type) (zero : T) os rs s l o, spec_execs zero lists0 os rs s ->
  let m := (execs zero mem0 os).1 in
  (exists s' rs', spec_execs zero lists0 (os ++ [PushBackList l o]) rs' s' /\
    contents zero s' l = contents zero s l ++ contents zero s o /\
    (exists fresh_handles, elems s' l = elems s l ++ fresh_handles /\
       Forall (fun h => next_id s <= h) fresh_handles /\ NoDup fresh_handles) /\
    (forall l', l' <> l -> elems s' l' = elems s l' /\ contents zero s' l' = contents zero s l') /\
    (execs zero m [PushBackList l o; ToSlice l]).2 =
      [Ok RUnit; Ok (RSlice (contents zero s l ++ contents zero s o))]) /\
  (exists s' rs', spec_execs zero lists0 (os ++ [PushFrontList l o]) rs' s' /\
    contents zero s' l = contents zero s o ++ contents zero s l /\
    (exists fresh_handles, elems s' l = fresh_handles ++ elems s l /\
       Forall (fun h => next_id s <= h) fresh_handles /\ NoDup fresh_handles) /\
    (forall l', l' <> l -> elems s' l' = elems s l' /\ contents zero s' l' = contents zero s l') /\
    (execs zero m [PushFrontList l o; ToSlice l]).2 =
      [Ok RUnit; Ok (RSlice (contents zero s o ++ contents zero s l))]).
Proof.
  intros T zero os rs s l o H. destruct (refine_execs zero os mem0 lists0 rs s inv_init H) as [I _].
  split; [by apply push_back_list_copies with rs|by apply push_front_list_copies with rs].
Qed.
Print Assumptions C11_push_lists.

(** C13 (linked list): the generator of SplitableIter agrees, pull by pull,
    with the generator of the slice of the list's elements *)
Theorem C13_linkedlist_splits_like_its_slice :
  forall (T : Type) (zero : T) os rs s l p k, spec_execs zero lists0 os rs s -> ready s l = true ->
  let m := (execs zero mem0 os).1 in
  exec zero m (ToSlice l) = (m, Ok (RSlice (contents zero s l))) /\
  exists outs outs' fin fin',
    length outs = k /\
    pulled (split_next (contents zero s l) p) 0 outs fin /\
    pulled (walk_next (elt_next m) (len m l) p) (walk_init (front l m)) outs' fin' /\
    Forall2 (same_segment (elt_next m) (value zero m)
               (fun xs => exists st, drains (iter_next zero l m) (Root l) xs st)) outs outs'.
Proof.
  intros T zero os rs s l p k H Hr m. split; [by eapply (C10_iter_cycles T zero os rs s l k)|].
  destruct (refine_execs zero os mem0 lists0 rs s inv_init H) as [I _]. by apply split_agrees.
Qed.
Print Assumptions C13_linkedlist_splits_like_its_slice.

(** Non-vacuity: a concrete proper history with two lists, a removed element, a
    foreign element and a self-copy. *)
Definition demo : list (op Z) :=
  [PushBack 0 10; PushBack 0 20; PushFront 0 5; PushBack 1 7; Remove 0 1; MoveToFront 0 0;
   InsertAfter 0 6 2; Remove 1 2; Next 0; PushBackList 0 0; ToSlice 0; ToSlice 1; ToSlice 2]%Z.
Example demo_runs : (execs 0%Z mem0 demo).2 =
  [Ok (RElt (Some (Elt 0))); Ok (RElt (Some (Elt 1))); Ok (RElt (Some (Elt 2))); Ok (RElt (Some (Elt 3)));
   Ok (RVal 20); Ok RUnit; Ok (RElt (Some (Elt 4))); Ok (RVal 5); Ok (RElt (Some (Elt 2))); Ok RUnit;
   Ok (RSlice [10; 5; 6; 10; 5; 6]); Ok (RSlice [7]); Panic]%Z.
Proof. vm_compute. reflexivity. Qed.
(** a history meeting the hypotheses of C08-C13: list 0 and 1 are non-empty and
    ready, list 2 is not, element 0 was removed from list 0, element 2 is foreign to it *)
Definition demo2 : list (op Z) := [PushBack 0 10; PushFront 0 5; PushBack 1 7; Remove 0 0; PushBackList 0 0]%Z.
Example demo2_runs : (execs 0%Z mem0 demo2).2 =
  [Ok (RElt (Some (Elt 0))); Ok (RElt (Some (Elt 1))); Ok (RElt (Some (Elt 2))); Ok (RVal 10); Ok RUnit]%Z.
Proof. vm_compute. reflexivity. Qed.
Example demo_proper : exists s, spec_execs 0%Z lists0 demo2 (execs 0%Z mem0 demo2).2 s /\
  elems s 0 = [1; 3] /\ elems s 1 = [2] /\ ready s 0 = true /\ ready s 2 = false /\
  0 ∉ elems s 0 /\ lost s 0 <> Some 0.
Proof.
  rewrite demo2_runs. eexists. split.
  - unfold demo2.
    eapply SpecCons; [done|split; reflexivity|].
    eapply SpecCons; [done|split; reflexivity|].
    eapply SpecCons; [done|split; reflexivity|].
    eapply SpecCons; [split; [cbv; lia|done]|split; [reflexivity|rewrite decide_True by (cbn; set_solver); reflexivity]|].
    eapply SpecCons; [done|split; reflexivity|].
    apply SpecNil.
  - splits; try reflexivity; [cbn; set_solver|done].
Qed.
(** a list whose handle was orphaned, as in C09 *)
Example orphan_case : (execs 0%Z mem0 [PushBack 0 10; PushBack 0 20; Clear 0; Remove 0 0; Len 0]%Z).2 =
  [Ok (RElt (Some (Elt 0))); Ok (RElt (Some (Elt 1))); Ok RUnit; Ok (RVal 10); Ok (RInt (-1))]%Z.
Proof. vm_compute. reflexivity. Qed.
(** C13: five elements, parallelism 2, gives segments of 2, 2 and 1 *)
Example split_case :
  let m := (execs 0%Z mem0 [PushBack 0 1; PushBack 0 2; PushBack 0 3; PushBack 0 4; PushBack 0 5]%Z).1 in
  walk_next (elt_next m) (len m 0) 2 (walk_init (front 0 m)) = Ok (Some (SStep 2 (Some (Elt 0))), (2%Z, Some (Elt 2))) /\
  walk_next (elt_next m) (len m 0) 2 (4%Z, Some (Elt 4)) = Ok (Some (SRest (Some (Elt 4))), (6%Z, None)).
Proof. vm_compute. done. Qed.
