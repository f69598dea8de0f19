(** What a container keeps reachable.  Go frees an object once nothing refers to it;
    an object a container still refers to -- directly or through other objects --
    cannot be freed.  Independent of the containers. *)
From Verif Require Import Base PQ_Model.

Section kept.
  Context {A : Type} (root : A -> Prop) (edge : A -> A -> Prop).
  (** the objects one can get to from the roots by following references *)
  Inductive kept : A -> Prop :=
  | kept_root a : root a -> kept a
  | kept_edge a b : kept a -> edge a b -> kept b.
End kept.

(** What a priority queue leaves in the slots behind its elements, by its history:
    every successful Pop adds the element it returned, every Push takes over the
    slot of the one added last. *)
Section left_behind.
  Context {T : Type}.
  Fixpoint left_behind (s : list T) (os : list (@op T)) (rs : list (out (T := T))) : list T :=
    match os, rs with
    | Push _ :: os, _ :: rs => left_behind (tail s) os rs
    | Pop :: os, OVal v true :: rs => left_behind (v :: s) os rs
    | _ :: os, _ :: rs => left_behind s os rs
    | _, _ => s
    end.
End left_behind.

(** The references of the linked queue: the queue refers to its first and its last
    node, a node to the next one (queue.go:8-11, 28-33). *)
From stdpp Require Import gmap.
From Verif Require Queue_Model LinkedList_Model SkipList_Model.
Section queue.
  Context {T : Type}.
  Definition queue_root (q : @Queue_Model.queue T) (n : nat) : Prop :=
    Queue_Model.hnext q = Some n \/ Queue_Model.tail q = Some n.
  Definition queue_edge (q : @Queue_Model.queue T) (a b : nat) : Prop :=
    exists v, Queue_Model.heap q !! a = Some (Queue_Model.Node v (Some b)).
End queue.

(** The references of the linked list: an element (or the sentinel inside a list)
    refers to the next and the previous one, and an element to its list, whose
    sentinel is inside it (linkedlist.go:6-18, 39-42). *)
Section list.
  Context {T : Type}.
  Definition list_edge (m : LinkedList_Model.mem T) (a b : LinkedList_Model.ref) : Prop :=
    LinkedList_Model.nxt m a = Some b \/ LinkedList_Model.prv m a = Some b \/
    (exists e l, a = LinkedList_Model.Elt e /\ LinkedList_Model.own m e = Some l /\ b = LinkedList_Model.Root l).
End list.

(** The references of the skip list: the list refers to the header node and to the
    last node; a node to the previous one and, on every level it has, to a later one
    (skiplist.go:22-29, skiplist_node.go:3-13). *)
Section skip.
  Context {K V : Type}.
  Definition skip_root (s : @SkipList_Model.slist K V) (l : nat) : Prop :=
    l = SkipList_Model.hdr s \/ SkipList_Model.tail s = Some l.
  Definition skip_edge (s : @SkipList_Model.slist K V) (a b : nat) : Prop :=
    let n := SkipList_Model.hp s a in
    SkipList_Model.back n = Some b \/
    (exists i, i < SkipList_Model.ht n /\ SkipList_Model.fwd n i = Some b).
End skip.
