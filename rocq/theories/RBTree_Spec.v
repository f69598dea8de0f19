(** What a red-black tree in the heap is, and what a map is. *)
From Verif Require Import Base RBTree_Model.

Section spec.
  Context {K V : Type}.

  (** a binary tree whose nodes carry address, colour, key and value *)
  Inductive btree :=
  | Leaf
  | T (c : color) (l : loc) (k : K) (v : V) (a b : btree).

  Definition root_of (t : btree) : option loc := match t with Leaf => None | T _ l _ _ _ _ => Some l end.
  Definition col (t : btree) : color := match t with Leaf => Black | T c _ _ _ _ _ => c end.
  (** entries in in-order *)
  Fixpoint io (t : btree) : list (loc * (K * V)) :=
    match t with Leaf => [] | T _ l k v a b => io a ++ (l, (k, v)) :: io b end.
  Definition locs (t : btree) : list loc := (io t).*1.
  Definition entries (t : btree) : list (K * V) := (io t).*2.

  (** the heap holds tree [t] below parent [par], parent pointers included *)
  Fixpoint holds (h : heap K V) (par : option loc) (t : btree) : Prop :=
    match t with
    | Leaf => True
    | T c l k v a b =>
        h l = Node c par (root_of a) (root_of b) k v /\ holds h (Some l) a /\ holds h (Some l) b
    end.
  (** the tree hanging off the header is [t]; no node occurs twice, none is the header *)
  Definition is_tree (h : heap K V) (t : btree) : Prop :=
    parent (h 0) = root_of t /\ holds h None t /\ NoDup (0 :: locs t).

  (** every path from the root to a leaf has [n] black nodes *)
  Fixpoint bh (t : btree) (n : nat) : Prop :=
    match t with
    | Leaf => n = 0
    | T Red _ _ _ a b => bh a n /\ bh b n
    | T Black _ _ _ a b => exists m, n = S m /\ bh a m /\ bh b m
    end.
  (** no red node has a red child *)
  Fixpoint no_red_red (t : btree) : Prop :=
    match t with
    | Leaf => True
    | T c _ _ _ a b => (c = Red -> col a = Black /\ col b = Black) /\ no_red_red a /\ no_red_red b
    end.
  Definition red_black (t : btree) : Prop := col t = Black /\ no_red_red t /\ exists n, bh t n.

  Fixpoint height (t : btree) : nat :=
    match t with Leaf => 0 | T _ _ _ _ a b => S (height a `max` height b) end.

  (** the nodes reachable from the header's root pointer *)
  Inductive linked (h : heap K V) : loc -> Prop :=
  | linked_root l : parent (h 0) = Some l -> linked h l
  | linked_left p l : linked h p -> left (h p) = Some l -> linked h l
  | linked_right p l : linked h p -> right (h p) = Some l -> linked h l.

  (** *** histories of one tree and one caller.  [own]: the nodes the caller
      made itself or got back from Delete and has not handed over with PutNode.
      The caller may hand over only nodes it owns; it may rewrite the entry of any
      node it ever saw, linked or not (through SetKey and SetValue, or through
      the pointers Iter hands out).  Address 0 is the header, which is never
      handed out. *)
  Definition legal (own : list loc) (o : op K V) : Prop :=
    match o with OPutNode n => n ∈ own | OSetNode n _ _ => n <> 0 | _ => True end.
  Definition own_after (own : list loc) (o : op K V) (r : out V) : list loc :=
    match o, r with
    | ODelete _, RNode (Some n) | ONewNode _ _, RNode (Some n) => n :: own
    | OPutNode n, RBool true => filter (fun x => x <> n) own
    | _, _ => own
    end.
  Inductive reach (kzero : K) (vzero : V) (comp : K -> K -> Z) : list loc -> tree K V -> Prop :=
  | reach_new : reach kzero vzero comp [] (new_tree kzero vzero)
  | reach_step own t fuel o r t' :
      reach kzero vzero comp own t -> legal own o -> step vzero comp fuel t o = Ok (r, t') ->
      reach kzero vzero comp (own_after own o r) t'.

  (** the nodes waiting for reuse: on the free list, or in the rest of the slice *)
  Inductive free_list (h : heap K V) : option loc -> list loc -> Prop :=
  | free_nil : free_list h None []
  | free_cons l fl : free_list h (right (h l)) fl -> free_list h (Some l) (l :: fl).
  Definition pooled (t : tree K V) (ls : list loc) : Prop :=
    exists fl, free_list (hp t) (flist (buf t)) fl /\ ls = fl ++ seq (slice (buf t)) (cursor (buf t)).

  (** the search for [k] falls off the tree at the missing left child of the
      node holding [(kp, vp)], whose right subtree is [b] *)
  Inductive ends_left (comp : K -> K -> Z) (k : K) : btree -> K -> V -> btree -> Prop :=
  | ends_here c l kp vp b : comp k kp = (-1)%Z -> ends_left comp k (T c l kp vp Leaf b) kp vp b
  | ends_in_left c l k' v' a b' kp vp b : comp k k' = (-1)%Z ->
      ends_left comp k a kp vp b -> ends_left comp k (T c l k' v' a b') kp vp b
  | ends_in_right c l k' v' a b' kp vp b : comp k k' = 1%Z ->
      ends_left comp k b' kp vp b -> ends_left comp k (T c l k' v' a b') kp vp b.

  (** *** the map: entries in ascending key order *)
  Section map.
    Context (vzero : V) (comp : K -> K -> Z).
    Definition sorted (m : list (K * V)) : Prop := StronglySorted (fun e e' => comp e.1 e'.1 < 0)%Z m.
    Definition mem (m : list (K * V)) (k : K) : bool := bool_decide (Exists (fun e => comp k e.1 = 0%Z) m).
    Definition lookup (m : list (K * V)) (k : K) : option V :=
      snd <$> head (filter (fun e => comp k e.1 = 0%Z) m).
    Definition update (m : list (K * V)) (k : K) (v : V) : list (K * V) :=
      (fun e => if decide (comp k e.1 = 0%Z) then (e.1, v) else e) <$> m.
    Definition erase (m : list (K * V)) (k : K) : list (K * V) := filter (fun e => comp k e.1 <> 0%Z) m.
    Definition erases (m : list (K * V)) (ks : list K) : list (K * V) := foldl erase m ks.

    (** what a map answers: [map_step m o r m'] *)
    Definition map_step (m : list (K * V)) (o : op K V) (r : out V) (m' : list (K * V)) : Prop :=
      match o with
      | OPut k v => r = RBool (negb (mem m k)) /\ m' = if mem m k then update m k v else m ++ [(k, v)]
      | OGet k => r = RVal (default vzero (lookup m k)) /\ m' = m
      | OHas k => r = RBool (mem m k) /\ m' = m
      | OSize => r = RInt (Z.of_nat (length m)) /\ m' = m
      | ODelete k => (exists n, r = RNode n /\ (n <> None <-> mem m k = true)) /\ m' = erase m k
      | ODeleteKeys ks => r = RInt (Z.of_nat (length m) - Z.of_nat (length (erases m ks))) /\ m' = erases m ks
      | ODeleteWhole k v vcomp =>
          match lookup m k with
          | Some v' => if decide (vcomp v v' = 0%Z) then r = RBool true /\ m' = erase m k
                       else r = RBool false /\ m' = m
          | None => r = RBool false /\ m' = m
          end
      | OClear => r = RUnit /\ m' = []
      | OPutNode _ | ONewNode _ _ | OSetNode _ _ _ => False
      end.
    (** every Put hits a present key or brings one greater than all present *)
    Definition ascending (m : list (K * V)) (o : op K V) : Prop :=
      match o with
      | OPut k _ => mem m k = true \/ Forall (fun e => comp e.1 k < 0)%Z m
      | OPutNode _ | ONewNode _ _ | OSetNode _ _ _ => False
      | _ => True
      end.
    (** the smallest entry is deleted only if its key is below the zero key *)
    Context (kzero : K).
    Definition safe_delete (m : list (K * V)) (k : K) : Prop :=
      mem m k = false \/ (comp k kzero < 0)%Z \/ Exists (fun e => comp e.1 k < 0)%Z m.
    Definition keeps_min (m : list (K * V)) (o : op K V) : Prop :=
      match o with
      | ODelete k | ODeleteWhole k _ _ => safe_delete m k
      | ODeleteKeys ks => forall ks1 k ks2, ks = ks1 ++ k :: ks2 -> safe_delete (erases m ks1) k
      | _ => True
      end.
    Definition no_delete (m : list (K * V)) (o : op K V) : Prop :=
      match o with ODelete _ | ODeleteKeys _ | ODeleteWhole _ _ _ => False | _ => True end.

    (** the calls [os] answer [rs] and take the map from [m] to [m'] *)
    Inductive map_run : list (K * V) -> list (op K V) -> list (out V) -> list (K * V) -> Prop :=
    | map_nil m : map_run m [] [] m
    | map_cons m o r m1 os rs m2 :
        map_step m o r m1 -> map_run m1 os rs m2 -> map_run m (o :: os) (r :: rs) m2.
    (** every call of [os] is allowed by [P] in the map it meets *)
    Fixpoint allowed (P : list (K * V) -> op K V -> Prop) (m : list (K * V)) (os : list (op K V)) : Prop :=
      match os with
      | [] => True
      | o :: os => P m o /\ forall r m', map_step m o r m' -> allowed P m' os
      end.
  End map.
End spec.
Arguments btree : clear implicits.
