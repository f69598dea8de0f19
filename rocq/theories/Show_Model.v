(** Model of String on the red-black tree and on the skip list. fmt.Sprintf("%v:%v", key, value)
    is [showk k ++ ":" ++ showv v] for arbitrary renderings [showk] and [showv] of keys and values;
    bytes.Buffer is an accumulator string. *)
From Coq Require Import String.
From Verif Require Import Base.
From Verif Require RBTree_Model SkipList_Model.
Open Scope string_scope.

Section show.
  Context {K V : Type} (showk : K -> string) (showv : V -> string).
  Definition show_kv (e : K * V) : string := showk e.1 ++ ":" ++ showv e.2.

  (** the loop shared by redblacktree.go:58-65 and skiplist.go:160-167: [n.IsValid()] is [n != nil];
      [next] is evaluated once per node, and a space is written iff it is not nil *)
  Fixpoint show_loop {N : Type} (fuel : nat) (kv : N -> K * V) (next : N -> res (option N)) (n : option N) (buf : string)
    : res string :=
    match fuel, n with
    | O, _ => Fuel
    | S _, None => Ok (buf ++ "]")
    | S fuel, Some l =>
        let buf := buf ++ show_kv (kv l) in
        let! nx := next l in
        let buf := match nx with Some _ => buf ++ " " | None => buf end in
        show_loop fuel kv next nx buf
    end.

  (** Tree.String, redblacktree.go:54-68; starts at header.left *)
  Definition rb_string (fuel : nat) (t : RBTree_Model.tree K V) : res string :=
    show_loop fuel (RBTree_Model.entry t) (RBTree_Model.next fuel (RBTree_Model.hp t)) (RBTree_Model.left_most t) "[".
  (** List.String, skiplist.go:156-170; Next is skiplist_node.go:19-22 *)
  Definition sl_string (fuel : nat) (s : SkipList_Model.slist K V) : res string :=
    show_loop fuel (SkipList_Model.entry s) (fun l => SkipList_Model.rd_fwd (SkipList_Model.hp s) l 0) (SkipList_Model.first s) "[".
End show.

(** The comparator field of a red-black tree or skip list: None is a nil func.
    New, Init: redblacktree.go:25-32, skiplist.go:44-54. SetCompareFunc: redblacktree.go:70-74,
    skiplist.go:172-176. Clear: redblacktree.go:134-139 leaves the field alone, skiplist.go:147-150
    passes it to Init. Every other method only reads it. *)
Inductive cop (C : Type) := CSet (c : option C) | CClear | CInit (c : option C).
Arguments CSet {C} c.
Arguments CClear {C}.
Arguments CInit {C} c.
Definition set_compare {C : Type} (field c : option C) : option C :=
  match field with None => c | Some _ => field end.
Definition cop_step {C : Type} (field : option C) (o : cop C) : option C :=
  match o with CSet c => set_compare field c | CClear => field | CInit c => c end.
