(** Model of Inorder, collections/bplustree/bplustree_node.go:19-27.  What it
    prints is a list: one line per mapping. *)
From Verif Require Import Base BPlus_Model.

Section inorder.
  Context {K V : Type}.
  Notation heap := (nat -> @node K V).
  (** the loop of bplustree_node.go:22-25 from [i], [k] rounds to go; [rec] is the recursive call.
      node.num is read in every round and nothing changes it. *)
  Fixpoint inorder_loop (rec : option nat -> res (list (K * V))) (n : @node K V) (k i : nat) : res (list (K * V)) :=
    match k with
    | O => Ok []
    | S k =>
        let! x := aget (vals n) i in
        let! c := aget (kids n) (i + 1) in
        let! a := rec c in
        let! b := inorder_loop rec n k (i + 1) in
        Ok (x :: a ++ b)
    end.
  (** Inorder; recursion on fuel *)
  Fixpoint inorder (fuel : nat) (h : heap) (nd : option nat) : res (list (K * V)) :=
    match fuel with
    | O => Fuel
    | S fuel =>
        match nd with
        | None => Ok []
        | Some l =>
            let! c := aget (kids (h l)) 0 in                              (* bplustree_node.go:21 *)
            let! a := inorder fuel h c in
            let! b := inorder_loop (inorder fuel h) (h l) (num (h l)) 0 in
            Ok (a ++ b)
        end
    end.
End inorder.
