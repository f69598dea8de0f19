(** Model of the pointer-walking SplitableIter shared, line for line, by
    collections/linkedlist/linkedlist.go:84-142, collections/skiplist/skiplist.go:206-264
    and collections/rbtree/redblacktree.go (iter, iterStep, SplitableIter).

    The container is seen through its node pointers: [front] is what
    Front()/First()/LeftMost() returned when the generator was made, [next] is
    Node.Next, [val] the element read from a node and [size] the container's
    length.  The container is not modified while the generator is in use. *)
From Verif Require Import Base.

Section walk.
  Context {N T : Type} (front : option N) (next : N -> option N) (val : N -> T) (size : Z).

  (** iter(node), linkedlist.go:84-92: the closure's state is [node] *)
  Definition rest_next (node : option N) : res (option T * option N) :=
    match node with
    | Some n => Ok (Some (val n), next n)
    | None => Ok (None, None)
    end.

  (** iterStep(step, node), linkedlist.go:94-103: the state is [(step, node)] *)
  Definition step_next (st : Z * option N) : res (option T * (Z * option N)) :=
    let '(step, node) := st in
    match node with
    | Some n => if decide (step > 0)%Z then Ok (Some (val n), ((step - 1)%Z, next n))
                else Ok (None, ((step - 1)%Z, node))
    | None => Ok (None, ((step - 1)%Z, node))
    end.

  (** lines 132-134: [for j := i; j < i+step && node != nil; j++ { node = node.Next() }] *)
  Fixpoint advance (k : nat) (node : option N) : option N :=
    match k, node with
    | S k', Some n => advance k' (next n)
    | _, _ => node
    end.

  (** A yielded segment iterator: the container's own Iter (line 118), iter(n)
      (line 137) or iterStep(step, n) (line 139). *)
  Inductive segment := SWhole | SRest (n : option N) | SStep (step : Z) (n : option N).

  (** lines 108-113 *)
  Definition walk_step (p : Z) : Z := if decide (p = 0)%Z then size else Z.quot size p.

  (** the closure's captured variables [idx] and [node], lines 107 and 123 *)
  Definition walk_init : Z * option N := (0%Z, front).

  (** lines 114-140 *)
  Definition walk_next (p : Z) (st : Z * option N) : res (option segment * (Z * option N)) :=
    let '(idx, node) := st in
    let step := walk_step p in
    if decide (p <= 0)%Z then
      if decide (idx = 0)%Z then Ok (Some SWhole, ((idx + 1)%Z, node)) else Ok (None, st)
    else
      if decide (size <= idx)%Z then Ok (None, st)
      else
        let node' := advance (Z.to_nat step) node in
        if decide (size <= idx + step)%Z
        then Ok (Some (SRest node), ((idx + step)%Z, node'))
        else Ok (Some (SStep step node), ((idx + step)%Z, node')).
End walk.
Arguments SWhole {N}.
Arguments SRest {N} n.
Arguments SStep {N} step n.
