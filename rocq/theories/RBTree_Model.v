(** Model of collections/rbtree: redblacktree.go, redblackbtree_node.go, node_buffer.go.

    Heap model: a node is an address (nat); nil is [None]; the header embedded in
    the Tree is address 0.  The heap is a total function that starts as zero
    values everywhere; make([]Node, n) reserves n fresh consecutive addresses.
    Loops run on explicit fuel; [Fuel] means "not finished yet".
    [comp] is the comparator, an arbitrary function; ints are unbounded.
    Not modelled: String's formatting (its walk is that of Iter), Stream, the
    unused linked-list helpers addToNext/removeSelf, nodeBuffer.FillN/Clear/
    IsEmpty/Size (not called by the tree), SetKey on a linked node (breaks the order by design). *)
From Verif Require Import Base.
From stdpp Require Export functions.
From stdpp Require Export list.

Notation loc := nat (only parsing).
Inductive color := Red | Black.
Global Instance color_eq_dec : EqDecision color.
Proof. solve_decision. Defined.

Section rb.
  Context {K V : Type} (kzero : K) (vzero : V) (comp : K -> K -> Z).

  (** type Node, redblackbtree_node.go:12-18.  Red = false is the zero colour. *)
  Record node := Node {
    ncol : color; parent : option loc; left : option loc; right : option loc; key : K; val : V }.
  Definition node0 : node := Node Red None None None kzero vzero.
  Notation heap := (nat -> node).

  Definition set_color c n := Node c (parent n) (left n) (right n) (key n) (val n).
  Definition set_parent p n := Node (ncol n) p (left n) (right n) (key n) (val n).
  Definition set_left p n := Node (ncol n) (parent n) p (right n) (key n) (val n).
  Definition set_right p n := Node (ncol n) (parent n) (left n) p (key n) (val n).
  Definition set_kv k v n := Node (ncol n) (parent n) (left n) (right n) k v.
  Definition set_val v n := Node (ncol n) (parent n) (left n) (right n) (key n) v.

  (** reading and writing through a pointer; nil panics *)
  Definition rd (h : heap) (p : option loc) : res node :=
    match p with Some l => Ok (h l) | None => Panic end.
  Definition wr (p : option loc) (f : node -> node) (h : heap) : res heap :=
    match p with Some l => Ok (<[l := f (h l)]> h) | None => Panic end.
  (** &rbTree.header *)
  Definition hdr : option loc := Some 0.

  (** ** Node methods *)
  (** MinChildNode, redblackbtree_node.go:59-65 *)
  Fixpoint min_child (fuel : nat) (h : heap) (l : loc) : res loc :=
    match fuel with
    | O => Fuel
    | S f => match left (h l) with Some l' => min_child f h l' | None => Ok l end
    end.
  (** MaxChildNode, redblackbtree_node.go:68-74 *)
  Fixpoint max_child (fuel : nat) (h : heap) (l : loc) : res loc :=
    match fuel with
    | O => Fuel
    | S f => match right (h l) with Some l' => max_child f h l' | None => Ok l end
    end.
  (** the loop of Next, redblackbtree_node.go:87-91 *)
  Fixpoint up_next (fuel : nat) (h : heap) (n : loc) (y : option loc) : res (option loc) :=
    match fuel with
    | O => Fuel
    | S f => match y with
             | Some yl => if decide (right (h yl) = Some n) then up_next f h yl (parent (h yl)) else Ok y
             | None => Ok None
             end
    end.
  (** redblackbtree_node.go:100-103 *)
  Fixpoint up_prev (fuel : nat) (h : heap) (n : loc) (y : option loc) : res (option loc) :=
    match fuel with
    | O => Fuel
    | S f => match y with
             | Some yl => if decide (left (h yl) = Some n) then up_prev f h yl (parent (h yl)) else Ok y
             | None => Ok None
             end
    end.
  (** Next, redblackbtree_node.go:80-92 *)
  Definition next (fuel : nat) (h : heap) (n : loc) : res (option loc) :=
    match right (h n) with
    | Some r => let! m := min_child fuel h r in Ok (Some m)
    | None => up_next fuel h n (parent (h n))
    end.
  (** Prev, redblackbtree_node.go:94-106 *)
  Definition prev (fuel : nat) (h : heap) (n : loc) : res (option loc) :=
    match left (h n) with
    | Some r => let! m := max_child fuel h r in Ok (Some m)
    | None => up_prev fuel h n (parent (h n))
    end.

  (** ** Rotations *)
  (** leftRotate, redblacktree.go:81-102 *)
  Definition left_rotate (h : heap) (x : option loc) : res heap :=
    let! nx := rd h x in
    let y := right nx in
    let! ny := rd h y in
    let! h := wr x (set_right (left ny)) h in
    let! h := match left ny with Some _ => wr (left ny) (set_parent x) h | None => Ok h end in
    let! nx := rd h x in
    let! h := wr y (set_parent (parent nx)) h in
    let! h := match parent nx with
              | None => wr hdr (set_parent y) h
              | Some p => if decide (x = left (h p)) then wr (Some p) (set_left y) h
                          else wr (Some p) (set_right y) h
              end in
    let! h := wr y (set_left x) h in
    wr x (set_parent y) h.
  (** rightRotate, redblacktree.go:104-124 *)
  Definition right_rotate (h : heap) (x : option loc) : res heap :=
    let! nx := rd h x in
    let y := left nx in
    let! ny := rd h y in
    let! h := wr x (set_left (right ny)) h in
    let! h := match right ny with Some _ => wr (right ny) (set_parent x) h | None => Ok h end in
    let! nx := rd h x in
    let! h := wr y (set_parent (parent nx)) h in
    let! h := match parent nx with
              | None => wr hdr (set_parent y) h
              | Some p => if decide (x = right (h p)) then wr (Some p) (set_right y) h
                          else wr (Some p) (set_left y) h
              end in
    let! h := wr y (set_right x) h in
    wr x (set_parent y) h.

  (** p != nil && p.color == Red *)
  Definition is_red (h : heap) (p : option loc) : bool :=
    match p with Some l => bool_decide (ncol (h l) = Red) | None => false end.

  (** ** putRebalanced, redblacktree.go:408-454 *)
  Definition put_done (h : heap) : res heap :=                       (* redblacktree.go:453 *)
    let! hd := rd h hdr in wr (parent hd) (set_color Black) h.
  Fixpoint put_rebalanced (fuel : nat) (h : heap) (nd : option loc) : res heap :=
    match fuel with
    | O => Fuel
    | S f =>
      let! hd := rd h hdr in
      if decide (nd = parent hd) then put_done h else
      let! n := rd h nd in
      let! p := rd h (parent n) in
      if decide (ncol p = Black) then put_done h else
      let! g := rd h (parent p) in
      if decide (parent n = left g) then
        let uncle := right g in
        if is_red h uncle then                                       (* redblacktree.go:420-424 *)
          let! h := wr (parent n) (set_color Black) h in
          let! h := wr uncle (set_color Black) h in
          let! h := wr (parent p) (set_color Red) h in
          put_rebalanced f h (parent p)
        else
          let inner := decide (nd = right p) in
          let nd' := if inner then parent n else nd in               (* redblacktree.go:427 *)
          let! h := if inner then left_rotate h nd' else Ok h in
          let! n := rd h nd' in
          let! h := wr (parent n) (set_color Black) h in
          let! p := rd h (parent n) in
          let! h := wr (parent p) (set_color Red) h in
          let! h := right_rotate h (parent p) in
          put_rebalanced f h nd'
      else
        let uncle := left g in
        if is_red h uncle then                                       (* redblacktree.go:436-440 *)
          let! h := wr (parent n) (set_color Black) h in
          let! h := wr uncle (set_color Black) h in
          let! h := wr (parent p) (set_color Red) h in
          put_rebalanced f h (parent p)
        else
          let inner := decide (nd = left p) in
          let nd' := if inner then parent n else nd in
          let! h := if inner then right_rotate h nd' else Ok h in
          let! n := rd h nd' in
          let! h := wr (parent n) (set_color Black) h in
          let! p := rd h (parent n) in
          let! h := wr (parent p) (set_color Red) h in
          let! h := left_rotate h (parent p) in
          put_rebalanced f h nd'
    end.

  (** ** deleteRebalanced, redblacktree.go:523-594 *)
  Definition black_or_nil (h : heap) (p : option loc) : bool := negb (is_red h p).
  (** redblacktree.go:537-557: the node is a left child, its brother is black; [loop] is
      the rest of the for loop *)
  Definition del_left (loop : heap -> option loc -> option loc -> res heap)
      (h : heap) (par bro : option loc) : res heap :=
    let! b := rd h bro in
    if black_or_nil h (left b) && black_or_nil h (right b) then
      let! h := wr bro (set_color Red) h in
      loop h par par
    else
      let! (h, bro) :=
        if black_or_nil h (right b) then                                 (* redblacktree.go:542-549 *)
          let! h := match left b with Some _ => wr (left b) (set_color Black) h | None => Ok h end in
          let! h := wr bro (set_color Red) h in
          let! h := right_rotate h bro in
          let! p := rd h par in
          Ok (h, right p)
        else Ok (h, bro) in
      let! p := rd h par in
      let! h := wr bro (set_color (ncol p)) h in                         (* redblacktree.go:550 *)
      let! h := wr par (set_color Black) h in
      let! b := rd h bro in
      let! h := match right b with Some _ => wr (right b) (set_color Black) h | None => Ok h end in
      let! h := left_rotate h par in
      let! hd := rd h hdr in
      loop h (parent hd) par.                                            (* redblacktree.go:556 *)
  (** redblacktree.go:566-588: the mirror image *)
  Definition del_right (loop : heap -> option loc -> option loc -> res heap)
      (h : heap) (par bro : option loc) : res heap :=
    let! b := rd h bro in
    if black_or_nil h (left b) && black_or_nil h (right b) then
      let! h := wr bro (set_color Red) h in
      loop h par par
    else
      let! (h, bro) :=
        if black_or_nil h (left b) then                                  (* redblacktree.go:572-580 *)
          let! h := match right b with Some _ => wr (right b) (set_color Black) h | None => Ok h end in
          let! h := wr bro (set_color Red) h in
          let! h := left_rotate h bro in
          let! p := rd h par in
          Ok (h, left p)
        else Ok (h, bro) in
      let! p := rd h par in
      let! h := wr bro (set_color (ncol p)) h in
      let! h := wr par (set_color Black) h in
      let! b := rd h bro in
      let! h := match left b with Some _ => wr (left b) (set_color Black) h | None => Ok h end in
      let! h := right_rotate h par in
      let! hd := rd h hdr in
      loop h (parent hd) par.
  Fixpoint delete_rebalanced (fuel : nat) (h : heap) (nd par : option loc) : res heap :=
    match fuel with
    | O => Fuel
    | S f =>
      let! hd := rd h hdr in
      if bool_decide (nd = parent hd) || negb (black_or_nil h nd)           (* redblacktree.go:524, negated *)
      then match nd with Some _ => wr nd (set_color Black) h | None => Ok h end  (* redblacktree.go:591-593 *)
      else
        let par := match nd with Some n => parent (h n) | None => par end in     (* redblacktree.go:525-527 *)
        let! p := rd h par in
        if decide (nd = left p) then
          let! b := rd h (right p) in
          if decide (ncol b = Red) then                                  (* redblacktree.go:530-535 *)
            let! h := wr (right p) (set_color Black) h in
            let! h := wr par (set_color Red) h in
            let! h := left_rotate h par in
            let! p := rd h par in
            del_left (delete_rebalanced f) h par (right p)
          else del_left (delete_rebalanced f) h par (right p)
        else
          let! b := rd h (left p) in
          if decide (ncol b = Red) then                                  (* redblacktree.go:560-565 *)
            let! h := wr (left p) (set_color Black) h in
            let! h := wr par (set_color Red) h in
            let! h := right_rotate h par in
            let! p := rd h par in
            del_right (delete_rebalanced f) h par (left p)
          else del_right (delete_rebalanced f) h par (left p)
    end.

  (** ** search, redblacktree.go:456-469 *)
  Fixpoint search (fuel : nat) (h : heap) (k : K) (p : option loc) : res (option loc) :=
    match fuel with
    | O => Fuel
    | S f => match p with
             | None => Ok None
             | Some l => let c := comp k (key (h l)) in
                         if decide (c = -1)%Z then search f h k (left (h l))
                         else if decide (c = 1)%Z then search f h k (right (h l))
                         else Ok (Some l)
             end
    end.

  (** ** remove, redblacktree.go:471-521 *)
  Definition remove (fuel : nat) (h : heap) (nl : loc) : res (loc * heap) :=
    let! h :=
      let c := comp (key (h nl)) (key (h 0)) in
      if decide (c > -1)%Z then              (* redblacktree.go:473-474 *)
        let! p := prev fuel h nl in wr hdr (set_right p) h
      else
        let! hl := rd h (left (h 0)) in                                   (* redblacktree.go:475 *)
        let c := comp (key hl) (key (h nl)) in
        if decide (c > -1)%Z then
          let! p := next fuel h nl in wr hdr (set_left p) h
        else Ok h in
    let! rm :=                                                            (* redblacktree.go:486-490 *)
      match left (h nl), right (h nl) with
      | Some _, Some _ => next fuel h nl
      | _, _ => Ok (Some nl)
      end in
    let! nrm := rd h rm in
    let child := match left nrm with Some _ => left nrm | None => right nrm end in   (* redblacktree.go:491-495 *)
    let rmp := parent nrm in
    let! h := match child with Some _ => wr child (set_parent rmp) h | None => Ok h end in
    let! h := match rmp with                                              (* redblacktree.go:502-508 *)
              | None => wr hdr (set_parent child) h
              | Some p => if decide (rm = left (h p)) then wr rmp (set_left child) h
                          else wr rmp (set_right child) h
              end in
    let! nrm := rd h rm in
    let! h := if decide (rm = Some nl) then Ok h                          (* redblacktree.go:510-514 *)
              else wr (Some nl) (set_kv (key nrm) (val nrm)) h in
    let! nrm := rd h rm in
    let! h := if decide (ncol nrm = Black) then delete_rebalanced fuel h child rmp else Ok h in
    let! r := deref rm in
    Ok (r, h).

  (** ** the node buffer, node_buffer.go *)
  (** [slice]: address of nodes[0]; [cursor] = sliceCursor + 1; [flist] = header.right *)
  Record nbuf := NBuf { slice : loc; cursor : nat; flist : option loc; lsize : nat; blen : nat }.

  Record tree := Tree { hp : heap; size : Z; buf : nbuf; brk : loc }.

  (** FillWith(make([]Node, n), all), node_buffer.go:64-70: the slice is fresh *)
  Definition fill (t : tree) : tree :=                                (* Fill, node_buffer.go:58-62 *)
    Tree (hp t) (size t)
         (NBuf (brk t) (blen (buf t)) (flist (buf t)) (lsize (buf t)) (blen (buf t)))
         (brk t + blen (buf t)).
  (** Alloc, node_buffer.go:81-100; with bufferedLength = 0 the goto loops for ever *)
  Definition alloc_slice (t : tree) : loc * tree :=
    let c := cursor (buf t) - 1 in
    (slice (buf t) + c, Tree (hp t) (size t) (NBuf (slice (buf t)) c (flist (buf t)) (lsize (buf t)) (blen (buf t))) (brk t)).
  Definition alloc (t : tree) : res (loc * tree) :=
    if decide (cursor (buf t) <> 0) then Ok (alloc_slice t)
    else if decide (lsize (buf t) = 0) then
      if decide (blen (buf t) = 0) then Fuel else Ok (alloc_slice (fill t))
    else
      let! n := deref (flist (buf t)) in
      Ok (n, Tree (hp t) (size t)
                  (NBuf (slice (buf t)) (cursor (buf t)) (right (hp t n)) (lsize (buf t) - 1) (blen (buf t))) (brk t)).
  (** Free, node_buffer.go:72-79 *)
  Definition free (t : tree) (l : loc) : tree :=
    if decide (lsize (buf t) = blen (buf t)) then t
    else Tree (<[l := set_right (flist (buf t)) (hp t l)]> (hp t)) (size t)
              (NBuf (slice (buf t)) (cursor (buf t)) (Some l) (lsize (buf t) + 1) (blen (buf t))) (brk t).

  Definition with_hp (h : heap) (t : tree) : tree := Tree h (size t) (buf t) (brk t).
  Definition with_size (z : Z) (t : tree) : tree := Tree (hp t) z (buf t) (brk t).

  (** ** the tree *)
  (** Init, redblacktree.go:31-38, on a new Tree: address 0 is the header, the first 16 nodes follow *)
  Definition new_tree : tree :=
    Tree (<[0 := Node Red None (Some 0) (Some 0) kzero vzero]> (fun _ => node0)) 0 (NBuf 1 16 None 0 16) 17.
  (** Clear, redblacktree.go:134-139 *)
  Definition clear (t : tree) : tree :=
    let h := hp t in
    Tree (<[0 := set_left (Some 0) (set_right (Some 0) (set_parent None (h 0)))]> h) 0 (buf t) (brk t).

  (** the descent of put, redblacktree.go:359-374: [inl l]: key found at l; [inr p]: ended
      below p.  The comp of redblacktree.go:361 is local to the loop, so the comp tested in
      redblacktree.go:386 is still 0. *)
  Fixpoint descend (fuel : nat) (h : heap) (k : K) (par p : option loc) : res (loc + option loc) :=
    match fuel with
    | O => Fuel
    | S f => match p with
             | None => Ok (inr par)
             | Some l => let c := comp k (key (h l)) in
                         if decide (c = -1)%Z then descend f h k p (left (h l))
                         else if decide (c = 1)%Z then descend f h k p (right (h l))
                         else Ok (inl l)
             end
    end.
  (** redblacktree.go:378-404, also 321-347: link node n below par; comp = 0 here *)
  Definition link (fuel : nat) (h : heap) (par : option loc) (n : loc) : res heap :=
    let! h := wr (Some n) (set_parent par) h in
    let! h :=
      match par with
      | None =>
          let! h := wr hdr (set_left (Some n)) h in
          let! h := wr hdr (set_right (Some n)) h in
          wr hdr (set_parent (Some n)) h
      | Some p =>
          let comp := 0%Z in
          if decide (comp < 0)%Z then
            let! h := if decide (left (h 0) = par) then wr hdr (set_left (Some n)) h else Ok h in
            wr par (set_left (Some n)) h
          else
            let! h := if decide (right (h 0) = par) then wr hdr (set_right (Some n)) h else Ok h in
            wr par (set_right (Some n)) h
      end in
    let! h := wr (Some n) (set_left None) h in
    let! h := wr (Some n) (set_right None) h in
    let! h := wr (Some n) (set_color Red) h in
    put_rebalanced fuel h (Some n).

  (** Put and put, redblacktree.go:287-293, 352-406; allocNode, redblacktree.go:40-48 *)
  Definition put (fuel : nat) (t : tree) (k : K) (v : V) : res (bool * tree) :=
    let! d := descend fuel (hp t) k None (parent (hp t 0)) in
    match d with
    | inl l => Ok (false, with_hp (<[l := set_val v (hp t l)]> (hp t)) t)
    | inr par =>
        let! (n, t) := alloc t in
        let! h := wr (Some n) (set_kv k v) (hp t) in
        let! h := wr (Some n) (set_color Red) h in
        let! h := link fuel h par n in
        Ok (true, with_size (size t + 1) (with_hp h t))
    end.
  (** PutNode, redblacktree.go:295-349 *)
  Definition put_node (fuel : nat) (t : tree) (n : loc) : res (bool * tree) :=
    let! d := descend fuel (hp t) (key (hp t n)) None (parent (hp t 0)) in
    match d with
    | inl l => Ok (false, with_hp (<[l := set_val (val (hp t n)) (hp t l)]> (hp t)) t)
    | inr par => let! h := link fuel (hp t) par n in Ok (true, with_hp h t)
    end.

  Definition find (fuel : nat) (t : tree) (k : K) : res (option loc) :=
    search fuel (hp t) k (parent (hp t 0)).
  (** Has, redblacktree.go:220-225; Get, redblacktree.go:227-233 *)
  Definition has (fuel : nat) (t : tree) (k : K) : res bool :=
    let! n := find fuel t k in Ok (match n with Some _ => true | None => false end).
  Definition get (fuel : nat) (t : tree) (k : K) : res V :=
    let! n := find fuel t k in Ok (match n with Some l => val (hp t l) | None => vzero end).

  (** removeNode, redblacktree.go:272-285, and the second half of Delete, redblacktree.go:261-269 *)
  Definition remove_node (fuel : nat) (t : tree) (l : loc) : res (loc * tree) :=
    let! (r, h) := remove fuel (hp t) l in
    let z := (size t - 1)%Z in
    let h := if decide (z = 0)%Z then <[0 := set_left None (set_right None (h 0))]> h else h in
    Ok (r, with_size z (with_hp h t)).
  (** Delete, redblacktree.go:256-270 *)
  Definition delete (fuel : nat) (t : tree) (k : K) : res (option loc * tree) :=
    let! n := find fuel t k in
    match n with
    | None => Ok (None, t)
    | Some l => let! (r, t) := remove_node fuel t l in Ok (Some r, t)
    end.
  (** DeleteKeys, redblacktree.go:244-254 *)
  Fixpoint delete_keys (fuel : nat) (t : tree) (ks : list K) : res (Z * tree) :=
    match ks with
    | [] => Ok (0%Z, t)
    | k :: ks =>
        let! (n, t) := delete fuel t k in
        let t := match n with Some l => free t l | None => t end in
        let! (c, t) := delete_keys fuel t ks in
        Ok ((match n with Some _ => c + 1 | None => c end)%Z, t)
    end.
  (** DeleteByWholeMapping, redblacktree.go:235-242 *)
  Definition delete_whole (fuel : nat) (t : tree) (k : K) (v : V) (vcomp : V -> V -> Z) : res (bool * tree) :=
    let! n := find fuel t k in
    match n with
    | Some l => if decide (vcomp v (val (hp t l)) = 0%Z)
                then let! (r, t) := remove_node fuel t l in Ok (true, free t r)
                else Ok (false, t)
    | None => Ok (false, t)
    end.

  (** LeftMost, RightMost, redblacktree.go:126-132 *)
  Definition left_most (t : tree) : option loc := left (hp t 0).
  Definition right_most (t : tree) : option loc := right (hp t 0).
  (** one pull of Iter, redblacktree.go:149-161; the state is the node pointer, initially header.left *)
  Definition iter_next (fuel : nat) (t : tree) (p : option loc) : res (option (K * V) * option loc) :=
    match p with
    | Some l => let! n := next fuel (hp t) l in Ok (Some (key (hp t l), val (hp t l)), n)
    | None => Ok (None, None)
    end.

  (** Node.Next as a function of the node, for the segment walk of SplitableIter
      (redblacktree.go:163-212); equal to [next] wherever that returns *)
  Definition next_node (fuel : nat) (t : tree) (l : loc) : option loc :=
    match next fuel (hp t) l with Ok o => o | _ => None end.
  Definition entry (t : tree) (l : loc) : K * V := (key (hp t l), val (hp t l)).

  (** ** histories *)
  Inductive op :=
  | OPut (k : K) (v : V) | OPutNode (n : loc)
  | ONewNode (k : K) (v : V)      (* the caller makes a Node of its own, SetKey(k), SetValue(v) *)
  | OSetNode (n : loc) (k : K) (v : V)   (* SetKey(k), SetValue(v) on a node the caller holds *)
  | OGet (k : K) | OHas (k : K) | OSize
  | ODelete (k : K) | ODeleteKeys (ks : list K)
  | ODeleteWhole (k : K) (v : V) (vcomp : V -> V -> Z)
  | OClear.
  Inductive out := RBool (b : bool) | RVal (v : V) | RInt (z : Z) | RNode (n : option loc) | RUnit.

  Definition step (fuel : nat) (t : tree) (o : op) : res (out * tree) :=
    match o with
    | OPut k v => let! (b, t) := put fuel t k v in Ok (RBool b, t)
    | OPutNode n => let! (b, t) := put_node fuel t n in Ok (RBool b, t)
    | ONewNode k v => let l := brk t in
        Ok (RNode (Some l), Tree (<[l := Node Red None None None k v]> (hp t)) (size t) (buf t) (brk t + 1))
    | OSetNode n k v => Ok (RUnit, with_hp (<[n := set_kv k v (hp t n)]> (hp t)) t)
    | OGet k => let! v := get fuel t k in Ok (RVal v, t)
    | OHas k => let! b := has fuel t k in Ok (RBool b, t)
    | OSize => Ok (RInt (size t), t)
    | ODelete k => let! (n, t) := delete fuel t k in Ok (RNode n, t)
    | ODeleteKeys ks => let! (z, t) := delete_keys fuel t ks in Ok (RInt z, t)
    | ODeleteWhole k v vcomp => let! (b, t) := delete_whole fuel t k v vcomp in Ok (RBool b, t)
    | OClear => Ok (RUnit, clear t)
    end.
  Fixpoint run (fuel : nat) (t : tree) (os : list op) : res (list out * tree) :=
    match os with
    | [] => Ok ([], t)
    | o :: os => let! (r, t) := step fuel t o in
                 let! (rs, t) := run fuel t os in Ok (r :: rs, t)
    end.
End rb.
Arguments node : clear implicits.
Notation heap K V := (nat -> node K V) (only parsing).
Arguments tree : clear implicits.
Arguments op : clear implicits.
Arguments out : clear implicits.
