(** Model of collections/bplustree: bplustree.go and bplustree_node.go.

    Heap model: a node is an address (nat), nil is [None]; [brk] is the next
    fresh address.  The prev field of the nodes is kept in a map of its own
    (it is written and never read by the code).  An index outside a slice and
    a nil dereference are [Panic].  ints are unbounded; node.num is a natural
    number, so a decrement of 0 is [Panic] here (theorem C45/C47 show that it
    cannot happen).  A loop that writes one slice reads and writes that slice
    element by element; the slice is put back in the node when the loop ends.
    Recursive calls and the descent of [search] run on fuel, which the callers
    set to one more than the number of nodes ever allocated; [Fuel] means
    "not finished", and the theorems show it does not occur.  [comp] is an
    arbitrary function.
    Not modelled here: Inorder (see BPlusPrint_Model.v).  Not modelled: display, searchPreSuccessor and
    searchSuccessor (never called), GetCompareFunc; the iterator and set files
    of the package are commented out in the source. *)
From Verif Require Import Base.
From stdpp Require Export functions.
From stdpp Require Export list.

Notation loc := nat (only parsing).

(** slice access: v[i] and v[i] = x *)
Definition aget {A} (v : list A) (i : nat) : res A := deref (v !! i).
Definition aset {A} (v : list A) (i : nat) (x : A) : res (list A) :=
  if decide (i < length v) then Ok (<[i := x]> v) else Panic.

(** for n rounds: dst[di] = src[si]; si++; di++ *)
Fixpoint copy_up {A} (n si di : nat) (src dst : list A) : res (list A) :=
  match n with
  | O => Ok dst
  | S n => let! x := aget src si in let! dst := aset dst di x in copy_up n (S si) (S di) src dst
  end.
(** for n rounds: v[j-1] = v[j]; j++ *)
Fixpoint shift_left {A} (n j : nat) (v : list A) : res (list A) :=
  match n with
  | O => Ok v
  | S n => let! x := aget v j in let! v := aset v (j - 1) x in shift_left n (S j) v
  end.
(** for n rounds: v[i+1] = v[i]; i-- *)
Fixpoint shift_right {A} (n i : nat) (v : list A) : res (list A) :=
  match n with
  | O => Ok v
  | S n => let! x := aget v i in let! v := aset v (i + 1) x in shift_right n (i - 1) v
  end.

(** num -= 1 *)
Definition dec (n : nat) : res nat := match n with O => Panic | S n => Ok n end.

Section bp.
  Context {K V : Type} (kzero : K) (vzero : V) (comp : K -> K -> Z).

  (** type Node, bplustree_node.go:9-17, without prev *)
  Record node := Node {
    next : option loc; vals : list (K * V); kids : list (option loc); num : nat; leaf : bool }.
  Notation heap := (nat -> node).
  Definition set_next p n := Node p (vals n) (kids n) (num n) (leaf n).
  Definition set_vals v n := Node (next n) v (kids n) (num n) (leaf n).
  Definition set_kids c n := Node (next n) (vals n) c (num n) (leaf n).
  Definition set_num k n := Node (next n) (vals n) (kids n) k (leaf n).
  Definition set_leaf b n := Node (next n) (vals n) (kids n) (num n) b.

  (** type Tree, bplustree.go:17-22 *)
  Record tree := Tree {
    hp : heap; prv : nat -> option loc; brk : loc; root : option loc; size : Z; degree : nat }.
  Definition upd (l : loc) (f : node -> node) t :=
    Tree (<[l := f (hp t l)]> (hp t)) (prv t) (brk t) (root t) (size t) (degree t).
  Definition set_prev (l : loc) (p : option loc) t :=
    Tree (hp t) (<[l := p]> (prv t)) (brk t) (root t) (size t) (degree t).
  Definition set_root p t := Tree (hp t) (prv t) (brk t) p (size t) (degree t).
  Definition set_size z t := Tree (hp t) (prv t) (brk t) (root t) z (degree t).

  (** v[i] = x and c[i] = x on the slices of a node *)
  Definition set_val (l : loc) (i : nat) (x : K * V) t : res tree :=
    let! v := aset (vals (hp t l)) i x in Ok (upd l (set_vals v) t).
  Definition set_kid (l : loc) (i : nat) (c : option loc) t : res tree :=
    let! v := aset (kids (hp t l)) i c in Ok (upd l (set_kids v) t).

  (** NewNode, bplustree.go:39-47 (degree >= 1 here; [new_map] covers the rest) *)
  Definition new_node (t : tree) : tree * loc :=
    let l := brk t in
    let n := Node None (replicate (degree t * 2 - 1) (kzero, vzero)) (replicate (degree t * 2) None) 0 true in
    (Tree (<[l := n]> (hp t)) (<[l := None]> (prv t)) (S l) (root t) (size t) (degree t), l).

  (** NewMap and Init, bplustree.go:24-37; make with a negative length panics *)
  Definition new_map (deg : Z) : res tree :=
    if (deg * 2 - 1 <? 0)%Z then Panic
    else
      let t := Tree (fun _ => Node None [] [] 0 true) (fun _ => None) 0 None 0 (Z.to_nat deg) in
      let (t, r) := new_node t in
      Ok (set_prev r (Some r) (upd r (set_next (Some r)) (set_root (Some r) t))).

  (** splitChild, bplustree.go:111-152 *)
  Definition split_child (parent child : loc) (pos : nat) (t : tree) : res tree :=
    let M := degree t in
    let (t, nc) := new_node t in
    let t := upd nc (fun n => set_num (M - 1) (set_leaf (leaf (hp t child)) n)) t in
    let! v := copy_up (M - 1) M 0 (vals (hp t child)) (vals (hp t nc)) in
    let t := upd nc (set_vals v) t in
    let! t := (if leaf (hp t nc) then Ok t
               else let! c := copy_up M M 0 (kids (hp t child)) (kids (hp t nc)) in
                    Ok (upd nc (set_kids c) t)) in
    let t := upd child (set_num (if leaf (hp t child) then M - 1 + 1 else M - 1)) t in
    let! c := shift_right (num (hp t parent) - pos) (num (hp t parent)) (kids (hp t parent)) in
    let t := upd parent (set_kids c) t in
    let! t := set_kid parent (pos + 1) (Some nc) t in
    let! v := shift_right (num (hp t parent) - pos) (num (hp t parent) - 1) (vals (hp t parent)) in
    let t := upd parent (set_vals v) t in
    let! x := aget (vals (hp t child)) (M - 1) in
    let! t := set_val parent pos x t in
    let t := upd parent (fun n => set_num (num n + 1) n) t in
    if leaf (hp t child) then
      let t := upd nc (set_next (next (hp t child))) t in
      let! nx := deref (next (hp t child)) in
      let t := set_prev nx (Some nc) t in
      let t := set_prev nc (Some child) t in
      Ok (upd child (set_next (Some nc)) t)
    else Ok t.

  (** the loop of bplustree.go:156-160: move entries greater than the new key up *)
  Fixpoint leaf_shift (k : K) (pos : nat) (v : list (K * V)) : res (nat * list (K * V)) :=
    match pos with
    | O => Ok (0, v)
    | S q => let! x := aget v q in
             if (comp k x.1 <? 0)%Z then let! v := aset v pos x in leaf_shift k q v else Ok (pos, v)
    end.
  (** the loop of bplustree.go:167-170 *)
  Fixpoint down_pos (k : K) (pos : nat) (v : list (K * V)) : res nat :=
    match pos with
    | O => Ok 0
    | S q => let! x := aget v q in
             if (comp k x.1 <? 0)%Z then down_pos k q v else Ok pos
    end.

  (** insertNonFull, bplustree.go:154-181 *)
  Fixpoint insert_non_full (fuel : nat) (nd : loc) (p : K * V) (t : tree) : res tree :=
    match fuel with
    | O => Fuel
    | S fuel =>
        if leaf (hp t nd) then
          let! (pos, v) := leaf_shift p.1 (num (hp t nd)) (vals (hp t nd)) in
          let! v := aset v pos p in
          Ok (set_size (size t + 1) (upd nd (fun n => set_num (num n + 1) (set_vals v n)) t))
        else
          let! pos := down_pos p.1 (num (hp t nd)) (vals (hp t nd)) in
          let! c := aget (kids (hp t nd)) pos in
          let! c := deref c in
          let! (t, pos) :=
            (if decide (2 * degree t - 1 = num (hp t c)) then
               let! t := split_child nd c pos t in
               let! x := aget (vals (hp t nd)) pos in
               Ok (t, if (comp x.1 p.1 <? 0)%Z then pos + 1 else pos)
             else Ok (t, pos)) in
          let! c := aget (kids (hp t nd)) pos in
          let! c := deref c in
          insert_non_full fuel c p t
    end.

  (** insert, bplustree.go:183-198: the new tree and the returned root *)
  Definition insert (r : option loc) (p : K * V) (t : tree) : res (tree * option loc) :=
    match r with
    | None => Ok (t, None)
    | Some r =>
        if decide (degree t * 2 - 1 = num (hp t r)) then
          let (t, nd) := new_node t in
          let t := upd nd (set_leaf false) t in
          let! t := set_kid nd 0 (Some r) t in
          let! t := split_child nd r 0 t in
          let! t := insert_non_full (S (brk t)) nd p t in
          Ok (t, Some nd)
        else
          let! t := insert_non_full (S (brk t)) r p t in
          Ok (t, Some r)
    end.

  (** the binary search of bplustree.go:210-223; [hi] is r+1, so l <= r is l < hi and
      (l+r)>>1 is (l+hi-1)/2.  Result: l, mid, exist. *)
  Fixpoint bsearch (fuel : nat) (k : K) (v : list (K * V)) (l hi mid : nat) : res (nat * nat * bool) :=
    match fuel with
    | O => Fuel
    | S fuel =>
        if decide (l < hi) then
          let mid := (l + hi - 1) / 2 in
          let! p := aget v mid in
          if (comp k p.1 <? 0)%Z then bsearch fuel k v l mid mid
          else if (0 <? comp k p.1)%Z then bsearch fuel k v (mid + 1) hi mid
          else Ok (l, mid, true)
        else Ok (l, mid, false)
    end.
  (** search, bplustree.go:207-232 (the loop; a nil node is dereferenced at bplustree.go:225) *)
  Fixpoint search_loop (fuel : nat) (nd : option loc) (k : K) (h : heap) : res (option loc * Z * bool) :=
    match fuel with
    | O => Fuel
    | S fuel =>
        let! nd := deref nd in
        let! (l, mid, ex) := bsearch (S (num (h nd))) k (vals (h nd)) 0 (num (h nd)) 0 in
        if leaf (h nd) then
          if (ex : bool) then Ok (Some nd, Z.of_nat mid, true) else Ok (Some nd, Z.of_nat l, false)
        else
          let! c := aget (kids (h nd)) l in
          search_loop fuel c k h
    end.
  (** search, bplustree.go:200-206 *)
  Definition search (k : K) (t : tree) : res (option loc * Z * bool) :=
    if (size t =? 0)%Z then Ok (None, (-1)%Z, false)
    else search_loop (S (brk t)) (root t) k (hp t).

  (** ContainsKey, bplustree.go:49-52 *)
  Definition contains_key (k : K) (t : tree) : res bool :=
    let! (_, _, ex) := search k t in Ok ex.
  (** the entry read by Get, GetEntry, GetVerify and DeleteByWholeMapping *)
  Definition found_entry (k : K) (t : tree) : res (option (K * V)) :=
    let! (nd, idx, ex) := search k t in
    if (ex : bool) then
      let! nd := deref nd in
      let! e := aget (vals (hp t nd)) (Z.to_nat idx) in
      Ok (Some e)
    else Ok None.
  (** Get, bplustree.go:54-60 *)
  Definition get (k : K) (t : tree) : res V :=
    let! e := found_entry k t in Ok (match e with Some e => e.2 | None => vzero end).
  (** GetEntry, bplustree.go:62-68: the entry pointed to, or nil *)
  Definition get_entry (k : K) (t : tree) : res (option (K * V)) := found_entry k t.
  (** GetVerify, bplustree.go:70-76 *)
  Definition get_verify (k : K) (t : tree) : res (V * bool) :=
    let! e := found_entry k t in Ok (match e with Some e => (e.2, true) | None => (vzero, false) end).

  (** InsertEqual, bplustree.go:235-241 *)
  Definition insert_equal (k : K) (v : V) (t : tree) : res (tree * bool) :=
    let! (t, r) := insert (root t) (k, v) t in Ok (set_root r t, true).
  (** InsertUnique, bplustree.go:243-252 *)
  Definition insert_unique (k : K) (v : V) (t : tree) : res (tree * bool) :=
    let! ex := contains_key k t in
    if (ex : bool) then Ok (t, false)
    else let! (t, r) := insert (root t) (k, v) t in Ok (set_root r t, true).

  (** mergeChild, bplustree.go:254-286; the loop of bplustree.go:272-275 is run on the two
      slices one after the other *)
  Definition merge_child (rt y z : loc) (pos : nat) (t : tree) : res tree :=
    let M := degree t in
    let! t := (if leaf (hp t y) then
                 let t := upd y (set_num (2 * M - 2)) t in
                 let! v := copy_up (M - 1) 0 (M - 1) (vals (hp t z)) (vals (hp t y)) in
                 Ok (upd y (set_vals v) t)
               else
                 let t := upd y (set_num (2 * M - 1)) t in
                 let! v := copy_up (M - 1) 0 M (vals (hp t z)) (vals (hp t y)) in
                 let t := upd y (set_vals v) t in
                 let! x := aget (vals (hp t rt)) pos in
                 let! t := set_val y (M - 1) x t in
                 let! c := copy_up M 0 M (kids (hp t z)) (kids (hp t y)) in
                 Ok (upd y (set_kids c) t)) in
    let! v := shift_left (num (hp t rt) - (pos + 1)) (pos + 1) (vals (hp t rt)) in
    let t := upd rt (set_vals v) t in
    let! c := shift_left (num (hp t rt) - (pos + 1)) (pos + 2) (kids (hp t rt)) in
    let t := upd rt (set_kids c) t in
    let! n := dec (num (hp t rt)) in
    let t := upd rt (set_num n) t in
    if leaf (hp t y) then
      let t := upd y (set_next (next (hp t z))) t in
      let! nx := deref (next (hp t z)) in
      Ok (set_prev nx (Some y) t)
    else Ok t.

  (** shiftToRightChild, bplustree.go:410-433 *)
  Definition shift_to_right_child (rt y z : loc) (pos : nat) (t : tree) : res tree :=
    let t := upd z (fun n => set_num (num n + 1) n) t in
    let! i := dec (num (hp t y)) in
    let! t := (if leaf (hp t z) then
                 let! x := aget (vals (hp t y)) i in
                 let! t := set_val z 0 x t in
                 let! i := dec i in
                 let! x := aget (vals (hp t y)) i in
                 set_val rt pos x t
               else
                 let! x := aget (vals (hp t rt)) pos in
                 let! t := set_val z 0 x t in
                 let! x := aget (vals (hp t y)) i in
                 set_val rt pos x t) in
    let! v := shift_right (num (hp t z) - 1) (num (hp t z) - 2) (vals (hp t z)) in
    let t := upd z (set_vals v) t in
    let! t := (if leaf (hp t z) then Ok t
               else
                 let! c := shift_right (num (hp t z)) (num (hp t z) - 1) (kids (hp t z)) in
                 let t := upd z (set_kids c) t in
                 let! x := aget (kids (hp t y)) (num (hp t y)) in
                 set_kid z 0 x t) in
    Ok (upd y (set_num i) t).

  (** shiftToLeftChild, bplustree.go:435-458 *)
  Definition shift_to_left_child (rt y z : loc) (pos : nat) (t : tree) : res tree :=
    let t := upd y (fun n => set_num (num n + 1) n) t in
    let! t := (if leaf (hp t z) then
                 let! x := aget (vals (hp t z)) 0 in
                 let! t := set_val y (num (hp t y) - 1) x t in
                 let! x := aget (vals (hp t z)) 0 in
                 set_val rt pos x t
               else
                 let! x := aget (vals (hp t rt)) pos in
                 let! t := set_val y (num (hp t y) - 1) x t in
                 let! x := aget (vals (hp t z)) 0 in
                 set_val rt pos x t) in
    let! v := shift_left (num (hp t z) - 1) 1 (vals (hp t z)) in
    let t := upd z (set_vals v) t in
    let! t := (if leaf (hp t z) then Ok t
               else
                 let! x := aget (kids (hp t z)) 0 in
                 let! t := set_kid y (num (hp t y)) x t in
                 let! c := shift_left (num (hp t z)) 1 (kids (hp t z)) in
                 Ok (upd z (set_kids c) t)) in
    let! n := dec (num (hp t z)) in
    Ok (upd z (set_num n) t).

  (** the loops of bplustree.go:346-349 and 361-365: up to [n] rounds from [i] *)
  Fixpoint up_pos (n : nat) (k : K) (i : nat) (v : list (K * V)) : res nat :=
    match n with
    | O => Ok i
    | S n => let! x := aget v i in if (comp x.1 k <? 0)%Z then up_pos n k (i + 1) v else Ok i
    end.

  (** deleteNonOne, bplustree.go:343-392 *)
  Fixpoint delete_non_one (fuel : nat) (rt : loc) (k : K) (t : tree) : res tree :=
    match fuel with
    | O => Fuel
    | S fuel =>
        let M := degree t in
        let! i := up_pos (num (hp t rt)) k 0 (vals (hp t rt)) in
        if leaf (hp t rt) then
          let! x := aget (vals (hp t rt)) i in
          if (comp k x.1 =? 0)%Z then
            let! v := shift_left (2 * M - 1 - (i + 1)) (i + 1) (vals (hp t rt)) in
            let t := upd rt (set_vals v) t in
            let! n := dec (num (hp t rt)) in
            Ok (set_size (size t - 1) (upd rt (set_num n) t))
          else Ok t
        else
          let! y := aget (kids (hp t rt)) i in
          let! z := (if decide (i < num (hp t rt)) then aget (kids (hp t rt)) (i + 1) else Ok None) in
          let! tl := (if decide (0 < i) then aget (kids (hp t rt)) (i - 1) else Ok None) in
          let! y := deref y in
          if decide (num (hp t y) = M - 1) then
            let! a := (if decide (0 < i) then let! l := deref tl in Ok (bool_decide (M - 1 < num (hp t l)))
                       else Ok false) in
            if (a : bool) then
              let! l := deref tl in
              let! t := shift_to_right_child rt l y (i - 1) t in
              delete_non_one fuel y k t
            else
              let! b := (if decide (i < num (hp t rt)) then
                           let! z := deref z in Ok (bool_decide (M - 1 < num (hp t z)))
                         else Ok false) in
              if (b : bool) then
                let! z := deref z in
                let! t := shift_to_left_child rt y z i t in
                delete_non_one fuel y k t
              else if decide (0 < i) then
                let! l := deref tl in
                let! t := merge_child rt l y (i - 1) t in
                delete_non_one fuel l k t
              else
                let! z := deref z in
                let! t := merge_child rt y z i t in
                delete_non_one fuel y k t
          else delete_non_one fuel y k t
    end.

  (** delete, bplustree.go:322-341: the new tree and the returned root *)
  Definition delete (r : option loc) (k : K) (t : tree) : res (tree * option loc) :=
    let! r := deref r in
    if decide (num (hp t r) = 1) then
      let! y := aget (kids (hp t r)) 0 in
      let! z := aget (kids (hp t r)) 1 in
      match y, z with
      | Some y, Some z =>
          if decide (num (hp t y) = degree t - 1 /\ num (hp t z) = degree t - 1) then
            let! t := merge_child r y z 0 t in
            let! t := delete_non_one (S (brk t)) y k t in
            Ok (t, Some y)
          else let! t := delete_non_one (S (brk t)) r k t in Ok (t, Some r)
      | _, _ => let! t := delete_non_one (S (brk t)) r k t in Ok (t, Some r)
      end
    else let! t := delete_non_one (S (brk t)) r k t in Ok (t, Some r).

  (** Delete, bplustree.go:100-109 *)
  Definition delete_key (k : K) (t : tree) : res (tree * bool) :=
    let! ex := contains_key k t in
    if (ex : bool) then let! (t, r) := delete (root t) k t in Ok (set_root r t, true)
    else Ok (t, false).
  (** DeleteEntryByKey, bplustree.go:96-98 *)
  Definition delete_entry_by_key (e : K * V) (t : tree) : res (tree * bool) := delete_key e.1 t.
  (** DeleteByKeys and DeleteAll, bplustree.go:86-94 and 312-320 *)
  Fixpoint delete_all (ks : list K) (t : tree) (changed : Z) : res (tree * Z) :=
    match ks with
    | [] => Ok (t, changed)
    | k :: ks => let! (t, b) := delete_key k t in
                 delete_all ks t (if (b : bool) then changed + 1 else changed)%Z
    end.
  Definition delete_by_keys (ks : list K) (t : tree) : res (tree * Z) := delete_all ks t 0%Z.
  (** DeleteByWholeMapping, bplustree.go:78-84 *)
  Definition delete_by_whole_mapping (k : K) (v : V) (compV : V -> V -> Z) (t : tree) : res (tree * bool) :=
    let! e := found_entry k t in
    match e with
    | Some e => if (compV e.2 v <? 0)%Z then delete_key k t else Ok (t, false)
    | None => Ok (t, false)
    end.

  (** Size, IsEmpty, Clear, bplustree.go:288-302 *)
  Definition is_empty (t : tree) : bool := (size t =? 0)%Z.
  Definition clear (t : tree) : tree := set_root None (set_size 0 t).

  (** MinimumNode and MaximumNode, bplustree_node.go:29-46; LeftMost and
      RightMost, bplustree.go:304-310 *)
  Fixpoint minimum_loop (fuel : nat) (y : option loc) (h : heap) : res (option loc) :=
    match fuel with
    | O => Fuel
    | S fuel => let! l := deref y in
                if leaf (h l) then Ok (Some l)
                else let! c := aget (kids (h l)) 0 in minimum_loop fuel c h
    end.
  Definition left_most (t : tree) : res (option loc) :=
    match root t with None => Ok None | Some _ => minimum_loop (S (brk t)) (root t) (hp t) end.
  Fixpoint maximum_loop (fuel : nat) (y : option loc) (h : heap) : res (option loc) :=
    match fuel with
    | O => Fuel
    | S fuel => let! l := deref y in
                if leaf (h l) then Ok (Some l)
                else let! c := aget (kids (h l)) (num (h l)) in maximum_loop fuel c h
    end.
  Definition right_most (t : tree) : res (option loc) := maximum_loop (S (brk t)) (root t) (hp t).
End bp.
