(** The calls of the user's comparator, recorded: the functions of PQ_Model,
    RBTree_Model and BPlus_Model that call the comparator, written again so that
    they also give the list of pairs they asked about, in order.  [erase] forgets
    it; C72_*_recording_is_the_model say that what remains is the model of the
    other properties, C72_*_no_other_question that the result depends on the
    comparator through the recorded answers only. *)
From Verif Require Import Base PQ_Model RBTree_Model BPlus_Model.

(** a result together with the comparator calls made for it *)
Definition cres (K A : Type) : Type := res (A * list (K * K)).
Definition lift {K A} (m : res A) : cres K A := rbind m (fun a => Ok (a, [])).
Definition cbind {K A B} (m : cres K A) (f : A -> cres K B) : cres K B :=
  rbind m (fun x => rbind (f x.1) (fun y => Ok (y.1, x.2 ++ y.2))).
Definition erase {K A} (m : cres K A) : res A := rbind m (fun x => Ok x.1).
(** a call of the comparator *)
Definition ask {K} (comp : K -> K -> Z) (x y : K) : cres K Z := Ok (comp x y, [(x, y)]).
Notation "'let?' x := m 'in' k" := (cbind m (fun x => k)) (at level 200, x pattern, k at level 200).

Section pq.
  Context {T : Type} (zero : T) (comp : T -> T -> Z).
  (** percolateUp, priorityqueue.go:64-73 *)
  Fixpoint percolate_up_n (fuel : nat) (els : list T) (pos : nat) : cres T (list T) :=
    match fuel with
    | 0 => Fuel
    | S fuel' =>
        let i := (pos - 1) / 2 in
        if decide (i = pos) then Ok (els, []) else
        let? x := lift (deref (els !! pos)) in
        let? y := lift (deref (els !! i)) in
        let? c := ask comp x y in
        if (0 <=? c)%Z then Ok (els, [])
        else percolate_up_n fuel' (<[pos:=y]> (<[i:=x]> els)) i
    end.
  (** percolateDown, priorityqueue.go:75-94 *)
  Fixpoint percolate_down_n (fuel : nat) (els : list T) (i n : nat) : cres T (list T * nat) :=
    match fuel with
    | 0 => Fuel
    | S fuel' =>
        let j1 := 2 * i + 1 in
        if decide (n <= j1) then Ok ((els, i), []) else
        let j2 := j1 + 1 in
        let? j := (if decide (j2 < n) then
                     let? a := lift (deref (els !! j2)) in
                     let? b := lift (deref (els !! j1)) in
                     let? c := ask comp a b in
                     Ok (if (c <? 0)%Z then j2 else j1, [])
                   else Ok (j1, [])) in
        let? x := lift (deref (els !! j)) in
        let? y := lift (deref (els !! i)) in
        let? c := ask comp x y in
        if (0 <=? c)%Z then Ok ((els, i), [])
        else percolate_down_n fuel' (<[j:=y]> (<[i:=x]> els)) j n
    end.
  (** Push, priorityqueue.go:40-49 *)
  Definition q_push_n (q : queue T) (v : T) : cres T (bool * queue T) :=
    let els := if decide (length (PQ_Model.elements q) <= qsize q)
               then PQ_Model.elements q ++ [v] else <[qsize q := v]> (PQ_Model.elements q) in
    let sz := qsize q + 1 in
    let? els' := percolate_up_n (S sz) els (sz - 1) in
    Ok ((true, Queue els' sz), []).
  (** Pop, priorityqueue.go:51-62 *)
  Definition q_pop_n (q : queue T) : cres T (T * bool * queue T) :=
    if decide (qsize q = 0) then Ok ((zero, false, q), []) else
    let n := qsize q - 1 in
    let? a := lift (deref (PQ_Model.elements q !! n)) in
    let? b := lift (deref (PQ_Model.elements q !! 0)) in
    let els := <[n := b]> (<[0 := a]> (PQ_Model.elements q)) in
    let? r := percolate_down_n (S n) els 0 n in
    let sz := qsize q - 1 in
    let? v := lift (deref (fst r !! sz)) in
    Ok ((v, true, Queue (fst r) sz), []).
End pq.

Section rb.
  Context {K V : Type} (kzero : K) (vzero : V) (comp : K -> K -> Z).
  Notation tree := (RBTree_Model.tree K V).
  Notation heap := (nat -> RBTree_Model.node K V).
  (** search, redblacktree.go:456-469 *)
  Fixpoint search_n (fuel : nat) (h : heap) (k : K) (p : option nat) : cres K (option nat) :=
    match fuel with
    | O => Fuel
    | S f => match p with
             | None => Ok (None, [])
             | Some l => let? c := ask comp k (RBTree_Model.key (h l)) in
                         if decide (c = -1)%Z then search_n f h k (RBTree_Model.left (h l))
                         else if decide (c = 1)%Z then search_n f h k (RBTree_Model.right (h l))
                         else Ok (Some l, [])
             end
    end.
  (** the descent of put, redblacktree.go:359-374 *)
  Fixpoint descend_n (fuel : nat) (h : heap) (k : K) (par p : option nat) : cres K (nat + option nat) :=
    match fuel with
    | O => Fuel
    | S f => match p with
             | None => Ok (inr par, [])
             | Some l => let? c := ask comp k (RBTree_Model.key (h l)) in
                         if decide (c = -1)%Z then descend_n f h k p (RBTree_Model.left (h l))
                         else if decide (c = 1)%Z then descend_n f h k p (RBTree_Model.right (h l))
                         else Ok (inl l, [])
             end
    end.
  (** the first statements of remove, redblacktree.go:473-477 *)
  Definition remove_head_n (fuel : nat) (h : heap) (nl : nat) : cres K heap :=
    let? c := ask comp (RBTree_Model.key (h nl)) (RBTree_Model.key (h 0)) in
    if decide (c > -1)%Z then
      lift (let! p := RBTree_Model.prev fuel h nl in RBTree_Model.wr RBTree_Model.hdr (RBTree_Model.set_right p) h)
    else
      let? hl := lift (RBTree_Model.rd h (RBTree_Model.left (h 0))) in
      let? c := ask comp (RBTree_Model.key hl) (RBTree_Model.key (h nl)) in
      if decide (c > -1)%Z then
        lift (let! p := RBTree_Model.next fuel h nl in RBTree_Model.wr RBTree_Model.hdr (RBTree_Model.set_left p) h)
      else Ok (h, []).
  (** the rest of remove, redblacktree.go:484-521 *)
  Definition remove_tail (fuel : nat) (h : heap) (nl : nat) : res (nat * heap) :=
    let! rm :=
      match RBTree_Model.left (h nl), RBTree_Model.right (h nl) with
      | Some _, Some _ => RBTree_Model.next fuel h nl
      | _, _ => Ok (Some nl)
      end in
    let! nrm := RBTree_Model.rd h rm in
    let child := match RBTree_Model.left nrm with Some _ => RBTree_Model.left nrm | None => RBTree_Model.right nrm end in
    let rmp := RBTree_Model.parent nrm in
    let! h := match child with Some _ => RBTree_Model.wr child (RBTree_Model.set_parent rmp) h | None => Ok h end in
    let! h := match rmp with
              | None => RBTree_Model.wr RBTree_Model.hdr (RBTree_Model.set_parent child) h
              | Some p => if decide (rm = RBTree_Model.left (h p)) then RBTree_Model.wr rmp (RBTree_Model.set_left child) h
                          else RBTree_Model.wr rmp (RBTree_Model.set_right child) h
              end in
    let! nrm := RBTree_Model.rd h rm in
    let! h := if decide (rm = Some nl) then Ok h
              else RBTree_Model.wr (Some nl) (RBTree_Model.set_kv (RBTree_Model.key nrm) (RBTree_Model.val nrm)) h in
    let! nrm := RBTree_Model.rd h rm in
    let! h := if decide (RBTree_Model.ncol nrm = Black) then RBTree_Model.delete_rebalanced fuel h child rmp else Ok h in
    let! r := deref rm in
    Ok (r, h).
  (** removeNode, redblacktree.go:272-285 *)
  Definition remove_node_n (fuel : nat) (t : tree) (l : nat) : cres K (nat * tree) :=
    let? h := remove_head_n fuel (RBTree_Model.hp t) l in
    lift (let! (r, h) := remove_tail fuel h l in
          let z := (RBTree_Model.size t - 1)%Z in
          let h := if decide (z = 0)%Z then <[0 := RBTree_Model.set_left None (RBTree_Model.set_right None (h 0))]> h else h in
          Ok (r, RBTree_Model.with_size z (RBTree_Model.with_hp h t))).
  (** Has, redblacktree.go:220-225; Get, redblacktree.go:227-233 *)
  Definition has_n (fuel : nat) (t : tree) (k : K) : cres K bool :=
    let? n := search_n fuel (RBTree_Model.hp t) k (RBTree_Model.parent (RBTree_Model.hp t 0)) in Ok (match n with Some _ => true | None => false end, []).
  Definition get_n (fuel : nat) (t : tree) (k : K) : cres K V :=
    let? n := search_n fuel (RBTree_Model.hp t) k (RBTree_Model.parent (RBTree_Model.hp t 0)) in Ok (match n with Some l => RBTree_Model.val (RBTree_Model.hp t l) | None => vzero end, []).
  (** Put, redblacktree.go:287-293, 352-406 *)
  Definition put_n (fuel : nat) (t : tree) (k : K) (v : V) : cres K (bool * tree) :=
    let? d := descend_n fuel (RBTree_Model.hp t) k None (RBTree_Model.parent (RBTree_Model.hp t 0)) in
    match d with
    | inl l => Ok ((false, RBTree_Model.with_hp (<[l := RBTree_Model.set_val v (RBTree_Model.hp t l)]> (RBTree_Model.hp t)) t), [])
    | inr par =>
        lift (let! (n, t) := RBTree_Model.alloc t in
              let! h := RBTree_Model.wr (Some n) (RBTree_Model.set_kv k v) (RBTree_Model.hp t) in
              let! h := RBTree_Model.wr (Some n) (RBTree_Model.set_color Red) h in
              let! h := RBTree_Model.link fuel h par n in
              Ok (true, RBTree_Model.with_size (RBTree_Model.size t + 1) (RBTree_Model.with_hp h t)))
    end.
  (** Delete, redblacktree.go:256-270 *)
  Definition delete_n (fuel : nat) (t : tree) (k : K) : cres K (option nat * tree) :=
    let? n := search_n fuel (RBTree_Model.hp t) k (RBTree_Model.parent (RBTree_Model.hp t 0)) in
    match n with
    | None => Ok ((None, t), [])
    | Some l => let? (r, t') := remove_node_n fuel t l in Ok ((Some r, t'), [])
    end.
End rb.

Section bplus.
  Context {K V : Type} (comp : K -> K -> Z).
  (** the binary search of bplustree.go:210-223 *)
  Fixpoint bsearch_n (fuel : nat) (k : K) (v : list (K * V)) (l hi mid : nat) : cres K (nat * nat * bool) :=
    match fuel with
    | O => Fuel
    | S fuel =>
        if decide (l < hi) then
          let mid := (l + hi - 1) / 2 in
          let? p := lift (aget v mid) in
          let? c := ask comp k p.1 in
          if (c <? 0)%Z then bsearch_n fuel k v l mid mid
          else if (0 <? c)%Z then bsearch_n fuel k v (mid + 1) hi mid
          else Ok ((l, mid, true), [])
        else Ok ((l, mid, false), [])
    end.
  (** search, bplustree.go:200-232 *)
  Fixpoint search_loop_n (fuel : nat) (nd : option nat) (k : K) (h : nat -> @BPlus_Model.node K V) : cres K (option nat * Z * bool) :=
    match fuel with
    | O => Fuel
    | S fuel =>
        let? nd := lift (deref nd) in
        let? (l, mid, ex) := bsearch_n (S (num (h nd))) k (vals (h nd)) 0 (num (h nd)) 0 in
        if leaf (h nd) then
          if (ex : bool) then Ok ((Some nd, Z.of_nat mid, true), []) else Ok ((Some nd, Z.of_nat l, false), [])
        else
          let? c := lift (aget (kids (h nd)) l) in
          search_loop_n fuel c k h
    end.
  (** ContainsKey, bplustree.go:49-52 *)
  Definition contains_key_n (k : K) (t : @BPlus_Model.tree K V) : cres K bool :=
    let? (_, _, ex) := (if (BPlus_Model.size t =? 0)%Z then Ok ((None, (-1)%Z, false), [])
                        else search_loop_n (S (brk t)) (root t) k (BPlus_Model.hp t)) in
    Ok (ex, []).

  (** the loops of insertNonFull, bplustree.go:156-160, 167-170 *)
  Fixpoint leaf_shift_n (k : K) (pos : nat) (v : list (K * V)) : cres K (nat * list (K * V)) :=
    match pos with
    | O => Ok ((0, v), [])
    | S q => let? x := lift (aget v q) in
             let? c := ask comp k x.1 in
             if (c <? 0)%Z then let? v := lift (aset v pos x) in leaf_shift_n k q v else Ok ((pos, v), [])
    end.
  Fixpoint down_pos_n (k : K) (pos : nat) (v : list (K * V)) : cres K nat :=
    match pos with
    | O => Ok (0, [])
    | S q => let? x := lift (aget v q) in
             let? c := ask comp k x.1 in
             if (c <? 0)%Z then down_pos_n k q v else Ok (pos, [])
    end.
  (** insertNonFull, bplustree.go:154-181 *)
  Fixpoint insert_non_full_n (kzero : K) (vzero : V) (fuel : nat) (nd : nat) (p : K * V) (t : @BPlus_Model.tree K V) : cres K (@BPlus_Model.tree K V) :=
    match fuel with
    | O => Fuel
    | S fuel =>
        if leaf (BPlus_Model.hp t nd) then
          let? (pos, v) := leaf_shift_n p.1 (num (BPlus_Model.hp t nd)) (vals (BPlus_Model.hp t nd)) in
          let? v := lift (aset v pos p) in
          Ok (set_size (BPlus_Model.size t + 1) (upd nd (fun n => set_num (num n + 1) (set_vals v n)) t), [])
        else
          let? pos := down_pos_n p.1 (num (BPlus_Model.hp t nd)) (vals (BPlus_Model.hp t nd)) in
          let? c := lift (aget (kids (BPlus_Model.hp t nd)) pos) in
          let? c := lift (deref c) in
          let? (t, pos) :=
            (if decide (2 * degree t - 1 = num (BPlus_Model.hp t c)) then
               let? t := lift (split_child kzero vzero nd c pos t) in
               let? x := lift (aget (vals (BPlus_Model.hp t nd)) pos) in
               let? c := ask comp x.1 p.1 in
               Ok ((t, if (c <? 0)%Z then pos + 1 else pos), [])
             else Ok ((t, pos), [])) in
          let? c := lift (aget (kids (BPlus_Model.hp t nd)) pos) in
          let? c := lift (deref c) in
          insert_non_full_n kzero vzero fuel c p t
    end.
  (** insert, bplustree.go:183-198 *)
  Definition insert_n (kzero : K) (vzero : V) (r : option nat) (p : K * V) (t : @BPlus_Model.tree K V) : cres K (@BPlus_Model.tree K V * option nat) :=
    match r with
    | None => Ok ((t, None), [])
    | Some r =>
        if decide (degree t * 2 - 1 = num (BPlus_Model.hp t r)) then
          let (t, nd) := new_node kzero vzero t in
          let t := upd nd (set_leaf false) t in
          let? t := lift (set_kid nd 0 (Some r) t) in
          let? t := lift (split_child kzero vzero nd r 0 t) in
          let? t := insert_non_full_n kzero vzero (S (brk t)) nd p t in
          Ok ((t, Some nd), [])
        else
          let? t := insert_non_full_n kzero vzero (S (brk t)) r p t in
          Ok ((t, Some r), [])
    end.
  (** InsertEqual, bplustree.go:235-241; InsertUnique, bplustree.go:243-252 *)
  Definition insert_equal_n (kzero : K) (vzero : V) (k : K) (v : V) (t : @BPlus_Model.tree K V) : cres K (@BPlus_Model.tree K V * bool) :=
    let? (t, r) := insert_n kzero vzero (root t) (k, v) t in Ok ((set_root r t, true), []).
  Definition insert_unique_n (kzero : K) (vzero : V) (k : K) (v : V) (t : @BPlus_Model.tree K V) : cres K (@BPlus_Model.tree K V * bool) :=
    let? ex := contains_key_n k t in
    if (ex : bool) then Ok ((t, false), [])
    else let? (t, r) := insert_n kzero vzero (root t) (k, v) t in Ok ((set_root r t, true), []).
End bplus.
