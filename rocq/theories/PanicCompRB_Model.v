(** A comparator that panics: the red-black tree (see PanicComp_Model). *)
From Verif Require Import Base RBTree_Model PanicComp_Model.

Section rb.
  Context {K V : Type} (kzero : K) (vzero : V) (comp : K -> K -> Z).
  Notation tree := (tree K V).
  Notation heap := (nat -> node K V).

  (** search, redblacktree.go:456-469, on the tree [t] (the heap is the tree's) *)
  Fixpoint rb_search_c (fuel : nat) (t : tree) (k : K) (p : option nat) : cm tree (option nat) :=
    match fuel with
    | O => fun _ => CFuel
    | S f => match p with
             | None => cret None
             | Some l => let^ c := ask comp t k (key (hp t l)) in
                         if decide (c = -1)%Z then rb_search_c f t k (left (hp t l))
                         else if decide (c = 1)%Z then rb_search_c f t k (right (hp t l))
                         else cret (Some l)
             end
    end.
  (** the descent of put and PutNode, redblacktree.go:359-374, 302-317 *)
  Fixpoint rb_descend_c (fuel : nat) (t : tree) (k : K) (par p : option nat) : cm tree (nat + option nat) :=
    match fuel with
    | O => fun _ => CFuel
    | S f => match p with
             | None => cret (inr par)
             | Some l => let^ c := ask comp t k (key (hp t l)) in
                         if decide (c = -1)%Z then rb_descend_c f t k p (left (hp t l))
                         else if decide (c = 1)%Z then rb_descend_c f t k p (right (hp t l))
                         else cret (inl l)
             end
    end.
  (** the first statements of remove, redblacktree.go:473-477: a comparison with
      the header's key, the header's right link or, after a second comparison,
      its left link *)
  Definition rb_remove_head_c (fuel : nat) (t : tree) (nl : nat) : cm tree tree :=
    let^ c := ask comp t (key (hp t nl)) (key (hp t 0)) in
    if decide (c > -1)%Z then
      let^ h := cl (let! p := prev fuel (hp t) nl in wr hdr (set_right p) (hp t)) in
      cret (with_hp h t)
    else
      let^ hl := cl (rd (hp t) (left (hp t 0))) in
      let^ c := ask comp t (key hl) (key (hp t nl)) in
      if decide (c > -1)%Z then
        let^ h := cl (let! p := next fuel (hp t) nl in wr hdr (set_left p) (hp t)) in
        cret (with_hp h t)
      else cret t.
  (** the rest of remove, redblacktree.go:484-521: no comparison *)
  Definition rb_remove_tail (fuel : nat) (h : heap) (nl : nat) : res (nat * heap) :=
    let! rm :=
      match left (h nl), right (h nl) with
      | Some _, Some _ => next fuel h nl
      | _, _ => Ok (Some nl)
      end in
    let! nrm := rd h rm in
    let child := match left nrm with Some _ => left nrm | None => right nrm end in
    let rmp := parent nrm in
    let! h := match child with Some _ => wr child (set_parent rmp) h | None => Ok h end in
    let! h := match rmp with
              | None => wr hdr (set_parent child) h
              | Some p => if decide (rm = left (h p)) then wr rmp (set_left child) h
                          else wr rmp (set_right child) h
              end in
    let! nrm := rd h rm in
    let! h := if decide (rm = Some nl) then Ok h
              else wr (Some nl) (set_kv (key nrm) (val nrm)) h in
    let! nrm := rd h rm in
    let! h := if decide (ncol nrm = Black) then delete_rebalanced fuel h child rmp else Ok h in
    let! r := deref rm in
    Ok (r, h).
  (** removeNode, redblacktree.go:272-285, and the second half of Delete, redblacktree.go:261-269 *)
  Definition rb_remove_node_c (fuel : nat) (t : tree) (l : nat) : cm tree (nat * tree) :=
    let^ t := rb_remove_head_c fuel t l in
    let^ (r, h) := cl (rb_remove_tail fuel (hp t) l) in
    let z := (size t - 1)%Z in
    let h := if decide (z = 0)%Z then <[0 := set_left None (set_right None (h 0))]> h else h in
    cret (r, with_size z (with_hp h t)).
  (** Has, redblacktree.go:220-225; Get, redblacktree.go:227-233 *)
  Definition rb_find_c (fuel : nat) (t : tree) (k : K) : cm tree (option nat) :=
    rb_search_c fuel t k (parent (hp t 0)).
  Definition rb_has_c (fuel : nat) (t : tree) (k : K) : cm tree bool :=
    let^ n := rb_find_c fuel t k in cret (match n with Some _ => true | None => false end).
  Definition rb_get_c (fuel : nat) (t : tree) (k : K) : cm tree V :=
    let^ n := rb_find_c fuel t k in cret (match n with Some l => val (hp t l) | None => vzero end).
  (** Put and put, redblacktree.go:287-293, 352-406 *)
  Definition rb_put_c (fuel : nat) (t : tree) (k : K) (v : V) : cm tree (bool * tree) :=
    let^ d := rb_descend_c fuel t k None (parent (hp t 0)) in
    match d with
    | inl l => cret (false, with_hp (<[l := set_val v (hp t l)]> (hp t)) t)
    | inr par =>
        cl (let! (n, t) := alloc t in
            let! h := wr (Some n) (set_kv k v) (hp t) in
            let! h := wr (Some n) (set_color Red) h in
            let! h := link fuel h par n in
            Ok (true, with_size (size t + 1) (with_hp h t)))
    end.
  (** PutNode, redblacktree.go:295-349 *)
  Definition rb_put_node_c (fuel : nat) (t : tree) (n : nat) : cm tree (bool * tree) :=
    let^ d := rb_descend_c fuel t (key (hp t n)) None (parent (hp t 0)) in
    match d with
    | inl l => cret (false, with_hp (<[l := set_val (val (hp t n)) (hp t l)]> (hp t)) t)
    | inr par => cl (let! h := link fuel (hp t) par n in Ok (true, with_hp h t))
    end.
  (** Delete, redblacktree.go:256-270 *)
  Definition rb_delete_c (fuel : nat) (t : tree) (k : K) : cm tree (option nat * tree) :=
    let^ n := rb_find_c fuel t k in
    match n with
    | None => cret (None, t)
    | Some l => let^ (r, t) := rb_remove_node_c fuel t l in cret (Some r, t)
    end.
  (** DeleteKeys, redblacktree.go:244-254 *)
  Fixpoint rb_delete_keys_c (fuel : nat) (t : tree) (ks : list K) : cm tree (Z * tree) :=
    match ks with
    | [] => cret (0%Z, t)
    | k :: ks =>
        let^ (n, t) := rb_delete_c fuel t k in
        let t := match n with Some l => free t l | None => t end in
        let^ (c, t) := rb_delete_keys_c fuel t ks in
        cret ((match n with Some _ => c + 1 | None => c end)%Z, t)
    end.
  (** DeleteByWholeMapping, redblacktree.go:235-242; the value comparator is a
      second function of the user; the answers are counted together, so either may panic *)
  Definition rb_delete_whole_c (fuel : nat) (t : tree) (k : K) (v : V) (vcomp : V -> V -> Z) : cm tree (bool * tree) :=
    let^ n := rb_find_c fuel t k in
    match n with
    | Some l => let^ c := ask vcomp t v (val (hp t l)) in
                if decide (c = 0%Z)
                then let^ (r, t) := rb_remove_node_c fuel t l in cret (true, free t r)
                else cret (false, t)
    | None => cret (false, t)
    end.

  (** one call of a history, as in RBTree_Model.step; the others make no comparison *)
  Definition rb_step_c (fuel : nat) (t : tree) (o : op K V) : cm tree (out V * tree) :=
    match o with
    | OPut k v => let^ (b, t) := rb_put_c fuel t k v in cret (RBool b, t)
    | OPutNode n => let^ (b, t) := rb_put_node_c fuel t n in cret (RBool b, t)
    | OGet k => let^ v := rb_get_c fuel t k in cret (RVal v, t)
    | OHas k => let^ b := rb_has_c fuel t k in cret (RBool b, t)
    | ODelete k => let^ (n, t) := rb_delete_c fuel t k in cret (RNode n, t)
    | ODeleteKeys ks => let^ (z, t) := rb_delete_keys_c fuel t ks in cret (RInt z, t)
    | ODeleteWhole k v vcomp => let^ (b, t) := rb_delete_whole_c fuel t k v vcomp in cret (RBool b, t)
    | ONewNode _ _ | OSetNode _ _ _ | OSize | OClear => cl (step vzero comp fuel t o)
    end.
  (** a history: every call comes with the number of comparisons answered during
      it; the caller recovers from a panic and goes on with the tree as it is.
      The result of an abandoned call is [None]. *)
  Fixpoint rb_run_c (fuel : nat) (t : tree) (os : list (op K V * nat)) : res (list (option (out V)) * tree) :=
    match os with
    | [] => Ok ([], t)
    | (o, n) :: os =>
        match rb_step_c fuel t o n with
        | Done r _ => let! r' := rb_run_c fuel (snd r) os in Ok (Some (fst r) :: fst r', snd r')
        | Crash t => let! r' := rb_run_c fuel t os in Ok (None :: fst r', snd r')
        | CPanic => Panic
        | CFuel => Fuel
        end
    end.
End rb.
