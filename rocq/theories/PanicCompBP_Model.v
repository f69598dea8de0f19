(** A comparator that panics: the B+ tree (see PanicComp_Model).  The state
    recorded at a comparison is the whole tree; the root field still holds the
    old root while insert and delete run (bplustree.go:235-252, 100-109: it is
    assigned their result). *)
From Verif Require Import Base BPlus_Model BPlus_Spec PanicComp_Model.

Section bp.
  Context {K V : Type} (kzero : K) (vzero : V) (comp : K -> K -> Z) (compV : V -> V -> Z).
  Notation tree := (@tree K V).

  (** the binary search of bplustree.go:210-223, in the tree [t] *)
  Fixpoint bsearch_c (t : tree) (fuel : nat) (k : K) (v : list (K * V)) (l hi mid : nat) : cm tree (nat * nat * bool) :=
    match fuel with
    | O => fun _ => CFuel
    | S fuel =>
        if decide (l < hi) then
          let mid := (l + hi - 1) / 2 in
          let^ p := cl (aget v mid) in
          let^ c := ask comp t k p.1 in
          if (c <? 0)%Z then bsearch_c t fuel k v l mid mid
          else if (0 <? c)%Z then bsearch_c t fuel k v (mid + 1) hi mid
          else cret (l, mid, true)
        else cret (l, mid, false)
    end.
  (** search, bplustree.go:200-232 *)
  Fixpoint search_loop_c (t : tree) (fuel : nat) (nd : option nat) (k : K) : cm tree (option nat * Z * bool) :=
    match fuel with
    | O => fun _ => CFuel
    | S fuel =>
        let^ nd := cl (deref nd) in
        let^ (l, mid, ex) := bsearch_c t (S (num (hp t nd))) k (vals (hp t nd)) 0 (num (hp t nd)) 0 in
        if leaf (hp t nd) then
          if (ex : bool) then cret (Some nd, Z.of_nat mid, true) else cret (Some nd, Z.of_nat l, false)
        else
          let^ c := cl (aget (kids (hp t nd)) l) in
          search_loop_c t fuel c k
    end.
  Definition search_c (k : K) (t : tree) : cm tree (option nat * Z * bool) :=
    if (size t =? 0)%Z then cret (None, (-1)%Z, false)
    else search_loop_c t (S (brk t)) (root t) k.
  (** ContainsKey, bplustree.go:49-52 *)
  Definition contains_key_c (k : K) (t : tree) : cm tree bool :=
    let^ (_, _, ex) := search_c k t in cret ex.
  (** the entry read by Get, GetEntry, GetVerify and DeleteByWholeMapping,
      bplustree.go:54-84 *)
  Definition found_entry_c (k : K) (t : tree) : cm tree (option (K * V)) :=
    let^ (nd, idx, ex) := search_c k t in
    if (ex : bool) then
      let^ nd := cl (deref nd) in
      let^ e := cl (aget (vals (hp t nd)) (Z.to_nat idx)) in
      cret (Some e)
    else cret None.
  (** GetVerify, bplustree.go:70-76 (Get and GetEntry make the same comparisons) *)
  Definition get_verify_c (k : K) (t : tree) : cm tree (V * bool) :=
    let^ e := found_entry_c k t in cret (match e with Some e => (e.2, true) | None => (vzero, false) end).

  (** the loop of bplustree.go:156-160; the state is the slice, some of whose
      entries have been moved up already *)
  Fixpoint leaf_shift_c (k : K) (pos : nat) (v : list (K * V)) : cm (list (K * V)) (nat * list (K * V)) :=
    match pos with
    | O => cret (0, v)
    | S q => let^ x := cl (aget v q) in
             let^ c := ask comp v k x.1 in
             if (c <? 0)%Z then let^ v := cl (aset v pos x) in leaf_shift_c k q v else cret (pos, v)
    end.
  (** the loop of bplustree.go:167-170, in the tree [t] *)
  Fixpoint down_pos_c (t : tree) (k : K) (pos : nat) (v : list (K * V)) : cm tree nat :=
    match pos with
    | O => cret 0
    | S q => let^ x := cl (aget v q) in
             let^ c := ask comp t k x.1 in
             if (c <? 0)%Z then down_pos_c t k q v else cret pos
    end.
  (** insertNonFull, bplustree.go:154-181 *)
  Fixpoint insert_non_full_c (fuel : nat) (nd : nat) (p : K * V) (t : tree) : cm tree tree :=
    match fuel with
    | O => fun _ => CFuel
    | S fuel =>
        if leaf (hp t nd) then
          let^ (pos, v) := seen_as (fun v => upd nd (set_vals v) t) (leaf_shift_c p.1 (num (hp t nd)) (vals (hp t nd))) in
          let^ v := cl (aset v pos p) in
          cret (set_size (size t + 1) (upd nd (fun n => set_num (num n + 1) (set_vals v n)) t))
        else
          let^ pos := down_pos_c t p.1 (num (hp t nd)) (vals (hp t nd)) in
          let^ c := cl (aget (kids (hp t nd)) pos) in
          let^ c := cl (deref c) in
          let^ (t, pos) :=
            (if decide (2 * degree t - 1 = num (hp t c)) then
               let^ t := cl (split_child kzero vzero nd c pos t) in
               let^ x := cl (aget (vals (hp t nd)) pos) in
               let^ c := ask comp t x.1 p.1 in
               cret (t, if (c <? 0)%Z then pos + 1 else pos)
             else cret (t, pos)) in
          let^ c := cl (aget (kids (hp t nd)) pos) in
          let^ c := cl (deref c) in
          insert_non_full_c fuel c p t
    end.
  (** insert, bplustree.go:183-198: a full root is split before the first comparison *)
  Definition insert_c (r : option nat) (p : K * V) (t : tree) : cm tree (tree * option nat) :=
    match r with
    | None => cret (t, None)
    | Some r =>
        if decide (degree t * 2 - 1 = num (hp t r)) then
          let (t, nd) := new_node kzero vzero t in
          let t := upd nd (set_leaf false) t in
          let^ t := cl (set_kid nd 0 (Some r) t) in
          let^ t := cl (split_child kzero vzero nd r 0 t) in
          let^ t := insert_non_full_c (S (brk t)) nd p t in
          cret (t, Some nd)
        else
          let^ t := insert_non_full_c (S (brk t)) r p t in
          cret (t, Some r)
    end.
  (** InsertEqual, bplustree.go:235-241 *)
  Definition insert_equal_c (k : K) (v : V) (t : tree) : cm tree (tree * bool) :=
    let^ (t, r) := insert_c (root t) (k, v) t in cret (set_root r t, true).
  (** InsertUnique, bplustree.go:243-252 *)
  Definition insert_unique_c (k : K) (v : V) (t : tree) : cm tree (tree * bool) :=
    let^ ex := contains_key_c k t in
    if (ex : bool) then cret (t, false)
    else let^ (t, r) := insert_c (root t) (k, v) t in cret (set_root r t, true).

  (** the loops of bplustree.go:346-349 and 361-365, in the tree [t] *)
  Fixpoint up_pos_c (t : tree) (n : nat) (k : K) (i : nat) (v : list (K * V)) : cm tree nat :=
    match n with
    | O => cret i
    | S n => let^ x := cl (aget v i) in
             let^ c := ask comp t x.1 k in
             if (c <? 0)%Z then up_pos_c t n k (i + 1) v else cret i
    end.
  (** deleteNonOne, bplustree.go:343-392 *)
  Fixpoint delete_non_one_c (fuel : nat) (rt : nat) (k : K) (t : tree) : cm tree tree :=
    match fuel with
    | O => fun _ => CFuel
    | S fuel =>
        let M := degree t in
        let^ i := up_pos_c t (num (hp t rt)) k 0 (vals (hp t rt)) in
        if leaf (hp t rt) then
          let^ x := cl (aget (vals (hp t rt)) i) in
          let^ c := ask comp t k x.1 in
          if (c =? 0)%Z then
            cl (let! v := shift_left (2 * M - 1 - (i + 1)) (i + 1) (vals (hp t rt)) in
                let t := upd rt (set_vals v) t in
                let! n := dec (num (hp t rt)) in
                Ok (set_size (size t - 1) (upd rt (set_num n) t)))
          else cret t
        else
          let^ y := cl (aget (kids (hp t rt)) i) in
          let^ z := cl (if decide (i < num (hp t rt)) then aget (kids (hp t rt)) (i + 1) else Ok None) in
          let^ tl := cl (if decide (0 < i) then aget (kids (hp t rt)) (i - 1) else Ok None) in
          let^ y := cl (deref y) in
          if decide (num (hp t y) = M - 1) then
            let^ a := cl (if decide (0 < i) then let! l := deref tl in Ok (bool_decide (M - 1 < num (hp t l)))
                          else Ok false) in
            if (a : bool) then
              let^ l := cl (deref tl) in
              let^ t := cl (shift_to_right_child rt l y (i - 1) t) in
              delete_non_one_c fuel y k t
            else
              let^ b := cl (if decide (i < num (hp t rt)) then
                              let! z := deref z in Ok (bool_decide (M - 1 < num (hp t z)))
                            else Ok false) in
              if (b : bool) then
                let^ z := cl (deref z) in
                let^ t := cl (shift_to_left_child rt y z i t) in
                delete_non_one_c fuel y k t
              else if decide (0 < i) then
                let^ l := cl (deref tl) in
                let^ t := cl (merge_child rt l y (i - 1) t) in
                delete_non_one_c fuel l k t
              else
                let^ z := cl (deref z) in
                let^ t := cl (merge_child rt y z i t) in
                delete_non_one_c fuel y k t
          else delete_non_one_c fuel y k t
    end.
  (** delete, bplustree.go:322-341 *)
  Definition delete_c (r : option nat) (k : K) (t : tree) : cm tree (tree * option nat) :=
    let^ r := cl (deref r) in
    if decide (num (hp t r) = 1) then
      let^ y := cl (aget (kids (hp t r)) 0) in
      let^ z := cl (aget (kids (hp t r)) 1) in
      match y, z with
      | Some y, Some z =>
          if decide (num (hp t y) = degree t - 1 /\ num (hp t z) = degree t - 1) then
            let^ t := cl (merge_child r y z 0 t) in
            let^ t := delete_non_one_c (S (brk t)) y k t in
            cret (t, Some y)
          else let^ t := delete_non_one_c (S (brk t)) r k t in cret (t, Some r)
      | _, _ => let^ t := delete_non_one_c (S (brk t)) r k t in cret (t, Some r)
      end
    else let^ t := delete_non_one_c (S (brk t)) r k t in cret (t, Some r).
  (** Delete, bplustree.go:100-109 *)
  Definition delete_key_c (k : K) (t : tree) : cm tree (tree * bool) :=
    let^ ex := contains_key_c k t in
    if (ex : bool) then let^ (t, r) := delete_c (root t) k t in cret (set_root r t, true)
    else cret (t, false).
  (** DeleteByWholeMapping, bplustree.go:78-84; the answers of the two
      comparators are counted together, so either may panic *)
  Definition delete_by_whole_mapping_c (k : K) (v : V) (t : tree) : cm tree (tree * bool) :=
    let^ e := found_entry_c k t in
    match e with
    | Some e => let^ c := ask compV t e.2 v in
                if (c <? 0)%Z then delete_key_c k t else cret (t, false)
    | None => cret (t, false)
    end.

  (** one call of a history, as in BPlus_Spec.do_op *)
  Definition bpair_c (m : cm tree (tree * bool)) : cm tree (tree * @reply V) :=
    let^ (t, b) := m in cret (t, RBool b).
  Definition do_op_c (o : op) (t : tree) : cm tree (tree * @reply V) :=
    match o with
    | InsertEqual k v => bpair_c (insert_equal_c k v t)
    | InsertUnique k v => bpair_c (insert_unique_c k v t)
    | Delete k => bpair_c (delete_key_c k t)
    | DeleteWhole k v => bpair_c (delete_by_whole_mapping_c k v t)
    | GetVerify k => let^ (v, b) := get_verify_c k t in cret (t, RVal v b)
    end.
  (** a history: every call comes with the number of comparisons answered during
      it; the caller recovers from a panic and goes on with the tree as it is.
      The result of an abandoned call is [None]. *)
  Fixpoint bp_run_c (os : list (op * nat)) (t : tree) : res (tree * list (option (@reply V))) :=
    match os with
    | [] => Ok (t, [])
    | (o, n) :: os =>
        match do_op_c o t n with
        | Done r _ => let! (t, rs) := bp_run_c os r.1 in Ok (t, Some r.2 :: rs)
        | Crash t => let! (t, rs) := bp_run_c os t in Ok (t, None :: rs)
        | CPanic => Panic
        | CFuel => Fuel
        end
    end.
  Definition bp_run_new_c (deg : Z) (os : list (op * nat)) : res (tree * list (option (@reply V))) :=
    let! t := new_map kzero vzero deg in bp_run_c os t.
End bp.
