(** A comparator that panics: the skip list (see PanicComp_Model).  Has, Get,
    Rank and the range queries write nothing; their state is the list itself. *)
From Verif Require Import Base SkipList_Model PanicComp_Model.

Section sl.
  Context {K V : Type} (vzero : V) (comp : K -> K -> Z).
  Notation slist := (slist K V).
  Notation arrays := ((nat -> option nat) * (nat -> Z))%type.

  (** the inner loop of every descent; [ans] says what the loop makes of the
      comparator's answer, [b] is the key it compares with *)
  Fixpoint walk_c (fuel : nat) (s : slist) (ans : Z -> bool) (b : K) (i : nat) (x : nat) (r : Z) : cm slist (nat * Z) :=
    match fuel with
    | O => fun _ => CFuel
    | S f => let^ y := cl (rd_fwd (hp s) x i) in
             match y with
             | Some y => let^ c := ask comp s (key (hp s y)) b in
                         if ans c
                         then let^ d := cl (rd_span (hp s) x i) in walk_c f s ans b i y (r + d)%Z
                         else cret (x, r)
             | None => cret (x, r)
             end
    end.
  Fixpoint descend_c (fuel : nat) (s : slist) (ans : Z -> bool) (b : K) (n : nat) (x : nat) (r : Z) (a : arrays) : cm slist (nat * arrays) :=
    match n with
    | O => cret (x, a)
    | S i => let^ (x, r) := walk_c fuel s ans b i x r in
             descend_c fuel s ans b i x r (<[i := Some x]> a.1, <[i := r]> a.2)
    end.
  (** search, skiplist.go:89-105 *)
  Fixpoint search_from_c (fuel : nat) (s : slist) (k : K) (n : nat) (x : nat) (r : Z) : cm slist (option nat * Z) :=
    match n with
    | O => cret (None, 0%Z)
    | S i => let^ (x, r) := walk_c fuel s (fun c => bool_decide (c <> 1%Z)) k i x r in
             let^ c := ask comp s (key (hp s x)) k in
             if decide (c = 0%Z) then cret (Some x, r) else search_from_c fuel s k i x r
    end.
  Definition sl_search_c (fuel : nat) (s : slist) (k : K) : cm slist (option nat * Z) :=
    search_from_c fuel s k (level s) (hdr s) 0.
  (** Has, Get, skiplist.go:73-87; Rank, skiplist.go:354-360 *)
  Definition sl_has_c (fuel : nat) (s : slist) (k : K) : cm slist bool :=
    let^ (n, _) := sl_search_c fuel s k in cret (match n with Some _ => true | None => false end).
  Definition sl_get_c (fuel : nat) (s : slist) (k : K) : cm slist V :=
    let^ (n, _) := sl_search_c fuel s k in cret (match n with Some x => val (hp s x) | None => vzero end).
  Definition sl_rank_c (fuel : nat) (s : slist) (k : K) : cm slist Z :=
    let^ (n, r) := sl_search_c fuel s k in cret (match n with Some _ => r | None => 0%Z end).
  (** insert, skiplist.go:266-331, from the drawing of the level on
      (skiplist.go:294-331): no comparison is made any more *)
  Definition sl_insert_rest (s : slist) (k : K) (v : V) (draw : Z) (a : arrays) : res (bool * slist) :=
    let lv := random_level draw in
    let n := lv - level s in
    let! (h, a) := for_up n (level s) (raise_body s) (hp s, a) in
    let slevel := level s `max` lv in
    let x := brk s in
    let h := <[x := new_node lv k v]> h in
    let! h := for_up lv 0 (link_body x a) h in
    let! h := for_up (slevel - lv) lv (bump_body a) h in
    let! u0 := deref (a.1 0) in
    let h := wr x (set_back (if decide (u0 = hdr s) then None else Some u0)) h in
    let! f0 := rd_fwd h x 0 in
    let '(h, t) := match f0 with
                   | Some y => (wr y (set_back (Some x)) h, tail s)
                   | None => (h, Some x)
                   end in
    Ok (true, SList h (brk s + 1) (hdr s) t (size s + 1) slevel).
  Definition sl_insert_c (fuel : nat) (s : slist) (k : K) (v : V) (unique : bool) (draw : Z) : cm slist (bool * slist) :=
    let^ (_, a) := descend_c fuel s (fun c => bool_decide (c = 0%Z)) k (level s) (hdr s) 0 no_arrays in
    let^ u0 := cl (deref (a.1 0)) in
    let^ f0 := cl (rd_fwd (hp s) u0 0) in
    let^ dup := (if unique then                                     (* skiplist.go:286-288 *)
                   match f0 with
                   | Some y => let^ c := ask comp s (key (hp s y)) k in
                               cret (bool_decide (c = 0%Z))
                   | None => cret false
                   end
                 else cret false) in
    if (dup : bool) then cret (false, s) else cl (sl_insert_rest s k v draw a).
  (** Delete, skiplist.go:107-126 *)
  Definition sl_delete_c (fuel : nat) (s : slist) (k : K) : cm slist (bool * slist) :=
    let^ (x, a) := descend_c fuel s (fun c => bool_decide (c = 0%Z)) k (level s) (hdr s) 0 no_arrays in
    let^ y := cl (rd_fwd (hp s) x 0) in
    match y with
    | Some y => let^ c := ask comp s k (key (hp s y)) in
                if decide (c = 0%Z)
                then let^ s := cl (delete_node s y a) in cret (true, s)
                else cret (false, s)
    | None => cret (false, s)
    end.
  (** DeleteByWholeMapping, skiplist.go:128-135; the value comparator is a
      second function of the user; the answers are counted together, so either may panic *)
  Definition sl_delete_whole_c (fuel : nat) (s : slist) (k : K) (v : V) (vcomp : V -> V -> Z) : cm slist (bool * slist) :=
    let^ (n, _) := sl_search_c fuel s k in
    match n with
    | Some x => let^ c := ask vcomp s v (val (hp s x)) in
                if decide (c = 0%Z)
                then let^ (_, s) := sl_delete_c fuel s k in cret (true, s)
                else cret (false, s)
    | None => cret (false, s)
    end.
  (** DeleteKeys, skiplist.go:137-145 *)
  Fixpoint sl_delete_keys_c (fuel : nat) (s : slist) (ks : list K) : cm slist (Z * slist) :=
    match ks with
    | [] => cret (0%Z, s)
    | k :: ks => let^ (b, s) := sl_delete_c fuel s k in
                 let^ (c, s) := sl_delete_keys_c fuel s ks in
                 cret ((if b : bool then c + 1 else c)%Z, s)
    end.
  (** DeleteRangeByKey, skiplist.go:461-483: nodes are removed between the
      comparisons of the second loop *)
  Fixpoint sl_delete_range_loop_c (fuel : nat) (s : slist) (max : K) (a : arrays) (x : option nat) (removed : Z) : cm slist (Z * slist) :=
    match fuel with
    | O => fun _ => CFuel
    | S f => match x with
             | Some y => let^ c := ask comp s (key (hp s y)) max in
                         if decide (c = -1)%Z
                         then let^ nxt := cl (rd_fwd (hp s) y 0) in
                              let^ s := cl (delete_node s y a) in
                              sl_delete_range_loop_c f s max a nxt (removed + 1)%Z
                         else cret (removed, s)
             | None => cret (removed, s)
             end
    end.
  Definition sl_delete_range_c (fuel : nat) (s : slist) (min max : K) : cm slist (Z * slist) :=
    let^ (x, a) := descend_c fuel s (fun c => bool_decide (c = -1)%Z) min (level s) (hdr s) 0 no_arrays in
    let^ y := cl (rd_fwd (hp s) x 0) in
    sl_delete_range_loop_c fuel s max a y 0.

  (** one call of a history, as in step; Clear and SetValue make
      no comparison *)
  Definition sl_step_c (kzero : K) (fuel : nat) (s : slist) (o : op K V) : cm slist (out * slist) :=
    match o with
    | OInsertUnique k v u => let^ (b, s) := sl_insert_c fuel s k v true u in cret (RBool b, s)
    | OInsertEquals k v u => let^ (b, s) := sl_insert_c fuel s k v false u in cret (RBool b, s)
    | ODelete k => let^ (b, s) := sl_delete_c fuel s k in cret (RBool b, s)
    | ODeleteKeys ks => let^ (z, s) := sl_delete_keys_c fuel s ks in cret (RInt z, s)
    | ODeleteWhole k v vc => let^ (b, s) := sl_delete_whole_c fuel s k v vc in cret (RBool b, s)
    | ODeleteRange min max => let^ (z, s) := sl_delete_range_c fuel s min max in cret (RInt z, s)
    | OClear => cl (step kzero vzero comp fuel s OClear)
    | OSetValue i v => cl (step kzero vzero comp fuel s (OSetValue i v))
    end.
  Fixpoint sl_run_c (kzero : K) (fuel : nat) (s : slist) (os : list (op K V * nat)) : res (list (option out) * slist) :=
    match os with
    | [] => Ok ([], s)
    | (o, n) :: os =>
        match sl_step_c kzero fuel s o n with
        | Done r _ => let! r' := sl_run_c kzero fuel (snd r) os in Ok (Some (fst r) :: fst r', snd r')
        | Crash s => let! r' := sl_run_c kzero fuel s os in Ok (None :: fst r', snd r')
        | CPanic => Panic
        | CFuel => Fuel
        end
    end.
End sl.
