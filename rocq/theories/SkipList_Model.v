(** Model of collections/skiplist: skiplist.go, skiplist_node.go.

    Heap model: a node is an address (nat), nil is [None]; a node's level slice
    has length [ht] and an access beyond it panics.  Loops over node pointers
    run on fuel; [Fuel] means "not finished yet".  The random generator is an
    input: every insertion takes the 64-bit draw it consumes.  ints are
    unbounded.  [comp] is an arbitrary function.
    Not modelled: String (its walk is that of Iter), SetCompareFunc,
    GetCompareFunc, SetValue on a node, and the seeding of the generator. *)
From Verif Require Import Base Iter_Model.
From stdpp Require Export functions.
From stdpp Require Export list.

Notation loc := nat (only parsing).

(** const MaxLevel, skiplist.go:17-19 *)
Definition max_level : nat := 32.

(** randomLevel, skiplist.go:57-67, on the draw [u]; the loop runs at most 32 times,
    and the fuel never runs out (theorem C44) *)
Fixpoint level_loop (fuel : nat) (total levelN k : Z) (level : nat) : nat :=
  match fuel with
  | O => level
  | S f => if decide (total > k)%Z
           then let levelN := Z.shiftr levelN 1 in level_loop f (total - levelN) levelN k (level + 1)
           else level
  end.
Definition random_level (u : Z) : nat :=
  let total := (2 ^ 32 - 1)%Z in
  let k := (u mod total)%Z in
  let levelN := (2 ^ 31)%Z in
  level_loop 64 (total - levelN) levelN k 1.

Section sl.
  Context {K V : Type} (kzero : K) (vzero : V) (comp : K -> K -> Z).

  (** type Node and Level, skiplist_node.go:3-13; [fwd n i], [span n i] are
      level[i].forward and level[i].span, meaningful for i < ht n *)
  Record node := Node {
    key : K; val : V; back : option loc; ht : nat; fwd : nat -> option loc; span : nat -> Z }.
  Notation heap := (nat -> node).
  Definition set_fwd (i : nat) (p : option loc) n := Node (key n) (val n) (back n) (ht n) (<[i := p]> (fwd n)) (span n).
  Definition set_span (i : nat) (z : Z) n := Node (key n) (val n) (back n) (ht n) (fwd n) (<[i := z]> (span n)).
  Definition set_back (p : option loc) n := Node (key n) (val n) p (ht n) (fwd n) (span n).
  Definition wr (l : loc) (f : node -> node) (h : heap) : heap := <[l := f (h l)]> h.

  (** x.level[i].forward and x.level[i].span: panics beyond the slice *)
  Definition rd_fwd (h : heap) (x : loc) (i : nat) : res (option loc) :=
    if decide (i < ht (h x)) then Ok (fwd (h x) i) else Panic.
  Definition rd_span (h : heap) (x : loc) (i : nat) : res Z :=
    if decide (i < ht (h x)) then Ok (span (h x) i) else Panic.
  Definition wr_fwd (x : loc) (i : nat) (p : option loc) (h : heap) : res heap :=
    if decide (i < ht (h x)) then Ok (wr x (set_fwd i p) h) else Panic.
  Definition wr_span (x : loc) (i : nat) (z : Z) (h : heap) : res heap :=
    if decide (i < ht (h x)) then Ok (wr x (set_span i z) h) else Panic.

  (** type List, skiplist.go:21-28; [brk]: the next fresh address *)
  Record slist := SList { hp : heap; brk : loc; hdr : loc; tail : option loc; size : Z; level : nat }.
  Definition with_hp (h : heap) s := SList h (brk s) (hdr s) (tail s) (size s) (level s).
  Definition with_tail p s := SList (hp s) (brk s) (hdr s) p (size s) (level s).
  Definition with_size z s := SList (hp s) (brk s) (hdr s) (tail s) z (level s).
  Definition with_level n s := SList (hp s) (brk s) (hdr s) (tail s) (size s) n.

  (** NewNode, skiplist.go:31-38 *)
  Definition new_node (lv : nat) (k : K) (v : V) : node := Node k v None lv (fun _ => None) (fun _ => 0%Z).
  (** New, Init, skiplist.go:40-55: the header is a fresh node of height MaxLevel.
      Clear, skiplist.go:147-150, is Init again. *)
  Definition init (h : heap) (b : loc) : slist :=
    SList (<[b := new_node max_level kzero vzero]> h) (b + 1) b None 0 1.
  Definition new_list : slist := init (fun _ => new_node 0 kzero vzero) 0.
  Definition clear (s : slist) : slist := init (hp s) (brk s).

  (** the inner loop of every descent:
      [for x.level[i].forward != nil && test(x.level[i].forward.key) { rank += x.level[i].span; x = x.level[i].forward }] *)
  Fixpoint walk (fuel : nat) (h : heap) (test : K -> bool) (i : nat) (x : loc) (r : Z) : res (loc * Z) :=
    match fuel with
    | O => Fuel
    | S f => let! y := rd_fwd h x i in
             match y with
             | Some y => if test (key (h y))
                         then let! d := rd_span h x i in walk f h test i y (r + d)%Z
                         else Ok (x, r)
             | None => Ok (x, r)
             end
    end.
  (** the outer loop [for i = n-1; i >= 0; i--] of insert (272-284), Delete
      (112-117), FirstInRange (425-429), LastInRange (445-449) and
      DeleteRangeByKey (467-472): fills update[i] and rank[i] *)
  Notation arrays := ((nat -> option loc) * (nat -> Z))%type.
  Fixpoint descend (fuel : nat) (h : heap) (test : K -> bool) (n : nat) (x : loc) (r : Z) (a : arrays) : res (loc * arrays) :=
    match n with
    | O => Ok (x, a)
    | S i => let! (x, r) := walk fuel h test i x r in
             descend fuel h test i x r (<[i := Some x]> a.1, <[i := r]> a.2)
    end.
  Definition no_arrays : arrays := (fun _ => None, fun _ => 0%Z).

  (** for i := a; i < a+n; i++ *)
  Fixpoint for_up {S : Type} (n a : nat) (body : nat -> S -> res S) (s : S) : res S :=
    match n with O => Ok s | Datatypes.S n => let! s := body a s in for_up n (a + 1) body s end.

  (** ** search, skiplist.go:89-105 *)
  Fixpoint search_from (fuel : nat) (h : heap) (k : K) (n : nat) (x : loc) (r : Z) : res (option loc * Z) :=
    match n with
    | O => Ok (None, 0%Z)
    | S i => let! (x, r) := walk fuel h (fun k' => bool_decide (comp k' k <> 1%Z)) i x r in
             if decide (comp (key (h x)) k = 0%Z) then Ok (Some x, r) else search_from fuel h k i x r
    end.
  Definition search (fuel : nat) (s : slist) (k : K) : res (option loc * Z) :=
    search_from fuel (hp s) k (level s) (hdr s) 0.
  (** Has, Get, skiplist.go:73-87; Rank, skiplist.go:354-360 *)
  Definition has (fuel : nat) (s : slist) (k : K) : res bool :=
    let! (n, _) := search fuel s k in Ok (match n with Some _ => true | None => false end).
  Definition get (fuel : nat) (s : slist) (k : K) : res V :=
    let! (n, _) := search fuel s k in Ok (match n with Some x => val (hp s x) | None => vzero end).
  Definition rank (fuel : nat) (s : slist) (k : K) : res Z :=
    let! (n, r) := search fuel s k in Ok (match n with Some _ => r | None => 0%Z end).

  (** ** insert, skiplist.go:266-331 *)
  (** skiplist.go:296-300: the levels the new node adds *)
  Definition raise_body (s0 : slist) (i : nat) (st : heap * (arrays)) : res (heap * (arrays)) :=
    let '(h, a) := st in
    let! h := wr_span (hdr s0) i (size s0) h in
    Ok (h, (<[i := Some (hdr s0)]> a.1, <[i := 0%Z]> a.2)).
  (** skiplist.go:304-311 *)
  Definition link_body (x : loc) (a : arrays) (i : nat) (h : heap) : res heap :=
    let! u := deref (a.1 i) in
    let! f := rd_fwd h u i in
    let! h := wr_fwd x i f h in
    let! h := wr_fwd u i (Some x) h in
    let! d := rd_span h u i in
    let! h := wr_span x i (d - (a.2 0%nat - a.2 i))%Z h in
    wr_span u i ((a.2 0%nat - a.2 i) + 1)%Z h.
  (** skiplist.go:314-316 *)
  Definition bump_body (a : arrays) (i : nat) (h : heap) : res heap :=
    let! u := deref (a.1 i) in
    let! d := rd_span h u i in
    wr_span u i (d + 1)%Z h.
  Definition insert (fuel : nat) (s : slist) (k : K) (v : V) (unique : bool) (draw : Z) : res (bool * slist) :=
    let! (_, a) := descend fuel (hp s) (fun k' => bool_decide (comp k' k = 0%Z)) (level s) (hdr s) 0 no_arrays in
    let! u0 := deref (a.1 0) in
    let! f0 := rd_fwd (hp s) u0 0 in
    let dup := match f0 with Some y => bool_decide (comp (key (hp s y)) k = 0%Z) | None => false end in
    if unique && dup then Ok (false, s) else                             (* skiplist.go:286-288 *)
    let lv := random_level draw in
    let n := lv - level s in
    let! (h, a) := for_up n (level s) (raise_body s) (hp s, a) in          (* skiplist.go:294-302 *)
    let slevel := level s `max` lv in
    let x := brk s in
    let h := <[x := new_node lv k v]> h in
    let! h := for_up lv 0 (link_body x a) h in
    let! h := for_up (slevel - lv) lv (bump_body a) h in
    let! u0 := deref (a.1 0) in
    let h := wr x (set_back (if decide (u0 = hdr s) then None else Some u0)) h in   (* skiplist.go:317-321 *)
    let! f0 := rd_fwd h x 0 in
    let '(h, t) := match f0 with                                          (* skiplist.go:323-328 *)
                   | Some y => (wr y (set_back (Some x)) h, tail s)
                   | None => (h, Some x)
                   end in
    Ok (true, SList h (brk s + 1) (hdr s) t (size s + 1) slevel).

  (** ** deleteNode, skiplist.go:333-352 *)
  Definition unlink_body (x : loc) (a : arrays) (i : nat) (h : heap) : res heap :=
    let! u := deref (a.1 i) in
    let! f := rd_fwd h u i in
    let! d := rd_span h u i in
    if decide (f = Some x) then
      let! dx := rd_span h x i in
      let! h := wr_span u i (d + (dx - 1))%Z h in
      let! fx := rd_fwd h x i in
      wr_fwd u i fx h
    else wr_span u i (d - 1)%Z h.
  (** skiplist.go:348-350 *)
  Fixpoint lower (h : heap) (hd : loc) (lv : nat) : res nat :=
    match lv with
    | S (S n as m) => let! f := rd_fwd h hd m in
                      match f with None => lower h hd m | Some _ => Ok lv end
    | _ => Ok lv
    end.
  Definition delete_node (s : slist) (x : loc) (a : arrays) : res slist :=
    let! h := for_up (level s) 0 (unlink_body x a) (hp s) in
    let! f0 := rd_fwd h x 0 in
    let '(h, t) := match f0 with
                   | Some y => (wr y (set_back (back (h x))) h, tail s)
                   | None => (h, back (h x))
                   end in
    let! lv := lower h (hdr s) (level s) in
    Ok (SList h (brk s) (hdr s) t (size s - 1) lv).

  (** Delete, skiplist.go:107-126 *)
  Definition delete (fuel : nat) (s : slist) (k : K) : res (bool * slist) :=
    let! (x, a) := descend fuel (hp s) (fun k' => bool_decide (comp k' k = 0%Z)) (level s) (hdr s) 0 no_arrays in
    let! y := rd_fwd (hp s) x 0 in
    match y with
    | Some y => if decide (comp k (key (hp s y)) = 0%Z)
                then let! s := delete_node s y a in Ok (true, s)
                else Ok (false, s)
    | None => Ok (false, s)
    end.
  (** DeleteByWholeMapping, skiplist.go:128-135 *)
  Definition delete_whole (fuel : nat) (s : slist) (k : K) (v : V) (vcomp : V -> V -> Z) : res (bool * slist) :=
    let! (n, _) := search fuel s k in
    match n with
    | Some x => if decide (vcomp v (val (hp s x)) = 0%Z)
                then let! (_, s) := delete fuel s k in Ok (true, s)
                else Ok (false, s)
    | None => Ok (false, s)
    end.
  (** DeleteKeys, skiplist.go:137-145 *)
  Fixpoint delete_keys (fuel : nat) (s : slist) (ks : list K) : res (Z * slist) :=
    match ks with
    | [] => Ok (0%Z, s)
    | k :: ks => let! (b, s) := delete fuel s k in
                 let! (c, s) := delete_keys fuel s ks in
                 Ok ((if b : bool then c + 1 else c)%Z, s)
    end.

  (** ** GetByRank, skiplist.go:362-377 *)
  Fixpoint rank_walk (fuel : nat) (h : heap) (r : Z) (i : nat) (x : loc) (t : Z) : res (loc * Z) :=
    match fuel with
    | O => Fuel
    | S f => let! y := rd_fwd h x i in
             let! d := rd_span h x i in
             match y with
             | Some y => if decide (t + d <= r)%Z then rank_walk f h r i y (t + d)%Z else Ok (x, t)
             | None => Ok (x, t)
             end
    end.
  Fixpoint rank_from (fuel : nat) (h : heap) (r : Z) (n : nat) (x : loc) (t : Z) : res V :=
    match n with
    | O => Ok vzero
    | S i => let! (x, t) := rank_walk fuel h r i x t in
             if decide (t = r) then Ok (val (h x)) else rank_from fuel h r i x t
    end.
  Definition get_by_rank (fuel : nat) (s : slist) (r : Z) : res V :=
    rank_from fuel (hp s) r (level s) (hdr s) 0.

  (** ** First, Last, Iter, skiplist.go:182-188, 202-214; Next, skiplist_node.go:19-22 *)
  Definition first (s : slist) : option loc := fwd (hp s (hdr s)) 0.
  Definition next (s : slist) (l : loc) : option loc := fwd (hp s l) 0.
  Definition entry (s : slist) (l : loc) : K * V := (key (hp s l), val (hp s l)).
  Definition iter_next (s : slist) (p : option loc) : res (option (K * V) * option loc) :=
    match p with
    | Some l => let! n := rd_fwd (hp s) l 0 in Ok (Some (entry s l), n)
    | None => Ok (None, None)
    end.

  (** ** ranges *)
  (** IsInAllRange, skiplist.go:381-398 *)
  Definition is_in_all_range (s : slist) (min max : K) : bool :=
    if decide (comp min max > -1)%Z then false else
    match tail s with
    | None => false
    | Some x =>
        if decide (comp (key (hp s x)) min = -1)%Z then false else
        if decide (comp (key (hp s x)) max = -1)%Z then false else
        match first s with
        | None => false
        | Some x => if decide (comp (key (hp s x)) max = 1)%Z then false else
                    if decide (comp (key (hp s x)) min = 1)%Z then false else true
        end
    end.
  (** IsInPartOfRange, skiplist.go:402-417 *)
  Definition is_in_part_of_range (s : slist) (min max : K) : bool :=
    if decide (comp min max > -1)%Z then false else
    match tail s with
    | None => false
    | Some x =>
        if decide (comp (key (hp s x)) min = -1)%Z then false else
        match first s with
        | None => false
        | Some x => if decide (comp (key (hp s x)) max = 1)%Z then false else true
        end
    end.
  (** FirstInRange, skiplist.go:419-438; skiplist.go:432 panics explicitly *)
  Definition first_in_range (fuel : nat) (s : slist) (min max : K) : res (option loc) :=
    if negb (is_in_all_range s min max) then Ok None else
    let! (x, _) := descend fuel (hp s) (fun k' => bool_decide (comp k' min = -1)%Z) (level s) (hdr s) 0 no_arrays in
    let! y := rd_fwd (hp s) x 0 in
    let! y := deref y in
    if decide (comp (key (hp s y)) max = 1)%Z then Ok None else Ok (Some y).
  (** LastInRange, skiplist.go:440-459 *)
  Definition last_in_range (fuel : nat) (s : slist) (min max : K) : res (option loc) :=
    if negb (is_in_all_range s min max) then Ok None else
    let! (x, _) := descend fuel (hp s) (fun k' => bool_decide (comp k' max = -1)%Z) (level s) (hdr s) 0 no_arrays in
    let! y := rd_fwd (hp s) x 0 in
    let! y := deref y in
    if decide (comp (key (hp s y)) min = -1)%Z then Ok None else Ok (Some y).
  (** DeleteRangeByKey, skiplist.go:461-483 *)
  Fixpoint delete_range_loop (fuel : nat) (s : slist) (max : K) (a : arrays) (x : option loc) (removed : Z) : res (Z * slist) :=
    match fuel with
    | O => Fuel
    | S f => match x with
             | Some y => if decide (comp (key (hp s y)) max = -1)%Z
                         then let! nxt := rd_fwd (hp s) y 0 in
                              let! s := delete_node s y a in
                              delete_range_loop f s max a nxt (removed + 1)%Z
                         else Ok (removed, s)
             | None => Ok (removed, s)
             end
    end.
  Definition delete_range (fuel : nat) (s : slist) (min max : K) : res (Z * slist) :=
    let! (x, a) := descend fuel (hp s) (fun k' => bool_decide (comp k' min = -1)%Z) (level s) (hdr s) 0 no_arrays in
    let! y := rd_fwd (hp s) x 0 in
    delete_range_loop fuel s max a y 0.

  (** the node reached from [p] by [i] times Next, skiplist_node.go:19-22 *)
  Fixpoint nth_node (i : nat) (s : slist) (p : option loc) : option loc :=
    match i, p with
    | S i, Some l => nth_node i s (next s l)
    | _, _ => p
    end.
  (** SetValue, skiplist_node.go:32-34 *)
  Definition set_value (s : slist) (l : loc) (v : V) : slist :=
    with_hp (wr l (fun n => Node (key n) v (back n) (ht n) (fwd n) (span n)) (hp s)) s.

  (** ** histories *)
  Inductive op :=
  | OInsertUnique (k : K) (v : V) (draw : Z)   (* also Put, skiplist.go:69 *)
  | OInsertEquals (k : K) (v : V) (draw : Z)
  | ODelete (k : K) | ODeleteKeys (ks : list K) | ODeleteWhole (k : K) (v : V) (vcomp : V -> V -> Z)
  | ODeleteRange (min max : K) | OClear
  | OSetValue (i : nat) (v : V).               (* SetValue(v) on the node reached from First by i times Next; nothing if there is none *)
  Inductive out := RBool (b : bool) | RInt (z : Z) | RUnit.
  Definition step (fuel : nat) (s : slist) (o : op) : res (out * slist) :=
    match o with
    | OInsertUnique k v u => let! (b, s) := insert fuel s k v true u in Ok (RBool b, s)
    | OInsertEquals k v u => let! (b, s) := insert fuel s k v false u in Ok (RBool b, s)
    | ODelete k => let! (b, s) := delete fuel s k in Ok (RBool b, s)
    | ODeleteKeys ks => let! (z, s) := delete_keys fuel s ks in Ok (RInt z, s)
    | ODeleteWhole k v vc => let! (b, s) := delete_whole fuel s k v vc in Ok (RBool b, s)
    | ODeleteRange min max => let! (z, s) := delete_range fuel s min max in Ok (RInt z, s)
    | OClear => Ok (RUnit, clear s)
    | OSetValue i v => Ok (RUnit, match nth_node i s (first s) with Some l => set_value s l v | None => s end)
    end.
  Fixpoint run (fuel : nat) (s : slist) (os : list op) : res (list out * slist) :=
    match os with
    | [] => Ok ([], s)
    | o :: os => let! (r, s) := step fuel s o in
                 let! (rs, s) := run fuel s os in Ok (r :: rs, s)
    end.
End sl.
Arguments node : clear implicits.
Notation heap K V := (nat -> node K V) (only parsing).
Arguments slist : clear implicits.
Arguments op : clear implicits.
