(** Model of collections/lockfreeskiplist/lockfree_skiplist.go.

    Memory is a growing list of nodes: the address of a node is its index, a
    new node is appended (garbage collection is not observable).  A link is
    an address or nil together with its lowest bit, the mark (assumption: a
    node's address is even).  Every atomic load, compare-and-swap and add of
    shared memory is one step of one goroutine and memory is sequentially
    consistent, which is what sync/atomic gives; computations on local
    variables (and on a node that has not been published yet: newNode and the
    loop of lines 51-53) are part of the step before.  The fields level and
    value of a node and the slice header nexts never change after newNode.
    rand is a number chosen freely at the step that uses it. *)
From Verif Require Import Base Lin_Spec.

Section lockfree.
  Context {T : Type} (zero : T) (comp : T -> T -> Z).

  (** lockfree_skiplist.go:11 *)
  Definition max_level : nat := 20.
  Definition link : Type := option nat * bool.
  (** lockfree_skiplist.go:21-25 *)
  Record node := Node { level : nat; nexts : list link; value : T }.
  (** lockfree_skiplist.go:14-19; the addresses of head and tail are 0 and 1 *)
  Record mem := Mem { heap : list node; size : Z }.
  Definition head : nat := 0.
  Definition tail : nat := 1.

  (** NewLockFreeSkipList, lockfree_skiplist.go:28-39 *)
  Definition new_list : mem :=
    Mem [Node max_level (replicate max_level (Some tail, false)) zero;
         Node max_level (replicate max_level (None, false)) zero] 0.

  (** loadNext, lockfree_skiplist.go:266-268; a nil node or an index out of range panics *)
  Definition load_next (h : list node) (nd : option nat) (l : nat) : res link :=
    let! i := deref nd in let! n := deref (h !! i) in deref (nexts n !! l).
  (** casNext, lockfree_skiplist.go:274-276 *)
  Definition cas_next (h : list node) (nd : option nat) (l : nat) (expected desire : link) : res (bool * list node) :=
    let! i := deref nd in let! n := deref (h !! i) in let! x := deref (nexts n !! l) in
    if decide (x = expected) then Ok (true, <[i := Node (level n) (<[l := desire]> (nexts n)) (value n)]> h)
    else Ok (false, h).
  (** isMarked, getMarked, getUnmarked, lockfree_skiplist.go:278-292 *)
  Definition is_marked (x : link) : bool := x.2.
  Definition get_marked (x : link) : link := (x.1, true).
  Definition get_unmarked (x : link) : option nat := x.1.
  (** less, lockfree_skiplist.go:136-144, and equals, lockfree_skiplist.go:146-151 *)
  Definition less (h : list node) (nd : option nat) (v : T) : res bool :=
    if decide (nd = Some head) then Ok true
    else if decide (nd = Some tail) then Ok false
    else let! i := deref nd in let! n := deref (h !! i) in Ok (bool_decide (comp (value n) v < 0)%Z).
  Definition equals (h : list node) (nd : option nat) (v : T) : res bool :=
    if decide (nd = Some head \/ nd = Some tail) then Ok false
    else let! i := deref nd in let! n := deref (h !! i) in Ok (bool_decide (comp (value n) v = 0)%Z).
  (** int32 arithmetic *)
  Definition to_int32 (z : Z) : Z := ((z + 2 ^ 31) mod 2 ^ 32 - 2 ^ 31)%Z.

  Inductive op := Add (v : T) | Del (v : T) | Has (v : T) | Get (v : T) | Rank (v : T) | Len.
  Inductive ret := RBool (b : bool) | RVal (v : T) | RInt (z : Z).

  (** The search of find (224-253), get (153-183) and getRank (185-222), which
      differ in what they return and in rank. *)
  Inductive purpose :=
  | ForAdd                        (* lockfree_skiplist.go:46 *)
  | ForLink (l new : nat)         (* lockfree_skiplist.go:65 *)
  | ForDel | ForHas | ForGet      (* lockfree_skiplist.go:78, 108, 114 *)
  | ForRank (rank : Z).           (* lockfree_skiplist.go:120 *)
  Inductive pos :=
  | PLoad (l : nat) (prev : option nat)                  (* lockfree_skiplist.go:231, 240: prev.loadNext(level) *)
  | PCur (l : nat) (prev cur : option nat)               (* lockfree_skiplist.go:233, 241: cur.loadNext(level) *)
  | PSnip (l : nat) (prev cur : option nat) (next : link). (* lockfree_skiplist.go:237: prev.casNext(level, cur, next) *)
  (** the local arrays prevs and nexts *)
  Notation arr := (list (option nat)) (only parsing).
  Definition no_nodes : arr := replicate max_level None.

  Inductive pc :=
  | Quiet                                                (* not in a call *)
  | Find (k : purpose) (v : T) (prevs succs : arr) (p : pos)
  | AddCas (v : T) (new : nat) (prevs succs : arr)       (* lockfree_skiplist.go:54 *)
  | AddLink (l : nat) (v : T) (new : nat) (prevs succs : arr)  (* lockfree_skiplist.go:60 *)
  | AddInc                                               (* lockfree_skiplist.go:70 *)
  | DelLoad (v : T) (l : nat) (nd : option nat)          (* lockfree_skiplist.go:83, 87; for level 0: lockfree_skiplist.go:90 *)
  | DelCas (v : T) (l : nat) (nd : option nat) (next : link)   (* lockfree_skiplist.go:86; for level 0: lockfree_skiplist.go:95 *)
  | DelDec                                               (* lockfree_skiplist.go:100 *)
  | LenLoad                                              (* lockfree_skiplist.go:125 *)
  | RankLoad (v : T)                                     (* lockfree_skiplist.go:189 *)
  | Ready (r : ret).                                     (* about to return to the caller *)

  (** retry: lockfree_skiplist.go:228-229 *)
  Definition find_start (k : purpose) (v : T) (prevs succs : arr) : pc :=
    Find k v prevs succs (PLoad (max_level - 1) (Some head)).
  Definition start (o : op) : pc :=
    match o with
    | Add v => find_start ForAdd v no_nodes no_nodes
    | Del v => find_start ForDel v no_nodes no_nodes
    | Has v => find_start ForHas v no_nodes no_nodes
    | Get v => find_start ForGet v no_nodes no_nodes
    | Rank v => RankLoad v
    | Len => LenLoad
    end.

  (** newNode and lockfree_skiplist.go:51-53: the new node's links are the first [top] of nexts *)
  Definition make_node (top : nat) (v : T) (succs : arr) : node :=
    Node top ((fun s : option nat => (s, false)) <$> take top succs) v.
  (** the loop of lockfree_skiplist.go:58 at [l] *)
  Definition add_next (l top : nat) (v : T) (new : nat) (prevs succs : arr) : pc :=
    if decide (l < top) then AddLink l v new prevs succs else AddInc.

  (** what the caller of the search does when it ends at [cur]:
      lockfree_skiplist.go:252 and lockfree_skiplist.go:46-53, 65, 78-82, 108; lockfree_skiplist.go:181; lockfree_skiplist.go:220.
      [top] is the value of randomLevel (lockfree_skiplist.go:128-134). *)
  Definition found (m : mem) (k : purpose) (v : T) (prevs succs : arr) (cur : option nat) (top : nat) : res (mem * pc) :=
    match k with
    | ForAdd =>
        let! b := equals (heap m) cur v in
        if b : bool then Ok (m, Ready (RBool false))
        else let new := length (heap m) in
             Ok (Mem (heap m ++ [make_node top v succs]) (size m), AddCas v new prevs succs)
    | ForLink l new => Ok (m, AddLink l v new prevs succs)
    | ForDel =>
        let! b := equals (heap m) cur v in
        if b : bool then
          let! i := deref cur in let! n := deref (heap m !! i) in
          Ok (m, DelLoad v (level n - 1) cur)
        else Ok (m, Ready (RBool false))
    | ForHas => let! b := equals (heap m) cur v in Ok (m, Ready (RBool b))
    | ForGet => let! i := deref cur in let! n := deref (heap m !! i) in Ok (m, Ready (RVal (value n)))
    | ForRank rank => Ok (m, Ready (RInt rank))
    end.
  Definition hop (k : purpose) : purpose := match k with ForRank r => ForRank (r + 1) | _ => k end.

  (** one step of a goroutine that is in a call *)
  Definition tstep (m : mem) (p : pc) (top : nat) : res (mem * pc) :=
    match p with
    | Quiet | Ready _ => Ok (m, p)
    | Find k v prevs succs (PLoad l prev) =>
        let! x := load_next (heap m) prev l in
        Ok (m, Find k v prevs succs (PCur l prev (get_unmarked x)))
    | Find k v prevs succs (PCur l prev cur) =>
        let! next := load_next (heap m) cur l in
        if is_marked next then Ok (m, Find k v prevs succs (PSnip l prev cur next))
        else
          let! b := less (heap m) cur v in
          if b : bool then Ok (m, Find (hop k) v prevs succs (PCur l cur next.1))
          else
            let prevs := <[l := prev]> prevs in
            let succs := <[l := cur]> succs in
            match l with
            | O => found m k v prevs succs cur top
            | S l => Ok (m, Find k v prevs succs (PLoad l prev))
            end
    | Find k v prevs succs (PSnip l prev cur next) =>
        let! (ok, h) := cas_next (heap m) prev l (cur, false) (get_unmarked next, false) in
        if ok : bool then Ok (Mem h (size m), Find k v prevs succs (PLoad l prev))
        else Ok (m, find_start k v prevs succs)
    | AddCas v new prevs succs =>
        let! prev := deref (prevs !! 0) in let! next := deref (succs !! 0) in
        let! (ok, h) := cas_next (heap m) prev 0 (next, false) (Some new, false) in
        if ok : bool then
          let! n := deref (h !! new) in
          Ok (Mem h (size m), add_next 1 (level n) v new prevs succs)
        else Ok (m, find_start ForAdd v prevs succs)
    | AddLink l v new prevs succs =>
        let! prev := deref (prevs !! l) in let! next := deref (succs !! l) in
        let! (ok, h) := cas_next (heap m) prev l (next, false) (Some new, false) in
        if ok : bool then
          let! n := deref (h !! new) in
          Ok (Mem h (size m), add_next (l + 1) (level n) v new prevs succs)
        else Ok (m, find_start (ForLink l new) v prevs succs)
    | AddInc => Ok (Mem (heap m) (to_int32 (size m + 1)), Ready (RBool true))
    | DelLoad v l nd =>
        let! next := load_next (heap m) nd l in
        if is_marked next then
          match l with
          | O => Ok (m, Ready (RBool false))
          | S l => Ok (m, DelLoad v l nd)
          end
        else Ok (m, DelCas v l nd next)
    | DelCas v l nd next =>
        let! (ok, h) := cas_next (heap m) nd l next (get_marked next) in
        match l with
        | O => if ok : bool then Ok (Mem h (size m), DelDec) else Ok (m, DelLoad v 0 nd)
        | S _ => Ok (Mem h (size m), DelLoad v l nd)
        end
    | DelDec => Ok (Mem (heap m) (to_int32 (size m - 1)), Ready (RBool true))
    | LenLoad => Ok (m, Ready (RInt (size m)))
    | RankLoad v =>
        let s := size m in
        if decide (s <= 1)%Z then Ok (m, Ready (RInt s))
        else Ok (m, find_start (ForRank 1) v no_nodes no_nodes)
    end.

  (** any number of goroutines *)
  Record sys := Sys { shared : mem; pcs : list pc }.
  Definition sys_init (n : nat) : sys := Sys new_list (replicate n Quiet).
  Definition running (p : pc) : bool := match p with Quiet | Ready _ => false | _ => true end.
  (** randomLevel returns a number from 1 to maxLevel *)
  Definition random_level (top : nat) : Prop := 1 <= top <= max_level.
  Inductive step : sys -> option (event op ret) -> sys -> Prop :=
  | s_call m ps t o : ps !! t = Some Quiet ->
      step (Sys m ps) (Some (Call t o)) (Sys m (<[t := start o]> ps))
  | s_silent m ps t p top m' p' : ps !! t = Some p -> running p = true -> random_level top ->
      tstep m p top = Ok (m', p') -> step (Sys m ps) None (Sys m' (<[t := p']> ps))
  | s_return m ps t r : ps !! t = Some (Ready r) ->
      step (Sys m ps) (Some (Return t r)) (Sys m (<[t := Quiet]> ps)).
  (** a goroutine's next step is a nil dereference or an index out of range *)
  Definition panics (x : sys) : Prop :=
    exists t p top, pcs x !! t = Some p /\ running p = true /\ random_level top /\ tstep (shared x) p top = Panic.
End lockfree.
Arguments node : clear implicits.
Arguments mem : clear implicits.
Arguments op : clear implicits.
Arguments ret : clear implicits.
Arguments pc : clear implicits.
Arguments sys : clear implicits.
