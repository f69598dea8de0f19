(** Model of collections/priorityqueue/priorityqueue.go.
    A Go slice [elements] is a list (the queue never shares it, so aliasing
    plays no role); [size] is a nat.  Int overflow ([j1 < 0], line 79) is not
    modelled: indices are unbounded. *)
From Verif Require Import Base.

(** type Queue, priorityqueue.go:8-12 (the comparator is a parameter) *)
Record queue (T : Type) := Queue { elements : list T; qsize : nat }.
Arguments Queue {T} _ _.
Arguments elements {T} _.
Arguments qsize {T} _.

Section model.
  Context {T : Type} (zero : T) (comp : T -> T -> Z).

  (** Init, priorityqueue.go:20-30.  [sizes] is the variadic argument. *)
  Definition q_init (sizes : list Z) : res (queue T) :=
    let! s := (if decide (length sizes = 0)
               then deref (sizes !! 0)          (* line 23: s = size[0] *)
               else Ok 8%Z) in                  (* line 25: s = 8 *)
    Ok (Queue (replicate (Z.to_nat s) zero) 0).

  (** New, priorityqueue.go:14-18 *)
  Definition q_new (sizes : list Z) : res (queue T) := q_init sizes.

  (** percolateUp, priorityqueue.go:64-73.  Go's (pos-1)/2 truncates, so it is
      0 for pos = 0, as is nat's. *)
  Fixpoint percolate_up (fuel : nat) (els : list T) (pos : nat) : res (list T) :=
    match fuel with
    | 0 => Fuel
    | S fuel' =>
        let i := (pos - 1) / 2 in
        if decide (i = pos) then Ok els else
        let! x := deref (els !! pos) in
        let! y := deref (els !! i) in
        if (0 <=? comp x y)%Z then Ok els
        else percolate_up fuel' (<[pos:=y]> (<[i:=x]> els)) i
    end.

  (** percolateDown, priorityqueue.go:75-94; the boolean result is not used by
      any caller and is returned as the final position. *)
  Fixpoint percolate_down (fuel : nat) (els : list T) (i n : nat) : res (list T * nat) :=
    match fuel with
    | 0 => Fuel
    | S fuel' =>
        let j1 := 2 * i + 1 in
        if decide (n <= j1) then Ok (els, i) else
        let j2 := j1 + 1 in
        let! j := (if decide (j2 < n) then
                     let! a := deref (els !! j2) in
                     let! b := deref (els !! j1) in
                     Ok (if (comp a b <? 0)%Z then j2 else j1)
                   else Ok j1) in
        let! x := deref (els !! j) in
        let! y := deref (els !! i) in
        if (0 <=? comp x y)%Z then Ok (els, i)
        else percolate_down fuel' (<[j:=y]> (<[i:=x]> els)) j n
    end.

  (** Push, priorityqueue.go:40-49 *)
  Definition q_push (q : queue T) (v : T) : res (bool * queue T) :=
    let els := if decide (length (elements q) <= qsize q)
               then elements q ++ [v] else <[qsize q := v]> (elements q) in
    let sz := qsize q + 1 in
    let! els' := percolate_up (S sz) els (sz - 1) in
    Ok (true, Queue els' sz).

  (** Pop, priorityqueue.go:51-62 *)
  Definition q_pop (q : queue T) : res (T * bool * queue T) :=
    if decide (qsize q = 0) then Ok (zero, false, q) else
    let n := qsize q - 1 in
    let! a := deref (elements q !! n) in
    let! b := deref (elements q !! 0) in
    let els := <[n := b]> (<[0 := a]> (elements q)) in
    let! r := percolate_down (S n) els 0 n in
    let sz := qsize q - 1 in
    let! v := deref (fst r !! sz) in
    Ok (v, true, Queue (fst r) sz).

  (** Len, priorityqueue.go:96-98 *)
  Definition q_len (q : queue T) : Z := Z.of_nat (qsize q).

  (** Peek, priorityqueue.go:100-105 *)
  Definition q_peek (q : queue T) : res (T * bool) :=
    if decide (0 < qsize q) then
      let! v := deref (elements q !! 0) in Ok (v, true)
    else Ok (zero, false).

  (** OfWith, priorityqueue.go:32-38: calls New without a size. *)
  Fixpoint q_push_all (q : queue T) (vs : list T) : res (queue T) :=
    match vs with
    | [] => Ok q
    | v :: vs' => let! r := q_push q v in q_push_all (snd r) vs'
    end.
  Definition q_of_with (vs : list T) : res (queue T) :=
    let! q := q_new [] in q_push_all q vs.

  (** Histories of calls. *)
  Inductive op := Push (v : T) | Pop | Peek | Len.
  Inductive out := OBool (b : bool) | OVal (v : T) (ok : bool) | OLen (n : Z).

  Definition q_step (q : queue T) (o : op) : res (out * queue T) :=
    match o with
    | Push v => let! r := q_push q v in Ok (OBool (fst r), snd r)
    | Pop => let! r := q_pop q in Ok (OVal (fst (fst r)) (snd (fst r)), snd r)
    | Peek => let! r := q_peek q in Ok (OVal (fst r) (snd r), q)
    | Len => Ok (OLen (q_len q), q)
    end.

  Fixpoint q_run (q : queue T) (os : list op) : res (list out * queue T) :=
    match os with
    | [] => Ok ([], q)
    | o :: os' =>
        let! r := q_step q o in
        let! r' := q_run (snd r) os' in
        Ok (fst r :: fst r', snd r')
    end.
End model.
Arguments Push {T} v.
Arguments Pop {T}.
Arguments Peek {T}.
Arguments Len {T}.
Arguments OBool {T} b.
Arguments OVal {T} v ok.
Arguments OLen {T} n.
