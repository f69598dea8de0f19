(** Model of collections/linkedlist/linkedlist.go.

    Heap model.  A pointer to an Element is [Elt n] (the n-th Element ever
    allocated; element handles are these numbers) or [Root l] (the sentinel
    embedded in List number [l]); nil is [None].  Every list exists from the
    start as a zero-valued List struct, so New() is [Init] on a list number not
    used before.  Struct fields are total functions of the pointer.
    Not modelled: nil *List / nil *Element receivers, data races. *)
From Verif Require Import Base.
From stdpp Require Export functions.
From stdpp Require Export list.

Inductive ref := Elt (e : nat) | Root (l : nat).
Global Instance ref_eq_dec : EqDecision ref.
Proof. solve_decision. Defined.

Section list.
  Context {T : Type} (zero : T).

  Record mem := Mem {
    nxt : ref -> option ref;       (* Element.next *)
    prv : ref -> option ref;       (* Element.prev *)
    own : nat -> option nat;       (* Element.list of an allocated element; a sentinel's list is always nil *)
    len : nat -> Z;                (* List.len *)
    vals : list T;                 (* Element.Value of the allocated elements *)
  }.
  (** all lists are zero values, nothing is allocated *)
  Definition mem0 : mem := Mem (fun _ => None) (fun _ => None) (fun _ => None) (fun _ => 0%Z) [].

  Definition set_nxt (r : ref) (p : option ref) (m : mem) : mem :=
    Mem (<[r := p]> (nxt m)) (prv m) (own m) (len m) (vals m).
  Definition set_prv (r : ref) (p : option ref) (m : mem) : mem :=
    Mem (nxt m) (<[r := p]> (prv m)) (own m) (len m) (vals m).
  Definition set_own (e : nat) (l : option nat) (m : mem) : mem :=
    Mem (nxt m) (prv m) (<[e := l]> (own m)) (len m) (vals m).
  Definition set_len (l : nat) (z : Z) (m : mem) : mem :=
    Mem (nxt m) (prv m) (own m) (<[l := z]> (len m)) (vals m).
  Definition set_vals (vs : list T) (m : mem) : mem :=
    Mem (nxt m) (prv m) (own m) (len m) vs.

  (** e.Value; a sentinel's Value is the zero value *)
  Definition value (m : mem) (r : ref) : T :=
    match r with Elt e => default zero (vals m !! e) | Root _ => zero end.
  (** e.list *)
  Definition list_of (m : mem) (r : ref) : option nat :=
    match r with Elt e => own m e | Root _ => None end.

  (** Element.Next, linkedlist.go:22-27 *)
  Definition elt_next (m : mem) (r : ref) : option ref :=
    match list_of m r with
    | Some l => if decide (nxt m r = Some (Root l)) then None else nxt m r
    | None => None
    end.
  (** Element.Prev, linkedlist.go:30-35 *)
  Definition elt_prev (m : mem) (r : ref) : option ref :=
    match list_of m r with
    | Some l => if decide (prv m r = Some (Root l)) then None else prv m r
    | None => None
    end.

  (** Init, linkedlist.go:45-50 *)
  Definition init (l : nat) (m : mem) : mem :=
    set_len l 0%Z (set_prv (Root l) (Some (Root l)) (set_nxt (Root l) (Some (Root l)) m)).
  (** Clear, linkedlist.go:69-72 *)
  Definition clear (l : nat) (m : mem) : mem := set_len l 0%Z (set_nxt (Root l) None m).
  (** Front, linkedlist.go:145-150 *)
  Definition front (l : nat) (m : mem) : option ref :=
    if decide (len m l = 0%Z) then None else nxt m (Root l).
  (** Back, linkedlist.go:153-158 *)
  Definition back (l : nat) (m : mem) : option ref :=
    if decide (len m l = 0%Z) then None else prv m (Root l).
  (** lazyInit, linkedlist.go:161-165 *)
  Definition lazy_init (l : nat) (m : mem) : mem :=
    match nxt m (Root l) with None => init l m | Some _ => m end.

  (** linkedlist.go:169-172 and 201-204: link e between at and at.next *)
  Definition link (e : ref) (at_ : option ref) (m : mem) : res mem :=
    let m1 := set_prv e at_ m in                        (* e.prev = at *)
    let! a := deref at_ in
    let m2 := set_nxt e (nxt m1 a) m1 in                (* e.next = at.next *)
    let! p := deref (prv m2 e) in
    let m3 := set_nxt p (Some e) m2 in                  (* e.prev.next = e *)
    let! n := deref (nxt m3 e) in
    Ok (set_prv n (Some e) m3).                         (* e.next.prev = e *)

  (** linkedlist.go:185-186 and 198-199: unlink e from its neighbours *)
  Definition unlink (e : ref) (m : mem) : res mem :=
    let! p := deref (prv m e) in
    let m1 := set_nxt p (nxt m e) m in                  (* e.prev.next = e.next *)
    let! n := deref (nxt m1 e) in
    Ok (set_prv n (prv m1 e) m1).                       (* e.next.prev = e.prev *)

  (** insertValue and insert, linkedlist.go:168-181: allocate and link *)
  Definition insert_value (l : nat) (v : T) (at_ : option ref) (m : mem) : res (mem * nat) :=
    let h := length (vals m) in
    let m0 := set_own h None (set_prv (Elt h) None (set_nxt (Elt h) None (set_vals (vals m ++ [v]) m))) in
    let! m1 := link (Elt h) at_ m0 in
    let m2 := set_own h (Some l) m1 in
    Ok (set_len l (len m2 l + 1)%Z m2, h).

  (** remove, linkedlist.go:184-191 *)
  Definition remove (l e : nat) (m : mem) : res mem :=
    let! m1 := unlink (Elt e) m in
    let m2 := set_own e None (set_prv (Elt e) None (set_nxt (Elt e) None m1)) in
    Ok (set_len l (len m2 l - 1)%Z m2).

  (** move, linkedlist.go:194-205 *)
  Definition move (e : nat) (at_ : option ref) (m : mem) : res mem :=
    if decide (at_ = Some (Elt e)) then Ok m
    else let! m1 := unlink (Elt e) m in link (Elt e) at_ m1.

  (** the closure returned by Iter, linkedlist.go:74-82; its state is [n] *)
  Definition iter_next (l : nat) (m : mem) (n : ref) : res (option T * ref) :=
    match nxt m n with
    | None => Panic                                     (* n = nil; n.Value *)
    | Some p => if decide (p = Root l) then Ok (None, p) else Ok (Some (value m p), p)
    end.

  (** ToSlice, linkedlist.go:59-67.  A walk longer than the number of elements ever
      allocated cannot end, hence the fuel. *)
  Fixpoint collect (fuel : nat) (l : nat) (m : mem) (n : ref) : res (list T) :=
    match fuel with
    | 0 => Fuel
    | S f =>
        let! (o, n') := iter_next l m n in
        match o with
        | None => Ok []
        | Some v => let! vs := collect f l m n' in Ok (v :: vs)
        end
    end.
  Definition to_slice (l : nat) (m : mem) : res (list T) :=
    collect (S (length (vals m))) l m (Root l).

  (** loop of PushBackList, linkedlist.go:299-301: [i] iterations remain *)
  Fixpoint push_back_loop (i : nat) (e : option ref) (l : nat) (m : mem) : res mem :=
    match i with
    | 0 => Ok m
    | S i' =>
        let! r := deref e in
        let! (m1, _) := insert_value l (value m r) (prv m (Root l)) m in
        push_back_loop i' (elt_next m1 r) l m1
    end.
  (** loop of PushFrontList, linkedlist.go:308-310 *)
  Fixpoint push_front_loop (i : nat) (e : option ref) (l : nat) (m : mem) : res mem :=
    match i with
    | 0 => Ok m
    | S i' =>
        let! r := deref e in
        let! (m1, _) := insert_value l (value m r) (Some (Root l)) m in
        push_front_loop i' (elt_prev m1 r) l m1
    end.

  (** The exported API.  Lists and elements are named by number. *)
  Inductive op :=
  | Init (l : nat) | Clear (l : nat)
  | Len (l : nat) | Front (l : nat) | Back (l : nat) | ToSlice (l : nat)
  | Next (e : nat) | Prev (e : nat) | Value (e : nat) | SetValue (e : nat) (v : T)
  | PushFront (l : nat) (v : T) | PushBack (l : nat) (v : T)
  | InsertBefore (l : nat) (v : T) (mark : nat) | InsertAfter (l : nat) (v : T) (mark : nat)
  | Remove (l e : nat)
  | MoveToFront (l e : nat) | MoveToBack (l e : nat)
  | MoveBefore (l e mark : nat) | MoveAfter (l e mark : nat)
  | PushBackList (l other : nat) | PushFrontList (l other : nat).

  Inductive ret :=
  | RUnit | RInt (z : Z) | RElt (r : option ref) | RVal (v : T) | RSlice (vs : list T).

  Definition run (o : op) (m : mem) : res (mem * ret) :=
    match o with
    | Init l => Ok (init l m, RUnit)                              (* linkedlist.go:45-50 *)
    | Clear l => Ok (clear l m, RUnit)                            (* linkedlist.go:69-72 *)
    | Len l => Ok (m, RInt (len m l))                             (* linkedlist.go:57 *)
    | Front l => Ok (m, RElt (front l m))
    | Back l => Ok (m, RElt (back l m))
    | ToSlice l => let! vs := to_slice l m in Ok (m, RSlice vs)
    | Next e => Ok (m, RElt (elt_next m (Elt e)))
    | Prev e => Ok (m, RElt (elt_prev m (Elt e)))
    | Value e => Ok (m, RVal (value m (Elt e)))                   (* the exported field, linkedlist.go:18 *)
    | SetValue e v => Ok (set_vals (<[e := v]> (vals m)) m, RUnit)
    | PushFront l v =>                                            (* linkedlist.go:220-223 *)
        let m0 := lazy_init l m in
        let! (m1, h) := insert_value l v (Some (Root l)) m0 in Ok (m1, RElt (Some (Elt h)))
    | PushBack l v =>                                             (* linkedlist.go:226-229 *)
        let m0 := lazy_init l m in
        let! (m1, h) := insert_value l v (prv m0 (Root l)) m0 in Ok (m1, RElt (Some (Elt h)))
    | InsertBefore l v mark =>                                    (* linkedlist.go:234-240 *)
        if decide (own m mark = Some l)
        then let! (m1, h) := insert_value l v (prv m (Elt mark)) m in Ok (m1, RElt (Some (Elt h)))
        else Ok (m, RElt None)
    | InsertAfter l v mark =>                                     (* linkedlist.go:245-251 *)
        if decide (own m mark = Some l)
        then let! (m1, h) := insert_value l v (Some (Elt mark)) m in Ok (m1, RElt (Some (Elt h)))
        else Ok (m, RElt None)
    | Remove l e =>                                               (* linkedlist.go:210-217 *)
        if decide (own m e = Some l)
        then let! m1 := remove l e m in Ok (m1, RVal (value m1 (Elt e)))
        else Ok (m, RVal (value m (Elt e)))
    | MoveToFront l e =>                                          (* linkedlist.go:256-262 *)
        if decide (own m e <> Some l \/ nxt m (Root l) = Some (Elt e)) then Ok (m, RUnit)
        else let! m1 := move e (Some (Root l)) m in Ok (m1, RUnit)
    | MoveToBack l e =>                                           (* linkedlist.go:267-273 *)
        if decide (own m e <> Some l \/ prv m (Root l) = Some (Elt e)) then Ok (m, RUnit)
        else let! m1 := move e (prv m (Root l)) m in Ok (m1, RUnit)
    | MoveBefore l e mark =>                                      (* linkedlist.go:278-283 *)
        if decide (own m e <> Some l \/ e = mark \/ own m mark <> Some l) then Ok (m, RUnit)
        else let! m1 := move e (prv m (Elt mark)) m in Ok (m1, RUnit)
    | MoveAfter l e mark =>                                       (* linkedlist.go:288-293 *)
        if decide (own m e <> Some l \/ e = mark \/ own m mark <> Some l) then Ok (m, RUnit)
        else let! m1 := move e (Some (Elt mark)) m in Ok (m1, RUnit)
    | PushBackList l o =>                                         (* linkedlist.go:297-302 *)
        let m0 := lazy_init l m in
        let! m1 := push_back_loop (Z.to_nat (len m0 o)) (front o m0) l m0 in Ok (m1, RUnit)
    | PushFrontList l o =>                                        (* linkedlist.go:306-311 *)
        let m0 := lazy_init l m in
        let! m1 := push_front_loop (Z.to_nat (len m0 o)) (back o m0) l m0 in Ok (m1, RUnit)
    end.

  (** One call.  A panicking call leaves the memory as it was; this is exact
      for ToSlice, which writes nothing (the only call that panics in the
      states the theorems are about). *)
  Definition exec (m : mem) (o : op) : mem * res ret :=
    match run o m with
    | Ok (m', r) => (m', Ok r)
    | Panic => (m, Panic)
    | Fuel => (m, Fuel)
    end.
  (** A history of calls: final memory and what each call returned. *)
  Fixpoint execs (m : mem) (os : list op) : mem * list (res ret) :=
    match os with
    | [] => (m, [])
    | o :: os' => let '(m1, r) := exec m o in let '(m2, rs) := execs m1 os' in (m2, r :: rs)
    end.
End list.
Arguments mem T : clear implicits.
Arguments op T : clear implicits.
Arguments ret T : clear implicits.
