(** Model of collections/slice/slice.go.

    Memory is a finite map from array identities to arrays of cells; a slice
    value is a Go slice header (array, offset, length, capacity), so aliasing
    between slices is visible.  [arr = None] is the nil slice.  Arithmetic on
    lengths is unbounded (Go panics long before int overflows).
    SplitableIter and Stream are modelled in Split_Model.v / Stream files. *)
From Verif Require Import Base.

Record slice := Sl { arr : option nat; off : nat; len : nat; cap : nat }.
Notation mem T := (gmap nat (list T)) (only parsing).

Section prims.
  Context {T : Type} (zero : T).
  (** runtime.growslice's choice of capacity: any function with
      need <= growcap old need (assumed where used) *)
  Context (growcap : nat -> nat -> nat).

  Definition cells (m : mem T) (s : slice) : list T :=
    match arr s with None => [] | Some a => default [] (m !! a) end.
  (** the elements a slice denotes *)
  Definition contents (m : mem T) (s : slice) : list T := take (len s) (drop (off s) (cells m s)).

  (** s[i:j] and s[i:j:k] (Go spec, "Slice expressions": 0 <= i <= j <= cap) *)
  Definition sub (s : slice) (i j : Z) : res slice :=
    if decide (0 <= i /\ i <= j /\ j <= Z.of_nat (cap s))%Z
    then Ok (Sl (arr s) (off s + Z.to_nat i) (Z.to_nat (j - i)) (cap s - Z.to_nat i))
    else Panic.
  Definition sub3 (s : slice) (i j k : Z) : res slice :=
    if decide (0 <= i /\ i <= j /\ j <= k /\ k <= Z.of_nat (cap s))%Z
    then Ok (Sl (arr s) (off s + Z.to_nat i) (Z.to_nat (j - i)) (Z.to_nat (k - i)))
    else Panic.
  Definition sub_from (s : slice) (i : Z) : res slice := sub s i (Z.of_nat (len s)).   (* s[i:] *)
  Definition sub_to (s : slice) (j : Z) : res slice := sub s 0 j.                      (* s[:j] *)

  (** s[i] and s[i] = v *)
  Definition get (m : mem T) (s : slice) (i : nat) : res T :=
    if decide (i < len s) then deref (cells m s !! (off s + i)) else Panic.
  Definition write_at (m : mem T) (a : option nat) (o : nat) (vs : list T) : mem T :=
    match a with None => m | Some a => alter (list_inserts o vs) a m end.
  Definition set (m : mem T) (s : slice) (i : nat) (v : T) : res (mem T) :=
    if decide (i < len s) then Ok (write_at m (arr s) (off s + i) [v]) else Panic.

  (** the builtin copy: memmove semantics *)
  Definition copy (m : mem T) (dst src : slice) : mem T :=
    write_at m (arr dst) (off dst) (take (len dst) (contents m src)).

  (** a fresh array *)
  Definition alloc (m : mem T) (c : list T) : nat * mem T :=
    let a := fresh (dom m) in (a, <[a := c]> m).
  (** make([]T, n) *)
  Definition make (m : mem T) (n : nat) : slice * mem T :=
    let '(a, m') := alloc m (replicate n zero) in (Sl (Some a) 0 n n, m').

  (** the builtin append(s, v...): in place when the capacity suffices *)
  Definition append (m : mem T) (s v : slice) : slice * mem T :=
    let need := len s + len v in
    if decide (need <= cap s) then
      (Sl (arr s) (off s) need (cap s),
       write_at m (arr s) (off s + len s) (contents m v))
    else
      let c := growcap (cap s) need in
      let '(a, m') := alloc m (contents m s ++ contents m v ++ replicate (c - need) zero) in
      (Sl (Some a) 0 need c, m').

  (** Insert, slice.go:212-225 *)
  Definition insert (m : mem T) (s : slice) (i : Z) (v : slice) : res (slice * mem T) :=
    let tot := len s + len v in
    if decide (tot <= cap s) then
      let! s2 := sub_to s (Z.of_nat tot) in
      let! d := sub_from s2 (i + Z.of_nat (len v)) in
      let! r := sub_from s i in
      let m := copy m d r in
      let! d := sub_from s2 i in
      let m := copy m d v in
      Ok (s2, m)
    else
      let '(s2, m) := make m tot in
      let! r := sub_to s i in
      let m := copy m s2 r in
      let! d := sub_from s2 i in
      let m := copy m d v in
      let! d := sub_from s2 (i + Z.of_nat (len v)) in
      let! r := sub_from s i in
      let m := copy m d r in
      Ok (s2, m).

  (** Slice.Insert, slice.go:226-228: the result is assigned to the receiver's
      local copy, so the caller's header is unchanged *)
  Definition insert_method (m : mem T) (s : slice) (i : Z) (v : slice) : res (slice * mem T) :=
    let! (_, m') := insert m s i v in Ok (s, m').

  (** Slice.PushBack, slice.go:23-25 *)
  Definition push_back (m : mem T) (s v : slice) : slice * mem T :=
    let '(_, m') := append m s v in (s, m').

  (** Delete, slice.go:238-242 *)
  Definition delete (m : mem T) (s : slice) (i j : Z) : res (slice * mem T) :=
    let! _ := sub s i j in
    let! a := sub_to s i in
    let! b := sub_from s j in
    Ok (append m a b).

  (** Replace, slice.go:246-260 *)
  Definition replace (m : mem T) (s : slice) (i j : Z) (v : slice) : res (slice * mem T) :=
    let! _ := sub s i j in
    let! a := sub_to s i in
    let! b := sub_from s j in
    let tot := len a + len v + len b in
    if decide (tot <= cap s) then
      let! s2 := sub_to s (Z.of_nat tot) in
      let! d := sub_from s2 (i + Z.of_nat (len v)) in
      let! r := sub_from s j in
      let m := copy m d r in
      let! d := sub_from s2 i in
      let m := copy m d v in
      Ok (s2, m)
    else
      let '(s2, m) := make m tot in
      let! r := sub_to s i in
      let m := copy m s2 r in
      let! d := sub_from s2 i in
      let m := copy m d v in
      let! d := sub_from s2 (i + Z.of_nat (len v)) in
      let! r := sub_from s j in
      let m := copy m d r in
      Ok (s2, m).

  (** Clone, slice.go:264-270.  S([]E{}) is a fresh empty slice. *)
  Definition clone (m : mem T) (s : slice) : slice * mem T :=
    match arr s with
    | None => (s, m)
    | Some _ => let '(e, m1) := make m 0 in append m1 e s
    end.

  (** CompactFunc, slice.go:295-309 (and Compact, 278-292, with eq := ==).
      [k] is the position in the ranged slice s[1:], read when reached. *)
  Fixpoint compact_loop (eq : T -> T -> bool) (n : nat) (m : mem T) (s : slice) (k i : nat) (last : T)
    : res (nat * mem T) :=
    match n with
    | 0 => Ok (i, m)
    | S n' =>
        let! v := get m s k in
        if eq v last then compact_loop eq n' m s (k + 1) i last
        else let! m' := set m s i v in compact_loop eq n' m' s (k + 1) (i + 1) v
    end.
  Definition compact_func (eq : T -> T -> bool) (m : mem T) (s : slice) : res (slice * mem T) :=
    if decide (len s < 2) then Ok (s, m) else
    let! last := get m s 0 in
    let! (i, m') := compact_loop eq (len s - 1) m s 1 1 last in
    let! s' := sub_to s (Z.of_nat i) in Ok (s', m').

  (** Grow, slice.go:315-326 *)
  Definition grow (m : mem T) (s : slice) (n : Z) : res (slice * mem T) :=
    if decide (n < 0)%Z then Panic else
    let n' := (n - (Z.of_nat (cap s) - Z.of_nat (len s)))%Z in
    if decide (0 < n')%Z then
      let! full := sub_to s (Z.of_nat (cap s)) in
      let '(z, m1) := make m (Z.to_nat n') in
      let '(r, m2) := append m1 full z in
      let! r' := sub_to r (Z.of_nat (len s)) in
      Ok (r', m2)
    else Ok (s, m).

  (** Clip, slice.go:329-331 *)
  Definition clip (s : slice) : res slice := sub3 s 0 (Z.of_nat (len s)) (Z.of_nat (len s)).
End prims.

(** Pure scans.  They do not write, so a slice is the list it denotes. *)
Section scans.
  Context {T U : Type}.

  (** Equal / EqualFunc, slice.go:92-120 *)
  Fixpoint equal_loop (eq : T -> U -> bool) (s1 : list T) (s2 : list U) (i : nat) : res bool :=
    match s1 with
    | [] => Ok true
    | v1 :: s1' =>
        let! v2 := deref (s2 !! i) in
        if eq v1 v2 then equal_loop eq s1' s2 (i + 1) else Ok false
    end.
  Definition equal_func (eq : T -> U -> bool) (s1 : list T) (s2 : list U) : res bool :=
    if decide (length s1 <> length s2) then Ok false else equal_loop eq s1 s2 0.

  (** CompareFunc, slice.go:157-172 *)
  Fixpoint compare_loop (cmp : T -> U -> Z) (s1 : list T) (s2 : list U) (i : nat) : res (option Z) :=
    match s1 with
    | [] => Ok None
    | v1 :: s1' =>
        if decide (length s2 <= i) then Ok (Some 1%Z) else
        let! v2 := deref (s2 !! i) in
        let c := cmp v1 v2 in
        if decide (c <> 0%Z) then Ok (Some c) else compare_loop cmp s1' s2 (i + 1)
    end.
  Definition compare_func (cmp : T -> U -> Z) (s1 : list T) (s2 : list U) : res Z :=
    let! o := compare_loop cmp s1 s2 0 in
    match o with
    | Some c => Ok c
    | None => Ok (if decide (length s1 < length s2) then (-1)%Z else 0%Z)
    end.

  (** Slice.Index, slice.go:187-194 (and Index, 176-183, with f := (== v)) *)
  Fixpoint index_loop (f : T -> bool) (s : list T) (i : nat) : Z :=
    match s with
    | [] => (-1)%Z
    | v :: s' => if f v then Z.of_nat i else index_loop f s' (i + 1)
    end.
  Definition index (f : T -> bool) (s : list T) : Z := index_loop f s 0.
  (** Slice.Contains, slice.go:203-205 (and Contains, 197-199) *)
  Definition contains (f : T -> bool) (s : list T) : bool := (0 <=? index f s)%Z.
End scans.

(** Compare, slice.go:130-148: switch on v1 < v2, v1 > v2 *)
Definition ord_compare {T} (ltb : T -> T -> bool) (v1 v2 : T) : Z :=
  if ltb v1 v2 then (-1)%Z else if ltb v2 v1 then 1%Z else 0%Z.
Definition compare {T} (ltb : T -> T -> bool) (s1 s2 : list T) : res Z :=
  compare_func (ord_compare ltb) s1 s2.
