(** Which memory each step of the lock-free skip list's calls accesses
    (collections/lockfreeskiplist/lockfree_skiplist.go).  [Link n l] is the word
    nexts[l] of node n; [Value n], [Level n] and [Slice n] are its plain fields
    (lines 21-25).  Filling a new node (lines 50-53, 255-264) is an access to
    memory nobody else has the address of, and is not listed.  Local variables
    are not listed. *)
From Verif Require Import Base Lin_Spec LockFree_Model Race_Spec.

Inductive place_lf := Link (n l : nat) | Value (n : nat) | Level (n : nat) | Slice (n : nat) | Count.

Definition at_load (n : option nat) (l : nat) : list (access place_lf) :=
  match n with Some i => [read (Slice i); atomic_read (Link i l)] | None => [] end.      (* lockfree_skiplist.go:266-268 *)
Definition at_cas (n : option nat) (l : nat) : list (access place_lf) :=
  match n with Some i => [read (Slice i); atomic_read (Link i l); atomic_write (Link i l)] | None => [] end.  (* lockfree_skiplist.go:274-276 *)
(** less, equals, lockfree_skiplist.go:136-151; lockfree_skiplist.go:82; lockfree_skiplist.go:181 *)
Definition at_fields (n : option nat) : list (access place_lf) :=
  match n with Some i => [read (Value i); read (Level i)] | None => [] end.

Definition lf_touches {T} (x : sys T) (t : nat) : list (access place_lf) :=
  match pcs x !! t with
  | Some (Find _ _ _ _ (PLoad l prev)) => at_load prev l
  | Some (Find _ _ _ _ (PCur l _ cur)) => at_load cur l ++ at_fields cur
  | Some (Find _ _ _ _ (PSnip l prev _ _)) => at_cas prev l
  | Some (AddCas _ _ prevs _) => match prevs !! 0 with Some prev => at_cas prev 0 | None => [] end
  | Some (AddLink l _ _ prevs _) => match prevs !! l with Some prev => at_cas prev l | None => [] end
  | Some (DelLoad _ l nd) => at_load nd l
  | Some (DelCas _ l nd _) => at_cas nd l
  | Some AddInc | Some DelDec => [atomic_read Count; atomic_write Count]                 (* lockfree_skiplist.go:70, 100 *)
  | Some LenLoad | Some (RankLoad _) => [atomic_read Count]                              (* lockfree_skiplist.go:125, 189 *)
  | Some Quiet | Some (Ready _) | None => []
  end.
