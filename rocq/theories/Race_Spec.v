(** Data races.  An access is to a memory location, reads or writes it, and is
    plain or made by sync/atomic.  Two accesses conflict if they are to the same
    location, one of them writes and one of them is plain.  A program has a data
    race if two goroutines can be, at the same time, about to make conflicting
    accesses (in a sequentially consistent execution; for such a definition two
    conflicting accesses are always ordered by synchronisation in a program that
    has none). *)
From Verif Require Import Base.

Record access (L : Type) := Access { place : L; writes : bool; atomic : bool }.
Arguments Access {L}. Arguments place {L}. Arguments writes {L}. Arguments atomic {L}.
Definition conflict {L} (a b : access L) : Prop :=
  place a = place b /\ (writes a = true \/ writes b = true) /\ (atomic a = false \/ atomic b = false).
Definition read {L} (l : L) := Access l false false.
Definition write {L} (l : L) := Access l true false.
Definition atomic_read {L} (l : L) := Access l false true.
Definition atomic_write {L} (l : L) := Access l true true.

(** [touches x t]: the accesses goroutine [t] makes in its next step from [x] *)
Definition race {S L} (touches : S -> nat -> list (access L)) (x : S) (t u : nat) (l : L) : Prop :=
  t <> u /\ exists a b, a ∈ touches x t /\ b ∈ touches x u /\ conflict a b /\ place a = l.
