(** Specification vocabulary for parallel pipelines. *)
From Verif Require Import Base Stream_Model Stream_Spec.

(** the elements goroutine [j] handed to the consumer, in order *)
Definition sent_by {T} (j : nat) (log : list (nat * T)) : list T :=
  (fun e => e.2) <$> filter (fun e => e.1 = j) log.

(** [segs] is a way to cut the list [l] into [n] non-empty pieces *)
Definition pieces {T} (l : list T) (n : nat) (segs : list (list T)) : Prop :=
  concat segs = l /\ length segs = n /\ Forall (fun seg => seg <> []) segs.

(** cut into as many segments as one asks for (at most its length), the stream
    [s] has the same segments as the slice [l] *)
Definition like_slice {U T} (s : stream U T) (l : list T) : Prop :=
  forall p, (p <= Z.of_nat (length l))%Z \/ l = [] ->
  exists segs, source (slice_stream (U:=U) l 0) p segs /\ source s p segs.

(** Chains of stages over elements of type [T].  Every callback answers from
    its argument alone, but may do anything ([e]) to the user's state. *)
Inductive stages (U T : Type) : Type -> Type :=
| Nothing : stages U T T
| ThenMap {R V} (c : stages U T R) (g : R -> V) (e : R -> U -> U) : stages U T V
| ThenFilter {R} (c : stages U T R) (q : R -> bool) (e : R -> U -> U) : stages U T R
| ThenSkipWhile {R} (c : stages U T R) (q : R -> bool) (e : R -> U -> U) : stages U T R
| ThenInspect {R} (c : stages U T R) (e : R -> U -> U) : stages U T R
| ThenFlatMap {R V} (c : stages U T R) (g : R -> list V) (p : Z) (e : R -> U -> U) : stages U T V.
Arguments Nothing {U T}.
Arguments ThenMap {U T R V} c g e.
Arguments ThenFilter {U T R} c q e.
Arguments ThenSkipWhile {U T R} c q e.
Arguments ThenInspect {U T R} c e.
Arguments ThenFlatMap {U T R V} c g p e.

(** the stream the Go program builds; the sub-streams of FlatMap are streams of slices *)
Fixpoint made {U T V} (c : stages U T V) : stream U T -> stream U V :=
  match c with
  | Nothing => fun s => s
  | ThenMap c g e => fun s => Map (made c s) (fun x u => (g x, e x u))
  | ThenFilter c q e => fun s => Filter (made c s) (fun x u => (q x, e x u))
  | ThenSkipWhile c q e => fun s => SkipWhile (made c s) (fun x u => (q x, e x u))
  | ThenInspect c e => fun s => Inspect (made c s) e
  | ThenFlatMap c g p e => fun s => FlatMap (made c s) (fun x u => (slice_stream (g x) p, e x u))
  end.
(** what the stages make of a list *)
Fixpoint meaning {U T V} (c : stages U T V) : list T -> list V :=
  match c with
  | Nothing => fun l => l
  | ThenMap c g _ => fun l => g <$> meaning c l
  | ThenFilter c q _ => fun l => List.filter q (meaning c l)
  | ThenSkipWhile c q _ => fun l => List.filter (fun x => negb (q x)) (meaning c l)
  | ThenInspect c _ => fun l => meaning c l
  | ThenFlatMap c g _ _ => fun l => concat (g <$> meaning c l)
  end.
