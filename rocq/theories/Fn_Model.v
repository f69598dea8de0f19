(** Model of fn/function.go, fn/comp.go and collections/sortedset/sorted_set.go.

    A Go function value may have side effects and may panic, so a callback
    [func(A) B] is a state transformer [A -> St -> res (B * St)]; the state
    type [St] is whatever memory the callbacks share. *)
From Verif Require Import Base.

Section combinators.
  Context {St : Type}.
  Definition fun1 (A B : Type) := A -> St -> res (B * St).

  (** Compose, fn/function.go:5-9: curr(before(v)) *)
  Definition compose {T V R} (before : fun1 V T) (curr : fun1 T R) : fun1 V R :=
    fun v s => let! (t, s1) := before v s in curr t s1.

  (** AndThen, fn/function.go:11-15: after(curr(t)) *)
  Definition and_then {T V R} (curr : fun1 T R) (after : fun1 R V) : fun1 T V :=
    fun t s => let! (r, s1) := curr t s in after r s1.

  (** Go's short-circuit operators && and || on effectful operands *)
  Definition go_and (p q : St -> res (bool * St)) : St -> res (bool * St) :=
    fun s => let! (b, s1) := p s in if b then q s1 else Ok (false, s1).
  Definition go_or (p q : St -> res (bool * St)) : St -> res (bool * St) :=
    fun s => let! (b, s1) := p s in if b then Ok (true, s1) else q s1.

  (** Predicate.And, fn/function.go:19-23 *)
  Definition pred_and {T} (p other : fun1 T bool) : fun1 T bool :=
    fun t => go_and (p t) (other t).
  (** Predicate.Negate, fn/function.go:25-29 *)
  Definition pred_negate {T} (p : fun1 T bool) : fun1 T bool :=
    fun t s => let! (b, s1) := p t s in Ok (negb b, s1).
  (** Predicate.Or, fn/function.go:31-35 *)
  Definition pred_or {T} (p other : fun1 T bool) : fun1 T bool :=
    fun t => go_or (p t) (other t).
  (** Not, fn/function.go:37-39 *)
  Definition pred_not {T} (target : fun1 T bool) : fun1 T bool := pred_negate target.

  (** Consumer.AndThen, fn/function.go:45-50 *)
  Definition consumer_and_then {T} (c after : fun1 T unit) : fun1 T unit :=
    fun t s => let! (_, s1) := c t s in after t s1.

  (** BinConsumer.AndThen, fn/function.go:58-63 *)
  Definition bin_consumer_and_then {T U} (curr after : T -> fun1 U unit) : T -> fun1 U unit :=
    fun t u s => let! (_, s1) := curr t u s in after t u s1.

  (** BinPredicate.And, fn/function.go:73-77 *)
  Definition bin_and {T U} (curr other : T -> fun1 U bool) : T -> fun1 U bool :=
    fun t u => go_and (curr t u) (other t u).
  (** BinPredicate.Or, fn/function.go:79-83: the body is curr && other *)
  Definition bin_or {T U} (curr other : T -> fun1 U bool) : T -> fun1 U bool :=
    fun t u => go_and (curr t u) (other t u).
  (** BinPredicate.negate, fn/function.go:85-89 (unexported) *)
  Definition bin_negate {T U} (curr : T -> fun1 U bool) : T -> fun1 U bool :=
    fun t u s => let! (b, s1) := curr t u s in Ok (negb b, s1).
End combinators.
Arguments fun1 : clear implicits.

(** Comp, fn/comp.go:13-21, at a type whose [<] and [>] are given *)
Definition comp_of {T} (ltb gtb : T -> T -> bool) (v1 v2 : T) : Z :=
  if gtb v1 v2 then 1%Z else if ltb v1 v2 then (-1)%Z else 0%Z.

(** Go's [<] on strings (byte sequences): lexicographic, bytewise *)
Fixpoint str_ltb (a b : list N) : bool :=
  match a, b with
  | _, [] => false
  | [], _ :: _ => true
  | x :: a', y :: b' => if (x <? y)%N then true else if (y <? x)%N then false else str_ltb a' b'
  end.
Definition str_comp : list N -> list N -> Z := comp_of str_ltb (fun a b => str_ltb b a).

(** SortedSet, collections/sortedset/sorted_set.go:11-15: a pointer to a
    struct; only its being nil matters here.  [M] stands for the struct. *)
Section sortedset.
  Context {M K V : Type}.
  (** New, sorted_set.go:17-20 *)
  Definition ss_new : option M := None.
  (** Set, sorted_set.go:22-36: the first thing done is set.hashmap, a
      dereference of the receiver; the rest is abstracted to [body]. *)
  Definition ss_set (body : M -> K -> V -> res M) (set : option M) (k : K) (v : V) : res (option M) :=
    let! m := deref set in let! m' := body m k v in Ok (Some m').
  (** Get, sorted_set.go:38-40 *)
  Definition ss_get (body : M -> K -> res (V * bool)) (set : option M) (k : K) : res (V * bool) :=
    let! m := deref set in body m k.
End sortedset.
