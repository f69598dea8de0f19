(** Model of the terminal operations built on FoldWith, on a slice stream of
    any parallelism (zero, positive or negative): Fold (stream/fold.go:7-9),
    Sum (stream/sum.go:7-12), Reduce and ReduceWith (stream/reduce.go:3-15),
    Max, MaxBy, Min and MinBy (stream/max_min.go:3-36), and FoldWith through
    Map and Filter stages (stream/map.go:5-28, stream/filter.go:5-30).
    The goroutines are those of StreamPar_Model.  Simplifications as there;
    a stage applied by a goroutine to an element it pulls is part of the step
    that folds the element (Map and Filter have no shared state). *)
From Verif Require Import Base Split_Model StreamPar_Model StreamTry_Model.

Section outcome.
  Context {T R : Type}.
  (** What a call of FoldWith (stream/fold.go:11-51) can come to: [Some v] - it
      returns v; [None] - the process panics, possibly after the call
      returned.  A call that never ends has no outcome. *)
  Inductive fold_outcome (s : list T) (p : Z) (init : R) (f : R -> T -> R) (comb : R -> R -> R) : option R -> Prop :=
  | fo_seq : p = 0%Z -> fold_outcome s p init f comb (Some (fold_left f s init))         (* fold.go:12-25 *)
  | fo_make : (p < 0)%Z -> fold_outcome s p init f comb None                             (* fold.go:28: make panics *)
  | fo_return x v : (0 < p)%Z -> rtc (fstep s p init f comb) finit x -> fm x = FReturned v ->
      fold_outcome s p init f comb (Some v)
  | fo_crash x : (0 < p)%Z -> rtc (fstep s p init f comb) finit x -> fcrashed x = true ->
      fold_outcome s p init f comb None.
  (** through Map and Filter stages: [pre x] is what the stages make of x, if
      they let it pass *)
  Definition through {A B} (pre : A -> option B) (f : R -> B -> R) : R -> A -> R :=
    fun acc x => match pre x with Some y => f acc y | None => acc end.
End outcome.
Definition map_stage {A B} (g : A -> B) : A -> option B := fun x => Some (g x).
Definition filter_stage {A} (q : A -> bool) : A -> option A := fun x => if q x then Some x else None.
(** a stage after another *)
Definition then_stage {A B C} (a : A -> option B) (b : B -> option C) : A -> option C :=
  fun x => match a x with Some y => b y | None => None end.

(** stream/sum.go:7-12 *)
Definition sum_outcome (s : list Z) (p : Z) : option Z -> Prop := fold_outcome s p 0%Z Z.add Z.add.
(** Reduce, stream/reduce.go:3-9; MaxBy and MinBy, stream/max_min.go:12-18,29-36, are the same code *)
Definition reduce_outcome {T} (zero : T) (s : list T) (p : Z) (f : T -> T -> T) (o : option T) : Prop :=
  exists m ok, first_par zero s p = Ok (m, ok) /\ if ok : bool then fold_outcome s p m f f o else o = Some zero.
(** stream/max_min.go:3-10,20-27 *)
Definition max_outcome (s : list Z) (p : Z) := reduce_outcome 0%Z s p (fun a b => if (a >? b)%Z then a else b).
Definition min_outcome (s : list Z) (p : Z) := reduce_outcome 0%Z s p (fun a b => if (a <? b)%Z then a else b).
