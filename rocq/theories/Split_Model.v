(** Model of Slice.SplitableIter, collections/slice/slice.go:47-78.
    The generator closure's state is [idx]; a yielded segment is the list of
    elements of the sub-slice whose Iter is returned (Slice.Iter itself is
    [from_slice] in Iter_Model.v).  [p] is the parallelism argument. *)
From Verif Require Import Base.

Section split.
  Context {T : Type}.
  (** slice.go:51-55; Go's integer division truncates toward zero *)
  Definition split_step (n : nat) (p : Z) : Z :=
    if decide (p = 0%Z) then Z.of_nat n else Z.quot (Z.of_nat n) p.

  Definition split_next (s : list T) (p : Z) (idx : nat) : res (option (list T) * nat) :=
    let step := Z.to_nat (split_step (length s) p) in
    if decide (p <= 0)%Z then                            (* slice.go:56-64 *)
      if decide (idx = 0) then Ok (Some s, idx + 1) else Ok (None, idx)
    else                                                 (* slice.go:66-76 *)
      if decide (length s <= idx) then Ok (None, idx)
      else if decide (length s <= idx + step) then Ok (Some (drop idx s), idx + step)
      else Ok (Some (take step (drop idx s)), idx + step).
End split.
