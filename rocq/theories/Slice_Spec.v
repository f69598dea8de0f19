(** Specification vocabulary for slices and memory. *)
From Verif Require Import Base Slice_Model.

Section spec.
  Context {T : Type}.
  (** a slice header is meaningful in a memory: its window lies in its array *)
  Definition wf (m : mem T) (s : slice) : Prop :=
    len s <= cap s /\
    match arr s with
    | None => cap s = 0
    | Some a => exists c, m !! a = Some c /\ off s + cap s <= length c
    end.

  (** the elements of [v] lie outside the window (offset..offset+cap) of [s] *)
  Definition no_alias (s v : slice) : Prop :=
    len v = 0 \/ arr v <> arr s \/ off v + len v <= off s \/ off s + cap s <= off v.

  (** [m'] differs from [m] at most in the window of [s]; nothing is allocated *)
  Definition only_window (m m' : mem T) (s : slice) : Prop :=
    (forall a, Some a <> arr s -> m' !! a = m !! a) /\
    (forall a c, Some a = arr s -> m !! a = Some c ->
       exists c', m' !! a = Some c' /\ length c' = length c /\
         forall k, k < off s \/ off s + cap s <= k -> c' !! k = c !! k).

  (** every array of [m] is unchanged in [m'] and the result lives in a new one *)
  Definition fresh_result (m m' : mem T) (r : slice) : Prop :=
    (forall a c, m !! a = Some c -> m' !! a = Some c) /\
    (forall a, Some a = arr r -> m !! a = None) /\ arr r <> None.

  (** the runs of CompactFunc: keep an element iff it differs from the last kept one *)
  Inductive compacted (eq : T -> T -> bool) : T -> list T -> list T -> Prop :=
  | CmpNil last : compacted eq last [] []
  | CmpDrop last v l k : eq v last = true -> compacted eq last l k -> compacted eq last (v :: l) k
  | CmpKeep last v l k : eq v last = false -> compacted eq v l k -> compacted eq last (v :: l) (v :: k).

  (** [l] without the elements equal to their immediate predecessor *)
  Fixpoint dedup_pred (eqb : T -> T -> bool) (prev : T) (l : list T) : list T :=
    match l with
    | [] => []
    | v :: l' => if eqb v prev then dedup_pred eqb v l' else v :: dedup_pred eqb v l'
    end.

  (** lexicographic order *)
  Inductive lex_lt (lt : T -> T -> Prop) : list T -> list T -> Prop :=
  | LexNil y b : lex_lt lt [] (y :: b)
  | LexHead x y a b : lt x y -> lex_lt lt (x :: a) (y :: b)
  | LexTail x a b : lex_lt lt a b -> lex_lt lt (x :: a) (x :: b).
End spec.
