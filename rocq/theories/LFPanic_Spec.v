(** A goroutine that recovers from a panic and goes on, seen as one that stopped
    in the middle of its call and another one that goes on in its place: with
    [n] goroutines, goroutine [t] goes by the name [t + n * i] after its [i]th
    panic.  An abandoned call is then a call that never returns, which may or
    may not have taken effect. *)
From stdpp Require Import functions.
From Verif Require Import Base Lin_Spec LockFree_Model LFPanic_Model.

Section spec.
  Context {T : Type}.
  (** [c t] panics of [t] lie behind *)
  Fixpoint renamed (n : nat) (c : nat -> nat) (h : list (pevent T)) : list (event (op T) (ret T)) :=
    match h with
    | [] => []
    | Did (Call t o) :: h => Call (t + n * c t) o :: renamed n c h
    | Did (Return t r) :: h => Return (t + n * c t) r :: renamed n c h
    | Abandoned t :: h => renamed n (<[t := S (c t)]> c) h
    end.
  (** the names under which calls were abandoned *)
  Fixpoint gone (n : nat) (c : nat -> nat) (h : list (pevent T)) : list nat :=
    match h with
    | [] => []
    | Did _ :: h => gone n c h
    | Abandoned t :: h => (t + n * c t) :: gone n (<[t := S (c t)]> c) h
    end.
  Definition afresh : nat -> nat := fun _ => 0.

  (** the last thing known of goroutine [u] is that its call took effect *)
  Definition last_mark (u : nat) (ms : list (mark (op T) (ret T))) : option (mark (op T) (ret T)) :=
    last (filter (fun m => thread_of m = u) ms).
  Definition took_effect (ms : list (mark (op T) (ret T))) (u : nat) : Prop :=
    exists o r, last_mark u ms = Some (Eff u o r).


  #[global] Instance took_effect_dec ms u : Decision (took_effect ms u).
  Proof.
    unfold took_effect. destruct (last_mark u ms) as [[e|u' o r]|]; [right; by intros (? & ? & ?)| |right; by intros (? & ? & ?)].
    destruct (decide (u' = u)) as [->|N]; [left; by exists o, r|right]. intros (? & ? & E). by injection E.
  Defined.

  (** calls that do not overlap, each returning or abandoned *)
  Inductive pone_at_a_time : list (pevent T) -> Prop :=
  | po_nil : pone_at_a_time []
  | po_call h t o r : pone_at_a_time h -> pone_at_a_time (h ++ [Did (Call t o); Did (Return t r)])
  | po_abandoned h t o : pone_at_a_time h -> pone_at_a_time (h ++ [Did (Call t o); Abandoned t]).
End spec.
