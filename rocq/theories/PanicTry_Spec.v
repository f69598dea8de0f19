(** Specification of TryFold with callbacks that may panic. *)
From Verif Require Import Base PanicPar_Spec.

(** What folding a segment comes to: a value, a refusal of the callback, or a panic *)
Inductive verdict (T : Type) := Accepts (v : T) | Refuses (v : T) | Panics.
Arguments Accepts {T} _.
Arguments Refuses {T} _.
Arguments Panics {T}.

Fixpoint trying {T} (f : T -> T -> option (T * bool)) (acc : T) (l : list T) : verdict T :=
  match l with
  | [] => Accepts acc
  | x :: l => match f acc x with
              | Some (a, true) => trying f a l
              | Some (a, false) => Refuses a
              | None => Panics
              end
  end.
(** the elements the callback is called with *)
Fixpoint tried {T} (f : T -> T -> option (T * bool)) (acc : T) (l : list T) : list T :=
  match l with
  | [] => []
  | x :: l => x :: match f acc x with Some (a, true) => tried f a l | _ => [] end
  end.
(** a whole segment, whose next pull may panic after the elements *)
Definition try_course {T} (f : T -> T -> option (T * bool)) (acc : T) (c : course T) : verdict T :=
  match trying f acc (elems c) with
  | Accepts v => if booms c then Panics else Accepts v
  | o => o
  end.
Definition result {T} (v : verdict T) : option (T * bool) :=
  match v with Accepts v => Some (v, true) | Refuses v => Some (v, false) | Panics => None end.
(** [cs] are segments that fold, to the values [vs] *)
Definition accepted {T} (f : T -> T -> option (T * bool)) (init : T) (cs : list (course T)) (vs : list T) : Prop :=
  Forall2 (fun c v => try_course f init c = Accepts v) cs vs.
