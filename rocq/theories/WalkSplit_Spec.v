(** Vocabulary for comparing two segment generators. *)
From Verif Require Import Base Iter_Model Iter_Spec WalkSplit_Model.

(** [length outs] successive pulls of [next] from [s] returned [outs]
    ([None] = exhausted) and left the state [s']. *)
Inductive pulled {A St} (next : St -> res (option A * St)) : St -> list (option A) -> St -> Prop :=
| PulledNil s : pulled next s [] s
| PulledCons s s1 s2 o outs :
    next s = Ok (o, s1) -> pulled next s1 outs s2 -> pulled next s (o :: outs) s2.

(** The iterator [sg] handed out as a segment yields exactly [xs] and is then
    exhausted; [whole xs] says what the container's own Iter yields. *)
Definition yields {N T} (next : N -> option N) (val : N -> T)
    (whole : list T -> Prop) (sg : segment) (xs : list T) : Prop :=
  match sg with
  | SWhole => whole xs
  | SRest n => exists fin, drains (rest_next next val) n xs fin
  | SStep k n => exists fin, drains (step_next next val) (k, n) xs fin
  end.

(** Same answer: both exhausted, or a segment iterator yielding the same elements. *)
Definition same_segment {N T} (next : N -> option N) (val : N -> T) (whole : list T -> Prop)
    (slice_seg : option (list T)) (walk_seg : option (segment (N := N))) : Prop :=
  match slice_seg, walk_seg with
  | None, None => True
  | Some xs, Some sg => yields next val whole sg xs
  | _, _ => False
  end.
