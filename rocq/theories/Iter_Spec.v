(** Specification vocabulary for iterators. *)
From Verif Require Import Base Iter_Model.

(** Pulling [next] from [s] produces exactly the values [l] and leaves [s']. *)
Inductive pulls {T St} (next : St -> res (option T * St)) : St -> list T -> St -> Prop :=
| PullsNil s : pulls next s [] s
| PullsCons s s1 s2 v l : next s = Ok (Some v, s1) -> pulls next s1 l s2 -> pulls next s (v :: l) s2.

(** [next] from [s] yields [l] and then reports exhaustion, leaving [s']. *)
Definition drains {T St} (next : St -> res (option T * St)) (s : St) (l : list T) (s' : St) : Prop :=
  exists s1, pulls next s l s1 /\ next s1 = Ok (None, s').

(** A total callback that answers [f v] and records its argument. *)
Definition recorder {T} (f : T -> bool) : T -> list T -> res (bool * list T) :=
  fun v log => Ok (f v, log ++ [v]).

(** [calls] is what a loop stopping at the first rejection visits of [l]: a
    prefix of [l], every visited element but the last accepted, and the last
    one rejected unless all of [l] was visited with acceptance. *)
Definition visits_until_reject {T} (f : T -> bool) (l calls : list T) : Prop :=
  (calls = l /\ Forall (fun v => f v = true) l) \/
  (exists p v r, l = p ++ v :: r /\ calls = p ++ [v] /\ Forall (fun v => f v = true) p /\ f v = false).

(** [ls] are the newline-terminated lines of [bytes] and [rest] what follows them. *)
Definition is_line (l : list N) : Prop := exists p, l = p ++ [newline] /\ newline ∉ p.
Definition splits_into (bytes : list N) (ls : list (list N)) (rest : list N) : Prop :=
  bytes = concat ls ++ rest /\ Forall is_line ls /\ newline ∉ rest.

(** the values among the results of next *)
Definition somes {T} (r : list (option T)) : list T := omap id r.

(** ** CastToPull *)
(** the producer [p0] has called its callback with the values of [h], in order,
    was answered what [h] says, and is now at [p] *)
Inductive ran {T P : Type} (pstep : P -> option T) (pnext : P -> bool -> P) (p0 : P) : list (T * bool) -> P -> Prop :=
| ran_nil : ran pstep pnext p0 [] p0
| ran_snoc h p v b : ran pstep pnext p0 h p -> pstep p = Some v -> ran pstep pnext p0 (h ++ [(v, b)]) (pnext p b).
(** the values that were answered with true *)
Definition accepted {T} (h : list (T * bool)) : list T := omap (fun x : T * bool => if x.2 then Some x.1 else None) h.
(** [s] is reachable by a schedule in which next has been called [k] times *)
Inductive runs_to {T P : Type} (pstep : P -> option T) (pnext : P -> bool -> P) (p0 : P) : nat -> pstate (T:=T) (P:=P) -> Prop :=
| rt_init : runs_to pstep pnext p0 0 (pinit p0)
| rt_int k s s' : runs_to pstep pnext p0 k s -> pint pstep pnext s s' -> runs_to pstep pnext p0 k s'
| rt_next k q c w l r : runs_to pstep pnext p0 k (PState q c w l r) -> runs_to pstep pnext p0 (S k) (PState q c (S w) l r)
| rt_stop k q c w l r : runs_to pstep pnext p0 k (PState q c w l r) -> runs_to pstep pnext p0 k (PState q true w l r).
