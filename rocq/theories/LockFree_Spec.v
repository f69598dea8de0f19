(** The sequential object a lock-free skip list implements: a set of values no
    two of which compare equal, as an unordered list. *)
From Verif Require Import Base Lin_Spec LockFree_Model.

Section spec.
  Context {T : Type} (zero : T) (comp : T -> T -> Z).
  Local Open Scope Z_scope.

  Definition present (s : list T) (v : T) : Prop := exists w, w ∈ s /\ comp w v = 0.
  Inductive set_legal : list T -> op T -> ret T -> list T -> Prop :=
  | L_add s s' v : ~ present s v -> s' ≡ₚ v :: s -> set_legal s (Add v) (RBool true) s'
  | L_add_dup s v : present s v -> set_legal s (Add v) (RBool false) s
  | L_del s s' v w : comp w v = 0 -> s ≡ₚ w :: s' -> set_legal s (Del v) (RBool true) s'
  | L_del_none s v : ~ present s v -> set_legal s (Del v) (RBool false) s
  | L_has s v : present s v -> set_legal s (Has v) (RBool true) s
  | L_has_not s v : ~ present s v -> set_legal s (Has v) (RBool false) s
    (** Get: a least element among those that are at least v *)
  | L_get s v w : w ∈ s -> 0 <= comp w v -> (forall x, x ∈ s -> 0 <= comp x v -> comp w x <= 0) ->
      set_legal s (Get v) (RVal w) s
  | L_get_none s v : (forall x, x ∈ s -> comp x v < 0) -> set_legal s (Get v) (RVal zero) s
    (** Rank and Len take part without changing the set; their results are the subject of C52 and C53 *)
  | L_rank s v z : set_legal s (Rank v) (RInt z) s
  | L_len s z : set_legal s Len (RInt z) s.

  (** ** What memory holds *)
  (** following the links of level [l] (marked or not) from node [i] leads to
      the tail, over the nodes [ids] *)
  Inductive path (h : list (node T)) (l : nat) : nat -> list nat -> Prop :=
  | path_end i n m : h !! i = Some n -> nexts n !! l = Some (Some tail, m) -> path h l i []
  | path_hop i n m j ids : h !! i = Some n -> nexts n !! l = Some (Some j, m) -> j <> tail -> path h l j ids -> path h l i (j :: ids).
  (** reaching a node from another one by links of any level *)
  Inductive reaches (h : list (node T)) : nat -> nat -> Prop :=
  | reaches_refl i : reaches h i i
  | reaches_hop i j k n l m : reaches h i j -> h !! j = Some n -> nexts n !! l = Some (Some k, m) -> reaches h i k.
  (** the values of the nodes of a path, and of those whose bottom link is not marked *)
  Definition values (h : list (node T)) (ids : list nat) : list T := omap (fun i => value <$> h !! i) ids.
  Definition unmarked_value (h : list (node T)) (i : nat) : option T :=
    n ← h !! i; x ← nexts n !! 0%nat; if is_marked x then None else Some (value n).
  Definition stored (x : sys T) (s : list T) : Prop :=
    exists ids, path (heap (shared x)) 0 head ids /\ s = omap (unmarked_value (heap (shared x))) ids.
  (** the elements with the heights of their towers *)
  Definition tower (h : list (node T)) (i : nat) : option (T * nat) :=
    n ← h !! i; x ← nexts n !! 0%nat; if is_marked x then None else Some (value n, level n).
  Definition towers (x : sys T) (s : list (T * nat)) : Prop :=
    exists ids, path (heap (shared x)) 0 head ids /\ s = omap (tower (heap (shared x))) ids.
  (** the calls of a history do not overlap *)
  Inductive one_at_a_time : list (event (op T) (ret T)) -> Prop :=
  | oat_nil : one_at_a_time []
  | oat_call h t o r : one_at_a_time h -> one_at_a_time (h ++ [Call t o; Return t r]).
  (** how many numbers of a list are not exceeded by a later one *)
  Fixpoint peaks (hs : list nat) : nat :=
    match hs with
    | [] => 0
    | a :: hs => ((if decide (Forall (fun b => b <= a)%nat hs) then 1 else 0) + peaks hs)%nat
    end.
  (** goroutines in the middle of a call *)
  Definition in_call (p : pc T) : bool := match p with Quiet => false | _ => true end.
  Definition quiet (x : sys T) : Prop := forall t p, pcs x !! t = Some p -> p = Quiet.

  (** ** One goroutine running alone *)
  Inductive alone (t : nat) : nat -> sys T -> sys T -> Prop :=
  | alone_0 x : alone t 0 x x
  | alone_S k x m p m' p' top : alone t k x (Sys m p) ->
      (exists q, p !! t = Some q /\ running q = true /\ tstep comp m q top = Ok (m', p')) -> random_level top ->
      alone t (S k) x (Sys m' (<[t := p']> p)).
End spec.
