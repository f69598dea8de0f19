(** Specification vocabulary for the skip list: what a history of calls may do
    to the sequence of entries a client sees through Iter. *)
From Verif Require Import Base Iter_Model Iter_Spec SkipList_Model.

Section spec.
  Context {K V : Type} (comp : K -> K -> Z).

  (** One call, on the sequence of entries.  The position of an insertion and
      the entry a Delete hits depend on the random heights, hence a relation.
      - an insertion always succeeds; the new entry goes to the very front or
        immediately behind an entry with an equal key, and never immediately
        before one;
      - a Delete either finds nothing or removes an entry standing at the front
        or behind an entry that is equal by comp(stored, key), itself equal only
        by comp(key, stored);
      - DeleteRangeByKey removes a contiguous block M of entries below max, that
        starts at the front or behind an entry below min, and is maximal;
      - SetValue on the i-th node replaces the value of the i-th entry. *)
  Definition after_test (test : K -> Prop) (A : list (K * V)) : Prop :=
    A = [] \/ exists A' e, A = A' ++ [e] /\ test e.1.
  Definition stops (test : K -> Prop) (B : list (K * V)) : Prop :=
    match B with [] => True | e :: _ => ~ test e.1 end.
  Definition ins_spec (k : K) (v : V) (m : list (K * V)) (o : out) (m' : list (K * V)) : Prop :=
    exists A B, m = A ++ B /\ o = RBool true /\ m' = A ++ (k, v) :: B /\
      after_test (fun k' => comp k' k = 0%Z) A /\ stops (fun k' => comp k' k = 0%Z) B.
  Definition del_spec (k : K) (m : list (K * V)) (b : bool) (m' : list (K * V)) : Prop :=
    if b then exists A e B, m = A ++ e :: B /\ m' = A ++ B /\
                comp k e.1 = 0%Z /\ comp e.1 k <> 0%Z /\ after_test (fun k' => comp k' k = 0%Z) A
    else m' = m.
  Fixpoint dels_spec (ks : list K) (m : list (K * V)) (c : Z) (m' : list (K * V)) : Prop :=
    match ks with
    | [] => c = 0%Z /\ m' = m
    | k :: ks => exists (b : bool) c1 m1, del_spec k m b m1 /\ dels_spec ks m1 c1 m' /\
                 c = (if b then c1 + 1 else c1)%Z
    end.
  Definition op_spec (m : list (K * V)) (o : op K V) (r : out) (m' : list (K * V)) : Prop :=
    match o with
    | OInsertUnique k v _ | OInsertEquals k v _ => ins_spec k v m r m'
    | ODelete k => exists b, r = RBool b /\ del_spec k m b m'
    | ODeleteKeys ks => exists c, r = RInt c /\ dels_spec ks m c m'
    | ODeleteWhole k v vc => exists b, r = RBool b /\ (m' = m \/ b = true /\ del_spec k m true m')
    | ODeleteRange min max => exists A M B, m = A ++ M ++ B /\ m' = A ++ B /\ r = RInt (Z.of_nat (length M)) /\
        Forall (fun e => comp e.1 max = (-1)%Z) M /\ stops (fun k' => comp k' max = (-1)%Z) B /\
        after_test (fun k' => comp k' min = (-1)%Z) A /\ stops (fun k' => comp k' min = (-1)%Z) (M ++ B)
    | OClear => r = RUnit /\ m' = []
    | OSetValue i v => r = RUnit /\ m' = alter (fun e : K * V => (e.1, v)) i m
    end.
  Inductive seq_run : list (K * V) -> list (op K V) -> list out -> list (K * V) -> Prop :=
  | SeqNil m : seq_run m [] [] m
  | SeqCons m o r m1 os rs m2 : op_spec m o r m1 -> seq_run m1 os rs m2 -> seq_run m (o :: os) (r :: rs) m2.

  (** keys in increasing order *)
  Definition sorted (m : list (K * V)) : Prop :=
    forall i j a b, i < j -> m !! i = Some a -> m !! j = Some b -> (comp a.1 b.1 < 0)%Z.
  (** a call that, if it inserts, brings a key below all present keys *)
  Definition brings_min (m : list (K * V)) (o : op K V) : Prop :=
    match o with
    | OInsertUnique k _ _ | OInsertEquals k _ _ => Forall (fun e => (comp k e.1 < 0)%Z) m
    | _ => True
    end.
  (** what such a call does: insertions go to the front, Delete does nothing,
      DeleteRangeByKey(min,max) removes the keys in [min,max) *)
  Definition in_range (min max : K) (e : K * V) : Prop := (0 <= comp e.1 min)%Z /\ (comp e.1 max < 0)%Z.
  Global Instance in_range_dec min max e : Decision (in_range min max e).
  Proof. unfold in_range. apply _. Defined.
  Definition ideal (m : list (K * V)) (o : op K V) : list (K * V) :=
    match o with
    | OInsertUnique k v _ | OInsertEquals k v _ => (k, v) :: m
    | ODeleteRange min max => filter (fun e => ~ in_range min max e) m
    | OClear => []
    | OSetValue i v => alter (fun e : K * V => (e.1, v)) i m
    | _ => m
    end.
  (** decreasing histories, and the entries they leave *)
  Fixpoint decreasing (m : list (K * V)) (os : list (op K V)) : Prop :=
    match os with [] => True | o :: os => brings_min m o /\ decreasing (ideal m o) os end.
  Definition ideal_run (m : list (K * V)) (os : list (op K V)) : list (K * V) := fold_left ideal os m.

  (** the first entry whose key is not below [b] *)
  Definition first_geq (b : K) (m : list (K * V)) : option (K * V) :=
    head (filter (fun e => (0 <= comp e.1 b)%Z) m).
  (** min < max, and the keys stored reach from min or below to max or above *)
  Definition in_all (m : list (K * V)) (min max : K) : Prop :=
    (comp min max < 0)%Z /\ exists a b, head m = Some a /\ last m = Some b /\ (comp a.1 min <= 0)%Z /\ (0 <= comp b.1 max)%Z.
  (** min < max, and the interval from the first to the last key meets [min,max] *)
  Definition in_part (m : list (K * V)) (min max : K) : Prop :=
    (comp min max < 0)%Z /\ exists a b, head m = Some a /\ last m = Some b /\ (comp a.1 max <= 0)%Z /\ (0 <= comp b.1 min)%Z.

  (** everything a client can see of the list [s] shows the entries [m]: the
      nodes reached by First and Next, Last, Prev, Iter, Size and GetByRank *)
  Definition shows (vzero : V) (fuel : nat) (s : slist K V) (m : list (K * V)) : Prop :=
    exists ns, entry s <$> ns = m /\ size s = Z.of_nat (length m) /\
      first s = head ns /\ tail s = last ns /\
      (forall i l, ns !! i = Some l ->
         next s l = ns !! (i + 1) /\ back (hp s l) = (if decide (i = 0) then None else ns !! (i - 1))) /\
      (exists st, drains (iter_next s) (first s) m st) /\
      (forall r, get_by_rank vzero fuel s r =
         Ok (if decide (1 <= r)%Z then match m !! Z.to_nat (r - 1) with Some e => e.2 | None => vzero end else vzero)).
End spec.
