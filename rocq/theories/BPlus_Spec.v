(** Vocabulary of the B+ tree theorems: what it means to read a tree left to
    right, histories of calls, and the effect of a deletion on the sequence
    of stored entries. *)
From Verif Require Import Base BPlus_Model.

Section spec.
  Context {K V : Type}.
  Implicit Types (h : nat -> @node K V) (t : @tree K V).

  (** Reading a tree in order meets stored entries (in leaves) and separators
      (in inner nodes). *)
  Inductive item := Entry (e : K * V) | Sep (e : K * V).
  Definition item_key (i : item) : K := match i with Entry e => e.1 | Sep e => e.1 end.
  Definition entries (w : list item) : list (K * V) :=
    omap (fun i => match i with Entry e => Some e | Sep _ => None end) w.
  Definition separators (w : list item) : list (K * V) :=
    omap (fun i => match i with Entry _ => None | Sep e => Some e end) w.

  (** the readings of the children with the separators in between *)
  Fixpoint weave (ws : list (list item)) (ks : list (K * V)) : list item :=
    match ws, ks with
    | w :: ws, k :: ks => w ++ Sep k :: weave ws ks
    | w :: _, [] => w
    | [], _ => []
    end.

  (** [reads M h d l fp w]: at address [l] there is a tree of degree [M] whose
      leaves are all [d] levels down, whose inner nodes have between 1 and
      2M-1 keys and one child more, whose nodes below [l] hold at least M-1
      keys, whose nodes are at the addresses [fp], and which reads [w] from
      left to right. *)
  Fixpoint reads (M : nat) h (d : nat) (l : nat) (fp : list nat) (w : list item) : Prop :=
    match d with
    | O => exists nx es junk cs,
        h l = Node (Some nx) (es ++ junk) cs (length es) true
        /\ length (es ++ junk) = 2 * M - 1 /\ cs = replicate (2 * M) None
        /\ fp = [l] /\ w = Entry <$> es
    | S d => exists nx ks junk (ts : list (nat * list nat * list item)) cjunk,
        h l = Node nx (ks ++ junk) (((fun c => Some c.1.1) <$> ts) ++ cjunk) (length ks) false
        /\ 1 <= length ks /\ length ts = S (length ks)
        /\ length (ks ++ junk) = 2 * M - 1 /\ length ts + length cjunk = 2 * M
        /\ fp = l :: concat ((fun c => c.1.2) <$> ts)
        /\ w = weave ((fun c => c.2) <$> ts) ks
        /\ Forall (fun c => M - 1 <= num (h c.1.1) /\ reads M h d c.1.1 c.1.2 c.2) ts
    end.

  (** The whole tree: no node is shared, all nodes are allocated, and Size is
      the number of stored entries. *)
  Definition tree_reads t (d : nat) (w : list item) : Prop :=
    exists r fp, root t = Some r /\ reads (degree t) (hp t) d r fp w
      /\ NoDup fp /\ Forall (fun l => l < brk t) fp
      /\ size t = Z.of_nat (length (entries w)).

  (** An executable reading, for concrete trees: every reading [w] of a tree in
      the sense of [tree_reads] is the one computed here (theorem
      C45_reading_is_computable). *)
  Fixpoint walk (fuel : nat) h (l : nat) : list item :=
    match fuel with
    | O => []
    | S fuel =>
        if leaf (h l) then Entry <$> take (num (h l)) (vals (h l))
        else weave ((fun c => match c with Some c => walk fuel h c | None => [] end) <$> take (S (num (h l))) (kids (h l)))
                   (take (num (h l)) (vals (h l)))
    end.
  Definition reading t : list item :=
    match root t with Some r => walk (S (brk t)) (hp t) r | None => [] end.

  (** in order under the comparator *)
  Definition in_order (comp : K -> K -> Z) (w : list item) : Prop :=
    StronglySorted (fun a b => (comp (item_key a) (item_key b) <= 0)%Z) w.

  (** The nodes of a tree: those reached from the root through the children
      of inner nodes.  [inner_node t ks]: some inner node has the separators [ks]. *)
  Inductive below h (r : nat) : nat -> Prop :=
  | below_here : below h r r
  | below_kid l i c : below h r l -> leaf (h l) = false -> i <= num (h l) -> kids (h l) !! i = Some (Some c) -> below h r c.
  Definition inner_node t (ks : list (K * V)) : Prop :=
    exists r l, root t = Some r /\ below (hp t) r l /\ leaf (hp t l) = false /\ ks = take (num (hp t l)) (vals (hp t l)).

  (** Halving the positions from [lo] up to [hi] (exclusive) until the middle
      one is [i]: the result is where the part looked at then begins.
      Position [i] of [n] is well placed if nothing is left of it there. *)
  Fixpoint arrive (fuel lo hi i : nat) : nat :=
    match fuel with
    | O => lo
    | S fuel => let mid := (lo + hi - 1) / 2 in
                if decide (i < mid) then arrive fuel lo mid i
                else if decide (mid < i) then arrive fuel (mid + 1) hi i else lo
    end.
  Definition well_placed (n i : nat) : Prop := arrive n 0 n i = i.
  (** no inner node has a separator equal to [k] that is not well placed *)
  Definition findable (comp : K -> K -> Z) t (k : K) : Prop :=
    forall ks i s, inner_node t ks -> ks !! i = Some s -> comp k s.1 = 0%Z -> well_placed (length ks) i.
  (** no two of the entries have equal keys *)
  Definition distinct (comp : K -> K -> Z) (es : list (K * V)) : Prop :=
    forall x y rest, es ≡ₚ x :: y :: rest -> comp x.1 y.1 <> 0%Z.

  (** What one call of Delete may do to the sequence of stored entries: an
      entry may be overwritten by its left neighbour, and then one entry whose
      key is not greater than the given key may be removed. *)
  Definition overwrite (es es' : list (K * V)) : Prop :=
    exists a b z c, es = a ++ b :: z :: c /\ es' = a ++ b :: b :: c.
  Definition removed (P : K * V -> Prop) (es es' : list (K * V)) : Prop :=
    exists a x c, es = a ++ x :: c /\ es' = a ++ c /\ P x.

  (** histories *)
  Inductive op :=
  | InsertEqual (k : K) (v : V) | InsertUnique (k : K) (v : V)
  | Delete (k : K) | DeleteWhole (k : K) (v : V) | GetVerify (k : K).
  Inductive reply := RBool (b : bool) | RVal (v : V) (b : bool).
End spec.

Section hist.
  Context {K V : Type} (kzero : K) (vzero : V) (comp : K -> K -> Z) (compV : V -> V -> Z).

  Definition bpair {A} (m : res (A * bool)) : res (A * @reply V) :=
    let! (t, b) := m in Ok (t, RBool b).
  Definition do_op (o : op) (t : @tree K V) : res (@tree K V * @reply V) :=
    match o with
    | InsertEqual k v => bpair (insert_equal kzero vzero comp k v t)
    | InsertUnique k v => bpair (insert_unique kzero vzero comp k v t)
    | Delete k => bpair (delete_key comp k t)
    | DeleteWhole k v => bpair (delete_by_whole_mapping comp k v compV t)
    | GetVerify k => let! (v, b) := get_verify vzero comp k t in Ok (t, RVal v b)
    end.
  Fixpoint run (os : list op) (t : @tree K V) : res (@tree K V * list (@reply V)) :=
    match os with
    | [] => Ok (t, [])
    | o :: os => let! (t, r) := do_op o t in let! (t, rs) := run os t in Ok (t, r :: rs)
    end.
  (** a new tree on which the history is run *)
  Definition run_new (deg : Z) (os : list op) : res (@tree K V * list (@reply V)) :=
    let! t := new_map kzero vzero deg in run os t.

  (** insertions and lookups only *)
  Definition no_delete (o : @op K V) : Prop :=
    match o with Delete _ | DeleteWhole _ _ => False | _ => True end.
  (** the entries a history says it stored: those of the insertions that
      replied true *)
  Fixpoint stored (os : list (@op K V)) (rs : list (@reply V)) : list (K * V) :=
    match os, rs with
    | InsertEqual k v :: os, RBool true :: rs | InsertUnique k v :: os, RBool true :: rs => (k, v) :: stored os rs
    | _ :: os, _ :: rs => stored os rs
    | _, _ => []
    end.

  (** the number of insertions in a history *)
  Definition is_insert (o : @op K V) : bool :=
    match o with InsertEqual _ _ | InsertUnique _ _ => true | _ => false end.
  Definition insertions (os : list (@op K V)) : nat := length (List.filter is_insert os).

  (** The multimap a sorted list of entries [es] should behave as: one call,
      its reply, and the entries afterwards. *)
  Definition has (k : K) (es : list (K * V)) : Prop := exists e, e ∈ es /\ comp k e.1 = 0%Z.
  Definition right_effect (o : @op K V) (es es' : list (K * V)) (r : @reply V) : Prop :=
    match o with
    | InsertEqual k v => r = RBool true /\ es' ≡ₚ (k, v) :: es
    | InsertUnique k v =>
        (has k es /\ r = RBool false /\ es' = es) \/ (~ has k es /\ r = RBool true /\ es' ≡ₚ (k, v) :: es)
    | Delete k =>
        (has k es /\ r = RBool true /\ removed (fun x => comp k x.1 = 0%Z) es es')
        \/ (~ has k es /\ r = RBool false /\ es' = es)
    | DeleteWhole k v =>
        (exists e, e ∈ es /\ comp k e.1 = 0%Z /\ (compV e.2 v < 0)%Z /\ r = RBool true /\ removed (fun x => comp k x.1 = 0%Z) es es')
        \/ (exists e, e ∈ es /\ comp k e.1 = 0%Z /\ (0 <= compV e.2 v)%Z /\ r = RBool false /\ es' = es)
        \/ (~ has k es /\ r = RBool false /\ es' = es)
    | GetVerify k => es' = es /\
        ((~ has k es /\ r = RVal vzero false) \/ exists e, e ∈ es /\ comp k e.1 = 0%Z /\ r = RVal e.2 true)
    end.
  (** a history with its replies, every call having the right effect *)
  Inductive right_history : list (K * V) -> list (@op K V) -> list (@reply V) -> list (K * V) -> Prop :=
  | right_nil es : right_history es [] [] es
  | right_cons es o r es' os rs es'' :
      right_effect o es es' r -> right_history es' os rs es'' -> right_history es (o :: os) (r :: rs) es''.
End hist.
