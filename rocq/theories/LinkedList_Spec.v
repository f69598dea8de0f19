(** What the linked list is meant to be: sequences of element handles.
    Independent of pointers. *)
From Verif Require Import Base LinkedList_Model.

Section spec.
  Context {T : Type} (zero : T).

  Record lists := Lists {
    elems : nat -> list nat;      (* the elements of each list, front to back *)
    ready : nat -> bool;          (* initialised (Init or a push) since creation or Clear *)
    lost : nat -> option nat;     (* elements dropped by Clear or Init, and from which list *)
    values : list T;              (* the value of each element ever created *)
  }.
  Definition lists0 : lists := Lists (fun _ => []) (fun _ => false) (fun _ => None) [].

  Definition value_of (s : lists) (e : nat) : T := default zero (values s !! e).
  Definition contents (s : lists) (l : nat) : list T := value_of s <$> elems s l.
  Definition next_id (s : lists) : nat := length (values s).

  (** sequence editing *)
  Definition put_after (mark e : nat) (s : list nat) : list nat :=
    flat_map (fun x => if decide (x = mark) then [x; e] else [x]) s.
  Definition put_before (mark e : nat) (s : list nat) : list nat :=
    flat_map (fun x => if decide (x = mark) then [e; x] else [x]) s.
  Definition without (e : nat) (s : list nat) : list nat := filter (fun x => x <> e) s.

  Definition with_elems (l : nat) (xs : list nat) (s : lists) : lists :=
    Lists (<[l := xs]> (elems s)) (ready s) (lost s) (values s).
  Definition with_ready (l : nat) (b : bool) (s : lists) : lists :=
    Lists (elems s) (<[l := b]> (ready s)) (lost s) (values s).
  Definition with_values (vs : list T) (s : lists) : lists :=
    Lists (elems s) (ready s) (lost s) vs.
  (** forget all elements of [l] *)
  Definition drop_all (l : nat) (s : lists) : lists :=
    Lists (<[l := []]> (elems s)) (ready s)
          (fun e => if decide (e ∈ elems s l) then Some l else lost s e) (values s).

  (** the position just before / after [x] in the list of which it is a member *)
  Fixpoint successor (e : nat) (s : list nat) : option nat :=
    match s with
    | [] => None
    | x :: s' => if decide (x = e) then head s' else successor e s'
    end.
  Definition predecessor (e : nat) (s : list nat) : option nat := successor e (reverse s).

  Definition handle (o : option nat) : ret T := RElt (Elt <$> o).

  (** which list holds [e], if any of the lists [ls] *)
  Definition spec_exec (s : lists) (o : op T) (s' : lists) (r : res (ret T)) : Prop :=
    let same := s' = s in
    match o with
    | Init l => s' = with_ready l true (drop_all l s) /\ r = Ok RUnit
    | Clear l => s' = with_ready l false (drop_all l s) /\ r = Ok RUnit
    | Len l => same /\ r = Ok (RInt (Z.of_nat (length (elems s l))))
    | Front l => same /\ r = Ok (handle (head (elems s l)))
    | Back l => same /\ r = Ok (handle (last (elems s l)))
    | ToSlice l => same /\ r = if ready s l then Ok (RSlice (contents s l)) else Panic
    | Next e => same /\
        ((exists l, e ∈ elems s l /\ r = Ok (handle (successor e (elems s l)))) \/
         ((forall l, e ∉ elems s l) /\ r = Ok (RElt None)))
    | Prev e => same /\
        ((exists l, e ∈ elems s l /\ r = Ok (handle (predecessor e (elems s l)))) \/
         ((forall l, e ∉ elems s l) /\ r = Ok (RElt None)))
    | Value e => same /\ r = Ok (RVal (value_of s e))
    | SetValue e v => s' = with_values (<[e := v]> (values s)) s /\ r = Ok RUnit
    | PushFront l v =>
        s' = with_elems l (next_id s :: elems s l) (with_ready l true (with_values (values s ++ [v]) s)) /\
        r = Ok (handle (Some (next_id s)))
    | PushBack l v =>
        s' = with_elems l (elems s l ++ [next_id s]) (with_ready l true (with_values (values s ++ [v]) s)) /\
        r = Ok (handle (Some (next_id s)))
    | InsertBefore l v mark =>
        if decide (mark ∈ elems s l)
        then s' = with_elems l (put_before mark (next_id s) (elems s l)) (with_values (values s ++ [v]) s) /\
             r = Ok (handle (Some (next_id s)))
        else same /\ r = Ok (RElt None)
    | InsertAfter l v mark =>
        if decide (mark ∈ elems s l)
        then s' = with_elems l (put_after mark (next_id s) (elems s l)) (with_values (values s ++ [v]) s) /\
             r = Ok (handle (Some (next_id s)))
        else same /\ r = Ok (RElt None)
    | Remove l e =>
        r = Ok (RVal (value_of s e)) /\
        if decide (e ∈ elems s l) then s' = with_elems l (without e (elems s l)) s else same
    | MoveToFront l e =>
        r = Ok RUnit /\
        if decide (e ∈ elems s l) then s' = with_elems l (e :: without e (elems s l)) s else same
    | MoveToBack l e =>
        r = Ok RUnit /\
        if decide (e ∈ elems s l) then s' = with_elems l (without e (elems s l) ++ [e]) s else same
    | MoveBefore l e mark =>
        r = Ok RUnit /\
        if decide (e ∈ elems s l /\ mark ∈ elems s l /\ e <> mark)
        then s' = with_elems l (put_before mark e (without e (elems s l))) s else same
    | MoveAfter l e mark =>
        r = Ok RUnit /\
        if decide (e ∈ elems s l /\ mark ∈ elems s l /\ e <> mark)
        then s' = with_elems l (put_after mark e (without e (elems s l))) s else same
    | PushBackList l o =>
        r = Ok RUnit /\
        s' = with_elems l (elems s l ++ seq (next_id s) (length (elems s o)))
               (with_ready l true (with_values (values s ++ contents s o) s))
    | PushFrontList l o =>                (* copies are created back to front *)
        r = Ok RUnit /\
        s' = with_elems l (reverse (seq (next_id s) (length (elems s o))) ++ elems s l)
               (with_ready l true (with_values (values s ++ reverse (contents s o)) s))
    end.

  (** A call is proper when the handles it is given exist and are not handles
      that Clear or Init dropped from the very list they are passed to. *)
  Definition known (s : lists) (e : nat) : Prop := e < next_id s.
  Definition proper (s : lists) (o : op T) : Prop :=
    match o with
    | Next e | Prev e => known s e /\ lost s e = None
    | Value e | SetValue e _ => known s e
    | InsertBefore l _ e | InsertAfter l _ e | Remove l e | MoveToFront l e | MoveToBack l e =>
        known s e /\ lost s e <> Some l
    | MoveBefore l e mark | MoveAfter l e mark =>
        known s e /\ known s mark /\ lost s e <> Some l /\ lost s mark <> Some l
    | _ => True
    end.

  (** A history of proper calls with its results. *)
  Inductive spec_execs : lists -> list (op T) -> list (res (ret T)) -> lists -> Prop :=
  | SpecNil s : spec_execs s [] [] s
  | SpecCons s s1 s2 o r os rs :
      proper s o -> spec_exec s o s1 r -> spec_execs s1 os rs s2 ->
      spec_execs s (o :: os) (r :: rs) s2.
End spec.
Arguments lists T : clear implicits.
