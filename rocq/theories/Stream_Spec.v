(** Specification vocabulary for sequential streams. *)
From Verif Require Import Base Stream_Model.

Section spec.
  Context {U : Type}.
  Notation W := (world U).

  (** Calling the iterator in world [w] returns [o] (for all large enough fuel). *)
  Definition returns {T} (it : iter U T) (w : W) (o : option T) (it' : iter U T) (w' : W) : Prop :=
    exists n, forall m, n <= m -> pull it m w = Ok (o, it', w').
  Definition greturns {T} (g : gen U T) (w : W) (o : option (iter U T)) (g' : gen U T) (w' : W) : Prop :=
    exists n, forall m, n <= m -> nextseg g m w = Ok (o, g', w').

  (** [yields E it l]: whatever else happens to the world between calls, the
      iterator yields exactly the elements [l], in order, and then reports
      exhaustion; each call changes the world only as [E] allows. *)
  Inductive yields (E : W -> W -> Prop) {T} : iter U T -> list T -> Prop :=
  | yields_nil it : (forall w, exists it' w', returns it w None it' w' /\ E w w') -> yields E it []
  | yields_cons it v l :
      (forall w, exists it' w', returns it w (Some v) it' w' /\ E w w' /\ yields E it' l) ->
      yields E it (v :: l).
  (** a generator that has no segments, now and for ever *)
  CoInductive exhausted (E : W -> W -> Prop) {T} (g : gen U T) : Prop :=
    exhausted_intro :
      (forall w, exists g' w', greturns g w None g' w' /\ E w w' /\ exhausted E g') -> exhausted E g.
  (** the same as [yields] for generators: the segments are [ls], and then it stays exhausted *)
  Inductive gyields (E : W -> W -> Prop) {T} : gen U T -> list (list T) -> Prop :=
  | gyields_nil g : exhausted E g -> gyields E g []
  | gyields_cons g l ls :
      (forall w, exists it g' w', greturns g w (Some it) g' w' /\ E w w' /\
                                  yields E it l /\ gyields E g' ls) ->
      gyields E g (l :: ls).

  (** the stream, activated with parallelism [p], has exactly the segments [ls] *)
  Definition has_segments (E : W -> W -> Prop) {T} (s : stream U T) (p : Z) (ls : list (list T)) : Prop :=
    gyields E (activate s p) ls.
  (** a source: pulling it does not touch the world *)
  Notation source := (has_segments eq).
  (** a stream whose elements are fixed, but pulling it may have any effect *)
  Notation stable := (has_segments (fun _ _ => True)).

  (** ** What the passage of one source element through a pipeline does. *)
  Inductive kres (T : Type) := Emit (v : T) | Drop | Stop.
  Global Arguments Emit {T} v.
  Global Arguments Drop {T}.
  Global Arguments Stop {T}.

  (** pipelines of any depth over a source with elements of type [T] *)
  Inductive pipe (T : Type) : Type -> Type :=
  | PSource : pipe T T
  | PMap {R V} (p : pipe T R) (f : R -> U -> V * U) : pipe T V
  | PFilter {R} (p : pipe T R) (f : R -> U -> bool * U) : pipe T R
  | PInspect {R} (p : pipe T R) (f : R -> U -> U) : pipe T R
  | PSkipWhile {R} (p : pipe T R) (f : R -> U -> bool * U) : pipe T R
  | PSkip {R} (c : nat) (p : pipe T R) (n : Z) : pipe T R
  | PTake {R} (c : nat) (p : pipe T R) (n : Z) : pipe T R
  | PEnumerate {R} (c : nat) (p : pipe T R) : pipe T (Z * R).
  Global Arguments PSource {T}.
  Global Arguments PMap {T R V} p f.
  Global Arguments PFilter {T R} p f.
  Global Arguments PInspect {T R} p f.
  Global Arguments PSkipWhile {T R} p f.
  Global Arguments PSkip {T R} c p n.
  Global Arguments PTake {T R} c p n.
  Global Arguments PEnumerate {T R} c p.

  (** the stream the Go program builds *)
  Fixpoint build {T V} (p : pipe T V) : stream U T -> stream U V :=
    match p with
    | PSource => fun s => s
    | PMap p f => fun s => Map (build p s) f
    | PFilter p f => fun s => Filter (build p s) f
    | PInspect p f => fun s => Inspect (build p s) f
    | PSkipWhile p f => fun s => SkipWhile (build p s) f
    | PSkip c p n => fun s => skip_at c (build p s) n
    | PTake c p n => fun s => take_at c (build p s) n
    | PEnumerate c p => fun s => enum_at c (build p s)
    end.
  (** every Skip/Take/Enumerate in the pipeline has its own counter *)
  Fixpoint counters {T V} (p : pipe T V) : list nat :=
    match p with
    | PSource => []
    | PMap p _ => counters p
    | PFilter p _ | PInspect p _ | PSkipWhile p _ => counters p
    | PSkip c p _ | PTake c p _ => c :: counters p
    | PEnumerate c p => c :: counters p
    end.

  (** one element: each stage's callback runs once, in source-to-sink order,
      unless an earlier stage dropped the element; a Take whose budget is spent stops the
      segment before the element is even fetched. *)
  Fixpoint element {T V} (p : pipe T V) : T -> W -> kres V * W :=
    match p with
    | PSource => fun x w => (Emit x, w)
    | PMap p f => fun x w =>
        match element p x w with
        | (Emit v, w') => let '(r, u) := f v (usr w') in (Emit r, World (ctr w') u)
        | (Drop, w') => (Drop, w') | (Stop, w') => (Stop, w') end
    | PFilter p f => fun x w =>
        match element p x w with
        | (Emit v, w') => let '(b, u) := f v (usr w') in
                          (if b then Emit v else Drop, World (ctr w') u)
        | r => r end
    | PInspect p f => fun x w =>
        match element p x w with
        | (Emit v, w') => (Emit v, World (ctr w') (f v (usr w')))
        | r => r end
    | PSkipWhile p f => fun x w =>
        match element p x w with
        | (Emit v, w') => let '(b, u) := f v (usr w') in
                          (if b then Drop else Emit v, World (ctr w') u)
        | r => r end
    | PSkip c p n => fun x w =>
        match element p x w with
        | (Emit v, w') => let k := (default 0 (ctr w' !! c) + 1)%Z in
                          (if decide (k < n)%Z then Drop else Emit v, World (<[c := k]> (ctr w')) (usr w'))
        | r => r end
    | PTake c p n => fun x w =>
        if decide (default 0 (ctr w !! c) < n)%Z then
          match element p x w with
          | (Emit v, w') => let k := (default 0 (ctr w' !! c) + 1)%Z in
                            (Emit v, World (<[c := k]> (ctr w')) (usr w'))
          | r => r end
        else (Stop, w)
    | PEnumerate c p => fun x w =>
        match element p x w with
        | (Emit v, w') => let k := (default 0 (ctr w' !! c) + 1)%Z in
                          (Emit (k, v), World (<[c := k]> (ctr w')) (usr w'))
        | (Drop, w') => (Drop, w') | (Stop, w') => (Stop, w') end
    end.

  (** the fused loop: elements one after the other, the terminal callback [f]
      right after each element that comes through; Stop ends the segment *)
  Fixpoint run_segment {T V R} (p : pipe T V) (f : R -> V -> U -> R * U) (l : list T) (acc : R) (w : W) : R * W :=
    match l with
    | [] => (acc, w)
    | x :: l' =>
      match element p x w with
      | (Emit v, w') => let '(acc', u) := f acc v (usr w') in run_segment p f l' acc' (World (ctr w') u)
      | (Drop, w') => run_segment p f l' acc w'
      | (Stop, w') => (acc, w')
      end
    end.
  Fixpoint run_segments {T V R} (p : pipe T V) (f : R -> V -> U -> R * U) (ls : list (list T)) (acc : R) (w : W) : R * W :=
    match ls with
    | [] => (acc, w)
    | l :: ls' => let '(acc', w') := run_segment p f l acc w in run_segments p f ls' acc' w'
    end.
End spec.
Notation source := (has_segments eq).
Notation stable := (has_segments (fun _ _ => True)).

(** a terminating computation returns [a] for all large enough fuel *)
Definition evaluates {A} (m : nat -> res A) (a : A) : Prop := exists n, forall k, n <= k -> m k = Ok a.

(** FlatMap: the first segments of the sub-streams, up to the first sub-stream
    with no segment; [segs t] are the segments of the sub-stream made from [t] *)
Fixpoint flat_elements {T V} (segs : T -> list (list V)) (l : list T) : list V :=
  match l with
  | [] => []
  | t :: l' => match segs t with [] => [] | seg :: _ => seg ++ flat_elements segs l' end
  end.

(** Chain: the [r]-th segment of the chain is made of the [r]-th segments of the sources that have one *)
Definition chain_segments {T} (lss : list (list (list T))) : list (list T) :=
  (fun r => concat (omap (fun ls => ls !! r) lss)) <$> seq 0 (foldr max 0 (length <$> lss)).

(** Collecting [s] (parallelism 0) in world [w] hands exactly the elements [l],
    in order, to the consumer, whatever the consumer does, and leaves counters [m]. *)
Definition collects {U T} (s : stream U T) (w : world U) (l : list T) (m : gmap nat Z) : Prop :=
  forall consume : T -> U -> U,
  evaluates (fun fuel => collect s consume fuel w)
            (World m (fold_left (fun u x => consume x u) l (usr w))).

(** the callback that answers [f] and logs its argument *)
Definition logging {T A} (f : T -> A) (x : T) (log : list T) : A * list T := (f x, log ++ [x]).

(** left fold that stops at the first rejection *)
Fixpoint try_left {U T R} (f : R -> T -> U -> (R * bool) * U) (acc : R) (l : list T) (u : U) : R * bool * U :=
  match l with
  | [] => (acc, true, u)
  | x :: l' => let '((acc', ok), u') := f acc x u in if ok then try_left f acc' l' u' else (acc', false, u')
  end.
(** the elements of the first segment; none if there is no segment *)
Definition first_segment {T} (ls : list (list T)) : list T := default [] (head ls).
