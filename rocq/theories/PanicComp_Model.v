(** A comparator that panics.  The functions of PQ_Model, SkipList_Model,
    RBTree_Model and BPlus_Model that call the user's comparator, written again
    (here and in PanicCompSL_Model, PanicCompRB_Model, PanicCompBP_Model) for a comparator that answers [n] calls and panics on the next one: the call
    of the method is then abandoned, the panic reaches the method's caller, and
    the container is left as it stands at that moment (no method of these
    packages has a deferred call or a recover).  [n] ranges over all naturals,
    so the panic strikes at every comparison there is.  A comparator that panics
    on some arguments only is covered: in any one run it answers some number of
    calls first.  C74_*_recovers_the_model say that with enough answers the
    functions here are those of the models. *)
From Verif Require Import Base PQ_Model.

(** what becomes of a call: it returns [a], with [n] answers left; or the
    comparator panics and the container is left in state [s]; or the code
    itself panics, or does not finish within its fuel, as in the models *)
Inductive cr (S A : Type) :=
| Done (a : A) (n : nat) | Crash (s : S) | CPanic | CFuel.
Arguments Done {S A} a n.
Arguments Crash {S A} s.
Arguments CPanic {S A}.
Arguments CFuel {S A}.
(** a computation, given the number of answers the comparator has left *)
Definition cm (S A : Type) := nat -> cr S A.
Definition cret {S A} (a : A) : cm S A := fun n => Done a n.
Definition cbnd {S A B} (m : cm S A) (f : A -> cm S B) : cm S B := fun n =>
  match m n with
  | Done a n => f a n
  | Crash s => Crash s
  | CPanic => CPanic
  | CFuel => CFuel
  end.
(** a part of the code that makes no comparison *)
Definition cl {S A} (m : res A) : cm S A := fun n =>
  match m with Ok a => Done a n | Panic => CPanic | Fuel => CFuel end.
(** a comparison, made when the container is in state [s] *)
Definition ask {S K} (comp : K -> K -> Z) (s : S) (x y : K) : cm S Z := fun n =>
  match n with O => Crash s | Datatypes.S n => Done (comp x y) n end.
(** a comparison made inside a part whose state is [s], seen from outside as [f s] *)
Definition seen_as {S S' A} (f : S -> S') (m : cm S A) : cm S' A := fun n =>
  match m n with
  | Done a n => Done a n
  | Crash s => Crash (f s)
  | CPanic => CPanic
  | CFuel => CFuel
  end.
Notation "'let^' x := m 'in' k" := (cbnd m (fun x => k)) (at level 200, x pattern, k at level 200).

(** ** the priority queue *)
Section pq.
  Context {T : Type} (zero : T) (comp : T -> T -> Z).

  (** percolateUp, priorityqueue.go:64-73; the state is the slice *)
  Fixpoint percolate_up_c (fuel : nat) (els : list T) (pos : nat) : cm (list T) (list T) :=
    match fuel with
    | 0 => fun _ => CFuel
    | S fuel' =>
        let i := (pos - 1) / 2 in
        if decide (i = pos) then cret els else
        let^ x := cl (deref (els !! pos)) in
        let^ y := cl (deref (els !! i)) in
        let^ c := ask comp els x y in
        if (0 <=? c)%Z then cret els
        else percolate_up_c fuel' (<[pos:=y]> (<[i:=x]> els)) i
    end.
  (** percolateDown, priorityqueue.go:75-94 *)
  Fixpoint percolate_down_c (fuel : nat) (els : list T) (i n : nat) : cm (list T) (list T * nat) :=
    match fuel with
    | 0 => fun _ => CFuel
    | S fuel' =>
        let j1 := 2 * i + 1 in
        if decide (n <= j1) then cret (els, i) else
        let j2 := j1 + 1 in
        let^ j := (if decide (j2 < n) then
                     let^ a := cl (deref (els !! j2)) in
                     let^ b := cl (deref (els !! j1)) in
                     let^ c := ask comp els a b in
                     cret (if (c <? 0)%Z then j2 else j1)
                   else cret j1) in
        let^ x := cl (deref (els !! j)) in
        let^ y := cl (deref (els !! i)) in
        let^ c := ask comp els x y in
        if (0 <=? c)%Z then cret (els, i)
        else percolate_down_c fuel' (<[j:=y]> (<[i:=x]> els)) j n
    end.
  (** Push, priorityqueue.go:40-49: size is already increased when the first
      comparison is made *)
  Definition q_push_c (q : queue T) (v : T) : cm (queue T) (bool * queue T) :=
    let els := if decide (length (PQ_Model.elements q) <= qsize q)
               then PQ_Model.elements q ++ [v] else <[qsize q := v]> (PQ_Model.elements q) in
    let sz := qsize q + 1 in
    let^ els' := seen_as (fun els => Queue els sz) (percolate_up_c (S sz) els (sz - 1)) in
    cret (true, Queue els' sz).
  (** Pop, priorityqueue.go:51-62: size is decreased after the last comparison *)
  Definition q_pop_c (q : queue T) : cm (queue T) (T * bool * queue T) :=
    if decide (qsize q = 0) then cret (zero, false, q) else
    let n := qsize q - 1 in
    let^ a := cl (deref (PQ_Model.elements q !! n)) in
    let^ b := cl (deref (PQ_Model.elements q !! 0)) in
    let els := <[n := b]> (<[0 := a]> (PQ_Model.elements q)) in
    let^ r := seen_as (fun els => Queue els (qsize q)) (percolate_down_c (S n) els 0 n) in
    let sz := qsize q - 1 in
    let^ v := cl (deref (fst r !! sz)) in
    cret (v, true, Queue (fst r) sz).

  (** one call; Peek and Len make no comparison *)
  Definition q_step_c (q : queue T) (o : PQ_Model.op) : cm (queue T) (PQ_Model.out * queue T) :=
    match o with
    | Push v => let^ r := q_push_c q v in cret (OBool (fst r), snd r)
    | Pop => let^ r := q_pop_c q in cret (OVal (fst (fst r)) (snd (fst r)), snd r)
    | Peek => let^ r := cl (q_peek zero q) in cret (OVal (fst r) (snd r), q)
    | Len => cret (OLen (q_len q), q)
    end.
  (** a history: every call comes with the number of comparisons answered during
      it; the caller recovers from a panic and goes on with the queue as it is.
      The result of an abandoned call is [None]. *)
  Fixpoint q_run_c (q : queue T) (os : list (PQ_Model.op * nat)) : res (list (option PQ_Model.out) * queue T) :=
    match os with
    | [] => Ok ([], q)
    | (o, n) :: os =>
        match q_step_c q o n with
        | Done r _ => let! r' := q_run_c (snd r) os in Ok (Some (fst r) :: fst r', snd r')
        | Crash q => let! r' := q_run_c q os in Ok (None :: fst r', snd r')
        | CPanic => Panic
        | CFuel => Fuel
        end
    end.
End pq.
