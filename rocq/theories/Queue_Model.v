(** Model of collections/queue/queue.go.  The heap maps node addresses to nodes;
    [None] is nil.  Addresses of new nodes are fresh and never reused (garbage
    collection is not observable). *)
From stdpp Require Import functions.
From Verif Require Import Base Lin_Spec.

Notation loc := nat (only parsing).

Section queue.
  Context {T : Type}.
  (** queue.go:8-11 *)
  Record node := Node { nval : T; nnext : option loc }.
  (** queue.go:28-33; head is an embedded node of which only next is used *)
  Record queue := Queue {
    heap : gmap loc node; fresh_loc : loc;
    locked : bool; hnext : option loc; tail : option loc; count : Z }.

  (** queue.go:24-26 *)
  Definition new : queue := Queue ∅ 0 false None None 0.

  (** queue.go:17-22 *)
  Definition new_node (v : T) (q : queue) : loc * queue :=
    (fresh_loc q, Queue (<[fresh_loc q := Node v None]> (heap q)) (S (fresh_loc q)) (locked q) (hnext q) (tail q) (count q)).

  (** lock.Lock(): blocks for ever (Fuel) when the lock is held; for one goroutine *)
  Definition lock (q : queue) : res queue :=
    if locked q then Fuel else Ok (Queue (heap q) (fresh_loc q) true (hnext q) (tail q) (count q)).
  Definition unlock (q : queue) : queue := Queue (heap q) (fresh_loc q) false (hnext q) (tail q) (count q).
  Definition set_next (n : loc) (o : option loc) (h : gmap loc node) : gmap loc node :=
    alter (fun d => Node (nval d) o) n h.

  (** What a call that may panic did: its result, or a panic; and the queue it left.
      (defer unlock runs in both cases.) *)
  Definition called (A : Type) : Type := option A * queue.

  (** PushNode, queue.go:47-58 *)
  Definition push_node (n : loc) (q : queue) : res (called unit) :=
    let! q := lock q in
    match hnext q with
    | None => Ok (Some tt, unlock (Queue (heap q) (fresh_loc q) true (Some n) (Some n) (count q + 1)))
    | Some _ =>
        match tail q with
        | None => Ok (None, unlock q)                                    (* q.tail.next: nil dereference *)
        | Some t => Ok (Some tt, unlock (Queue (set_next t (Some n) (heap q)) (fresh_loc q) true (hnext q) (Some n) (count q + 1)))
        end
    end.
  (** PeekNode, queue.go:59-63 *)
  Definition peek_node (q : queue) : res (called (option loc)) :=
    let! q := lock q in Ok (Some (hnext q), unlock q).
  (** PopNode, queue.go:65-75 *)
  Definition pop_node (q : queue) : res (called loc) :=
    let! q := lock q in
    match hnext q with
    | None => Ok (None, unlock q)                                        (* n.next: nil dereference *)
    | Some n =>
        match heap q !! n with
        | None => Fuel                                                   (* not reachable: dangling address *)
        | Some d =>
            let t := match nnext d with None => None | Some _ => tail q end in
            Ok (Some n, unlock (Queue (heap q) (fresh_loc q) true (nnext d) t (count q - 1)))
        end
    end.
  (** Node.Value, queue.go:13-15 *)
  Definition value (o : option loc) (q : queue) : option T := o ≫= fun n => nval <$> heap q !! n.

  (** Push, Peek, Pop, Len, Empty: queue.go:35-45, 78-85 *)
  Definition push (v : T) (q : queue) : res (called unit) := let '(n, q) := new_node v q in push_node n q.
  Definition peek (q : queue) : res (called T) :=
    let! (r, q) := peek_node q in Ok (value (mjoin r) q, q).
  Definition pop (q : queue) : res (called T) :=
    let! (r, q) := pop_node q in Ok (value r q, q).
  Definition len (q : queue) : Z := count q.
  Definition empty (q : queue) : bool := bool_decide (count q = 0%Z).

  Inductive op := OPush (v : T) | OPop | OPeek | OLen | OEmpty.
  Inductive ret := RUnit | RVal (v : T) | RInt (z : Z) | RBool (b : bool) | RPanic.
  Definition as_ret {A} (f : A -> ret) (c : called A) : ret * queue := (match c.1 with Some a => f a | None => RPanic end, c.2).
  Definition run1 (o : op) (q : queue) : res (ret * queue) :=
    match o with
    | OPush v => let! c := push v q in Ok (as_ret (fun _ => RUnit) c)
    | OPop => let! c := pop q in Ok (as_ret RVal c)
    | OPeek => let! c := peek q in Ok (as_ret RVal c)
    | OLen => Ok (RInt (len q), q)
    | OEmpty => Ok (RBool (empty q), q)
    end.
  Fixpoint run (os : list op) (q : queue) : res (list ret * queue) :=
    match os with
    | [] => Ok ([], q)
    | o :: os => let! (r, q) := run1 o q in let! (rs, q) := run os q in Ok (r :: rs, q)
    end.

  (** * Many goroutines: every access to shared memory is a step.
      Memory is sequentially consistent; count++ / count-- are one step each
      (only the lock holder writes count). *)
  Inductive pc :=
  | Quiet                                        (* not in a call *)
  | PushNew (v : T)                              (* queue.go:36: NewNode(val) *)
  | PushLock (n : loc) | PushTest (n : loc)      (* 48; 50 *)
  | PushHead (n : loc) | PushNext (n : loc)      (* 51; 54 *)
  | PushTail (n : loc) | PushCount (n : loc)     (* 52 or 55; 57 *)
  | PushUnlock (n : loc)                         (* 49, deferred *)
  | PopLock | PopRead | PopHead (n : option loc) (* 66; 68; 69 *)
  | PopTest (n : loc) | PopTail (n : loc)        (* 70; 71 *)
  | PopCount (n : loc) | PopUnlock (n : loc)     (* 73; 67 *)
  | PopVal (n : loc)                             (* 44: .Value() *)
  | PeekLock | PeekRead | PeekUnlock (n : option loc) | PeekVal (n : option loc)   (* 60-62; 40 *)
  | PanicUnlock                                  (* deferred unlock while panicking *)
  | LenRead | EmptyRead                          (* 79; 84 *)
  | Ready (r : ret).                             (* about to return to the caller *)

  (** shared memory and the holder of the mutex *)
  Record sys := Sys { mem : gmap loc node; nxt : loc; holder : option nat;
                      qhead : option loc; tl : option loc; cnt : Z; pcs : nat -> pc }.
  Definition sys_init : sys := Sys ∅ 0 None None None 0 (fun _ => Quiet).

  Definition start (o : op) : pc :=
    match o with OPush v => PushNew v | OPop => PopLock | OPeek => PeekLock | OLen => LenRead | OEmpty => EmptyRead end.

  (** [qstep]: silent steps of goroutine [t] *)
  Inductive tstep (t : nat) : sys -> pc -> sys -> Prop :=
  | t_new m k h hd tl c p v : p t = PushNew v ->
      tstep t (Sys m k h hd tl c p) (PushLock k) (Sys (<[k := Node v None]> m) (S k) h hd tl c p)
  | t_push_lock m k hd tl c p n : p t = PushLock n ->
      tstep t (Sys m k None hd tl c p) (PushTest n) (Sys m k (Some t) hd tl c p)
  | t_push_test m k h hd tl c p n : p t = PushTest n ->
      tstep t (Sys m k h hd tl c p) (match hd with None => PushHead n | Some _ => PushNext n end) (Sys m k h hd tl c p)
  | t_push_head m k h hd tl c p n : p t = PushHead n ->
      tstep t (Sys m k h hd tl c p) (PushTail n) (Sys m k h (Some n) tl c p)
  | t_push_next m k h hd a c p n : p t = PushNext n ->
      tstep t (Sys m k h hd (Some a) c p) (PushTail n) (Sys (set_next a (Some n) m) k h hd (Some a) c p)
  | t_push_next_nil m k h hd c p n : p t = PushNext n ->
      tstep t (Sys m k h hd None c p) PanicUnlock (Sys m k h hd None c p)
  | t_push_tail m k h hd tl c p n : p t = PushTail n ->
      tstep t (Sys m k h hd tl c p) (PushCount n) (Sys m k h hd (Some n) c p)
  | t_push_count m k h hd tl c p n : p t = PushCount n ->
      tstep t (Sys m k h hd tl c p) (PushUnlock n) (Sys m k h hd tl (c + 1) p)
  | t_push_unlock m k h hd tl c p n : p t = PushUnlock n ->
      tstep t (Sys m k h hd tl c p) (Ready RUnit) (Sys m k None hd tl c p)
  | t_pop_lock m k hd tl c p : p t = PopLock ->
      tstep t (Sys m k None hd tl c p) PopRead (Sys m k (Some t) hd tl c p)
  | t_pop_read m k h hd tl c p : p t = PopRead ->
      tstep t (Sys m k h hd tl c p) (PopHead hd) (Sys m k h hd tl c p)
  | t_pop_head m k h hd tl c p n d : p t = PopHead (Some n) -> m !! n = Some d ->
      tstep t (Sys m k h hd tl c p) (PopTest n) (Sys m k h (nnext d) tl c p)
  | t_pop_head_nil m k h hd tl c p : p t = PopHead None ->
      tstep t (Sys m k h hd tl c p) PanicUnlock (Sys m k h hd tl c p)
  | t_pop_test m k h hd tl c p n : p t = PopTest n ->
      tstep t (Sys m k h hd tl c p) (match hd with None => PopTail n | Some _ => PopCount n end) (Sys m k h hd tl c p)
  | t_pop_tail m k h hd tl c p n : p t = PopTail n ->
      tstep t (Sys m k h hd tl c p) (PopCount n) (Sys m k h hd None c p)
  | t_pop_count m k h hd tl c p n : p t = PopCount n ->
      tstep t (Sys m k h hd tl c p) (PopUnlock n) (Sys m k h hd tl (c - 1) p)
  | t_pop_unlock m k h hd tl c p n : p t = PopUnlock n ->
      tstep t (Sys m k h hd tl c p) (PopVal n) (Sys m k None hd tl c p)
  | t_pop_val m k h hd tl c p n d : p t = PopVal n -> m !! n = Some d ->
      tstep t (Sys m k h hd tl c p) (Ready (RVal (nval d))) (Sys m k h hd tl c p)
  | t_peek_lock m k hd tl c p : p t = PeekLock ->
      tstep t (Sys m k None hd tl c p) PeekRead (Sys m k (Some t) hd tl c p)
  | t_peek_read m k h hd tl c p : p t = PeekRead ->
      tstep t (Sys m k h hd tl c p) (PeekUnlock hd) (Sys m k h hd tl c p)
  | t_peek_unlock m k h hd tl c p n : p t = PeekUnlock n ->
      tstep t (Sys m k h hd tl c p) (PeekVal n) (Sys m k None hd tl c p)
  | t_peek_val m k h hd tl c p n d : p t = PeekVal (Some n) -> m !! n = Some d ->
      tstep t (Sys m k h hd tl c p) (Ready (RVal (nval d))) (Sys m k h hd tl c p)
  | t_peek_val_nil m k h hd tl c p : p t = PeekVal None ->
      tstep t (Sys m k h hd tl c p) (Ready RPanic) (Sys m k h hd tl c p)
  | t_panic m k h hd tl c p : p t = PanicUnlock ->
      tstep t (Sys m k h hd tl c p) (Ready RPanic) (Sys m k None hd tl c p)
  | t_len m k h hd tl c p : p t = LenRead ->
      tstep t (Sys m k h hd tl c p) (Ready (RInt c)) (Sys m k h hd tl c p)
  | t_empty m k h hd tl c p : p t = EmptyRead ->
      tstep t (Sys m k h hd tl c p) (Ready (RBool (bool_decide (c = 0%Z)))) (Sys m k h hd tl c p).

  Definition set_pc (t : nat) (q : pc) (x : sys) : sys :=
    Sys (mem x) (nxt x) (holder x) (qhead x) (tl x) (cnt x) (<[t := q]> (pcs x)).

  (** the whole system: calls, silent steps, returns *)
  Inductive qstep : sys -> option (event op ret) -> sys -> Prop :=
  | q_call x t o : pcs x t = Quiet -> qstep x (Some (Call t o)) (set_pc t (start o) x)
  | q_silent x t p y : tstep t x p y -> qstep x None (set_pc t p y)
  | q_return x t r : pcs x t = Ready r -> qstep x (Some (Return t r)) (set_pc t Quiet x).
End queue.
Arguments node : clear implicits.
Arguments queue : clear implicits.
Arguments op : clear implicits.
Arguments ret : clear implicits.
Arguments pc : clear implicits.
Arguments sys : clear implicits.
