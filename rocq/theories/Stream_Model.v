(** Model of package stream (sequential part): stream/*.go.

    A Go iterator [iterator.Iter[T]] is a closure with hidden mutable state.
    Here it is a coinductive object: calling it yields a result, the object to
    be used for the next call, and the new world.  The world holds what closures
    share: the int64 counters captured by Skip, Take and Enumerate ([ctr], indexed by
    allocation order) and an arbitrary user state [usr] that the callbacks may read and
    write.  Simplifications: callbacks do not panic and terminate; [Activate]
    itself only builds closures (true of every generator in the repository);
    an iterator is used by one owner at a time (its state is threaded);
    the output of the stray fmt.Println in Chain is not modelled.
    [fuel] bounds the Go loops; running out is the separate outcome [Fuel]. *)
From Verif Require Import Base Split_Model.

Record world (U : Type) := World { ctr : gmap nat Z; usr : U }.
Arguments World {U} _ _.
Arguments ctr {U} _.
Arguments usr {U} _.

(** iterator.Iter[T] (iterator/iterator.go:13) *)
CoInductive iter (U T : Type) : Type :=
  MkIter (f : nat -> world U -> res (option T * iter U T * world U)).
Arguments MkIter {U T} f.
Definition pull {U T} (it : iter U T) : nat -> world U -> res (option T * iter U T * world U) :=
  match it with MkIter f => f end.

(** Iter[Iter[T]]: the segment generator; a [None] is Go's (nil, false) *)
CoInductive gen (U T : Type) : Type :=
  MkGen (f : nat -> world U -> res (option (iter U T) * gen U T * world U)).
Arguments MkGen {U T} f.
Definition nextseg {U T} (g : gen U T) : nat -> world U -> res (option (iter U T) * gen U T * world U) :=
  match g with MkGen f => f end.

(** stream/stream.go:12-15 *)
Record stream (U T : Type) := Stream { parallelism : Z; activate : Z -> gen U T }.
Arguments Stream {U T} _ _.
Arguments parallelism {U T} _.
Arguments activate {U T} _ _.

Section stream.
  Context {U : Type}.
  Notation W := (world U).

  (** running a callback on the user part of the world *)
  Definition on_usr {A} (f : U -> A * U) (w : W) : A * W :=
    let '(a, u) := f (usr w) in (a, World (ctr w) u).

  (** stream/stream.go:40-43 *)
  Definition Parallel {T} (s : stream U T) (p : Z) : stream U T := Stream p (activate s).

  (** ** Sources.  Slice.Iter (slice.go:27-37) over the rest [l] of the elements *)
  CoFixpoint slice_iter {T} (l : list T) : iter U T :=
    MkIter (fun _ w =>
      match l with
      | [] => Ok (None, slice_iter [], w)
      | x :: l' => Ok (Some x, slice_iter l', w)
      end).
  (** Slice.SplitableIter (slice.go:47-78) as a generator, see Split_Model.v *)
  CoFixpoint slice_gen {T} (s : list T) (p : Z) (idx : nat) : gen U T :=
    MkGen (fun _ w =>
      match split_next s p idx with
      | Ok (Some seg, idx') => Ok (Some (slice_iter seg), slice_gen s p idx', w)
      | Ok (None, idx') => Ok (None, slice_gen s p idx', w)
      | Panic => Panic
      | Fuel => Fuel
      end).
  (** Slice.Stream (slice.go:80-85): stream.New(s.SplitableIter(), parallelism) *)
  Definition slice_stream {T} (s : list T) (p : Z) : stream U T :=
    Stream p (fun q => slice_gen s q 0).

  (** wrapping every segment of a generator: the outer closure shared by Map,
      Filter, Inspect, Skip, SkipWhile, Take and Enumerate (e.g. map.go:14-25) *)
  CoFixpoint wrap_gen {T R} (k : iter U T -> iter U R) (g : gen U T) : gen U R :=
    MkGen (fun fuel w =>
      match nextseg g fuel w with
      | Ok (Some it, g', w') => Ok (Some (k it), wrap_gen k g', w')
      | Ok (None, g', w') => Ok (None, wrap_gen k g', w')
      | Panic => Panic
      | Fuel => Fuel
      end).
  Definition wrap {T R} (k : iter U T -> iter U R) (s : stream U T) : stream U R :=
    Stream (parallelism s) (fun p => wrap_gen k (activate s p)).

  (** ** Map, stream/map.go:5-28 (segment closure: lines 16-21) *)
  CoFixpoint map_iter {T R} (f : T -> U -> R * U) (it : iter U T) : iter U R :=
    MkIter (fun fuel w =>
      match pull it fuel w with
      | Ok (Some t, it', w') => let '(r, w'') := on_usr (f t) w' in Ok (Some r, map_iter f it', w'')
      | Ok (None, it', w') => Ok (None, map_iter f it', w')
      | Panic => Panic
      | Fuel => Fuel
      end).
  Definition Map {T R} (s : stream U T) (f : T -> U -> R * U) : stream U R := wrap (map_iter f) s.

  (** ** Inspect, stream/inspect.go:5-29 (lines 16-22) *)
  CoFixpoint inspect_iter {T} (f : T -> U -> U) (it : iter U T) : iter U T :=
    MkIter (fun fuel w =>
      match pull it fuel w with
      | Ok (Some t, it', w') => Ok (Some t, inspect_iter f it', World (ctr w') (f t (usr w')))
      | Ok (None, it', w') => Ok (None, inspect_iter f it', w')
      | Panic => Panic
      | Fuel => Fuel
      end).
  Definition Inspect {T} (s : stream U T) (f : T -> U -> U) : stream U T := wrap (inspect_iter f) s.

  (** The loop of Filter (filter.go:16-21), SkipWhile (skip.go:52-58) and Skip
      (skip.go:24-30): pull until an element passes [keep]. *)
  Fixpoint keep_loop {T} (keep : T -> W -> bool * W) (n : nat) (it : iter U T) (fuel : nat) (w : W)
      : res (option T * iter U T * W) :=
    match n with
    | 0 => Fuel
    | S n' =>
      match pull it fuel w with
      | Ok (Some t, it', w') =>
          let '(b, w'') := keep t w' in
          if b then Ok (Some t, it', w'') else keep_loop keep n' it' fuel w''
      | Ok (None, it', w') => Ok (None, it', w')
      | Panic => Panic
      | Fuel => Fuel
      end
    end.
  CoFixpoint keep_iter {T} (keep : T -> W -> bool * W) (it : iter U T) : iter U T :=
    MkIter (fun fuel w =>
      match keep_loop keep fuel it fuel w with
      | Ok (r, it', w') => Ok (r, keep_iter keep it', w')
      | Panic => Panic
      | Fuel => Fuel
      end).

  (** stream/filter.go:5-30: kept when filt(t) *)
  Definition Filter {T} (s : stream U T) (f : T -> U -> bool * U) : stream U T :=
    wrap (keep_iter (fun t => on_usr (f t))) s.
  (** stream/skip.go:40-66: dropped whenever while(val), not only at the front *)
  Definition SkipWhile {T} (s : stream U T) (f : T -> U -> bool * U) : stream U T :=
    wrap (keep_iter (fun t w => let '(b, w') := on_usr (f t) w in (negb b, w'))) s.

  (** atomic.AddInt64(&curr, 1) on counter [c] *)
  Definition add1 (c : nat) (w : W) : Z * W :=
    let v := (default 0 (ctr w !! c) + 1)%Z in (v, World (<[c := v]> (ctr w)) (usr w)).
  Definition load (c : nat) (w : W) : Z := default 0%Z (ctr w !! c).
  (** var curr int64 = 0, captured by the closures of one stream value *)
  Definition new_ctr (w : W) : nat * W :=
    let c := fresh (dom (ctr w)) in (c, World (<[c := 0%Z]> (ctr w)) (usr w)).

  (** ** Skip, stream/skip.go:10-38; [c] is the captured counter *)
  Definition skip_at {T} (c : nat) (s : stream U T) (n : Z) : stream U T :=
    wrap (keep_iter (fun _ w => let '(v, w') := add1 c w in (negb (bool_decide (v < n)%Z), w'))) s.
  Definition Skip {T} (s : stream U T) (n : Z) (w : W) : stream U T * W :=
    let '(c, w') := new_ctr w in (skip_at c s n, w').

  (** ** Take, stream/take.go:9-37 (segment closure: lines 21-30) *)
  CoFixpoint take_iter {T} (c : nat) (n : Z) (it : iter U T) : iter U T :=
    MkIter (fun fuel w =>
      if bool_decide (load c w < n)%Z then
        match pull it fuel w with
        | Ok (Some t, it', w') => let '(_, w'') := add1 c w' in Ok (Some t, take_iter c n it', w'')
        | Ok (None, it', w') => Ok (None, take_iter c n it', w')
        | Panic => Panic
        | Fuel => Fuel
        end
      else Ok (None, take_iter c n it, w)).
  Definition take_at {T} (c : nat) (s : stream U T) (n : Z) : stream U T := wrap (take_iter c n) s.
  Definition Take {T} (s : stream U T) (n : Z) (w : W) : stream U T * W :=
    let '(c, w') := new_ctr w in (take_at c s n, w').

  (** ** Enumerate, stream/enumerate.go:10-37 (lines 21-30) *)
  CoFixpoint enum_iter {T} (c : nat) (it : iter U T) : iter U (Z * T) :=
    MkIter (fun fuel w =>
      match pull it fuel w with
      | Ok (Some t, it', w') => let '(v, w'') := add1 c w' in Ok (Some (v, t), enum_iter c it', w'')
      | Ok (None, it', w') => Ok (None, enum_iter c it', w')
      | Panic => Panic
      | Fuel => Fuel
      end).
  Definition enum_at {T} (c : nat) (s : stream U T) : stream U (Z * T) := wrap (enum_iter c) s.
  Definition Enumerate {T} (s : stream U T) (w : W) : stream U (Z * T) * W :=
    let '(c, w') := new_ctr w in (enum_at c s, w').

  (** ** Zip, stream/zip.go:8-41; both sides are pulled on every call *)
  CoFixpoint zip_iter {T R} (a : iter U T) (b : iter U R) : iter U (T * R) :=
    MkIter (fun fuel w =>
      match pull a fuel w with
      | Ok (x, a', w1) =>
        match pull b fuel w1 with
        | Ok (y, b', w2) =>
          match x, y with
          | Some t, Some r => Ok (Some (t, r), zip_iter a' b', w2)
          | _, _ => Ok (None, zip_iter a' b', w2)
          end
        | Panic => Panic
        | Fuel => Fuel
        end
      | Panic => Panic
      | Fuel => Fuel
      end).
  CoFixpoint zip_gen {T R} (a : gen U T) (b : gen U R) : gen U (T * R) :=
    MkGen (fun fuel w =>
      match nextseg a fuel w with
      | Ok (x, a', w1) =>
        match nextseg b fuel w1 with
        | Ok (y, b', w2) =>
          match x, y with
          | Some t, Some r => Ok (Some (zip_iter t r), zip_gen a' b', w2)
          | _, _ => Ok (None, zip_gen a' b', w2)
          end
        | Panic => Panic
        | Fuel => Fuel
        end
      | Panic => Panic
      | Fuel => Fuel
      end).
  Definition Zip {T R} (s : stream U T) (r : stream U R) : stream U (T * R) :=
    Stream (parallelism s) (fun p => zip_gen (activate s p) (activate r p)).

  (** ** Chain, stream/chain.go:9-55.  Loop of the segment closure (lines 28-41):
      [cur] is the variable pull, [idx] the index of the source it came from. *)
  Fixpoint chain_loop {T} (pulls : list (iter U T)) (n idx : nat) (cur : iter U T) (fuel : nat) (w : W)
      : res (option T * nat * iter U T * W) :=
    match n with
    | 0 => Fuel
    | S n' =>
      match pull cur fuel w with
      | Ok (Some v, cur', w') => Ok (Some v, idx, cur', w')
      | Ok (None, cur', w') =>
          let idx := idx + 1 in
          if decide (idx = length pulls) then Ok (None, idx, cur', w')
          else match pulls !! idx with                    (* pulls[idx] *)
               | Some c => chain_loop pulls n' idx c fuel w'
               | None => Panic
               end
      | Panic => Panic
      | Fuel => Fuel
      end
    end.
  CoFixpoint chain_iter {T} (pulls : list (iter U T)) (idx : nat) (cur : iter U T) : iter U T :=
    MkIter (fun fuel w =>
      match chain_loop pulls fuel idx cur fuel w with
      | Ok (r, idx', cur', w') => Ok (r, chain_iter pulls idx' cur', w')
      | Panic => Panic
      | Fuel => Fuel
      end).
  (** lines 18-23: one segment from every generator that still has one *)
  Fixpoint chain_round {T} (gs : list (gen U T)) (fuel : nat) (w : W)
      : res (list (iter U T) * list (gen U T) * W) :=
    match gs with
    | [] => Ok ([], [], w)
    | g :: gs' =>
      match nextseg g fuel w with
      | Ok (o, g', w') =>
        match chain_round gs' fuel w' with
        | Ok (ps, gs'', w'') =>
            Ok (match o with Some it => it :: ps | None => ps end, g' :: gs'', w'')
        | Panic => Panic
        | Fuel => Fuel
        end
      | Panic => Panic
      | Fuel => Fuel
      end
    end.
  CoFixpoint chain_gen {T} (gs : list (gen U T)) : gen U T :=
    MkGen (fun fuel w =>
      match chain_round gs fuel w with
      | Ok (ps, gs', w') =>
        match ps with
        | [] => Ok (None, chain_gen gs', w')
        | p :: _ => Ok (Some (chain_iter ps 0 p), chain_gen gs', w')
        end
      | Panic => Panic
      | Fuel => Fuel
      end).
  (** the argument of Activate is ignored: every source is activated with its own
      parallelism (line 15), and the resulting stream has parallelism 0 (line 53) *)
  Definition Chain {T} (ss : list (stream U T)) : stream U T :=
    Stream 0 (fun _ => chain_gen ((fun s => activate s (parallelism s)) <$> ss)).

  (** ** FlatMap, stream/flat_map.go:5-61.  Loop of the segment closure (lines 33-53);
      [None] for the current sub-iterator is Go's nil. *)
  Fixpoint flat_loop {T V} (f : T -> U -> stream U V * U) (n : nat) (up : iter U T) (cur : iter U V)
      (fuel : nat) (w : W) : res (option V * iter U T * option (iter U V) * W) :=
    match n with
    | 0 => Fuel
    | S n' =>
      match pull cur fuel w with
      | Ok (Some v, cur', w') => Ok (Some v, up, Some cur', w')
      | Ok (None, cur', w') =>
        match pull up fuel w' with
        | Ok (Some t, up', w1) =>
          let '(s, w2) := on_usr (f t) w1 in
          match nextseg (activate s 0) fuel w2 with       (* flatMap(t).Activate(0)() *)
          | Ok (Some c, _, w3) => flat_loop f n' up' c fuel w3
          | Ok (None, _, w3) => Ok (None, up', None, w3)
          | Panic => Panic
          | Fuel => Fuel
          end
        | Ok (None, up', w1) => Ok (None, up', Some cur', w1)
        | Panic => Panic
        | Fuel => Fuel
        end
      | Panic => Panic
      | Fuel => Fuel
      end
    end.
  CoFixpoint flat_iter {T V} (f : T -> U -> stream U V * U) (up : iter U T) (cur : option (iter U V))
      : iter U V :=
    MkIter (fun fuel w =>
      match cur with
      | None => Ok (None, flat_iter f up None, w)          (* lines 30-32 *)
      | Some c =>
        match flat_loop f fuel up c fuel w with
        | Ok (r, up', cur', w') => Ok (r, flat_iter f up' cur', w')
        | Panic => Panic
        | Fuel => Fuel
        end
      end).
  (** lines 14-57: creating a segment pulls the first upstream element at once *)
  CoFixpoint flat_gen {T V} (f : T -> U -> stream U V * U) (g : gen U T) : gen U V :=
    MkGen (fun fuel w =>
      match nextseg g fuel w with
      | Ok (Some up, g', w1) =>
        match pull up fuel w1 with
        | Ok (Some t, up', w2) =>
          let '(s, w3) := on_usr (f t) w2 in
          match nextseg (activate s 0) fuel w3 with
          | Ok (Some c, _, w4) => Ok (Some (flat_iter f up' (Some c)), flat_gen f g', w4)
          | Ok (None, _, w4) => Ok (Some (flat_iter f up' None), flat_gen f g', w4)
          | Panic => Panic
          | Fuel => Fuel
          end
        | Ok (None, up', w2) => Ok (Some (flat_iter f up' None), flat_gen f g', w2)
        | Panic => Panic
        | Fuel => Fuel
        end
      | Ok (None, g', w1) => Ok (None, flat_gen f g', w1)
      | Panic => Panic
      | Fuel => Fuel
      end).
  Definition FlatMap {T V} (s : stream U T) (f : T -> U -> stream U V * U) : stream U V :=
    Stream (parallelism s) (fun p => flat_gen f (activate s p)).

  (** ** Terminal operations with parallelism 0.
      Inner loop of Collect (collect.go:16-18) and FoldWith (fold.go:21-23). *)
  Fixpoint fold_seg {T R} (f : R -> T -> U -> R * U) (n : nat) (it : iter U T) (acc : R) (fuel : nat) (w : W)
      : res (R * W) :=
    match n with
    | 0 => Fuel
    | S n' =>
      match pull it fuel w with
      | Ok (Some t, it', w') => let '(acc', w'') := on_usr (f acc t) w' in fold_seg f n' it' acc' fuel w''
      | Ok (None, _, w') => Ok (acc, w')
      | Panic => Panic
      | Fuel => Fuel
      end
    end.
  (** outer loop, collect.go:11-19, fold.go:16-24 *)
  Fixpoint fold_gen {T R} (f : R -> T -> U -> R * U) (n : nat) (g : gen U T) (acc : R) (fuel : nat) (w : W)
      : res (R * W) :=
    match n with
    | 0 => Fuel
    | S n' =>
      match nextseg g fuel w with
      | Ok (Some it, g', w') =>
        match fold_seg f fuel it acc fuel w' with
        | Ok (acc', w'') => fold_gen f n' g' acc' fuel w''
        | Panic => Panic
        | Fuel => Fuel
        end
      | Ok (None, _, w') => Ok (acc, w')
      | Panic => Panic
      | Fuel => Fuel
      end
    end.
  (** stream/fold.go:11-25, the branch parallelism == 0 *)
  Definition fold_with {T R} (s : stream U T) (init : R) (f : R -> T -> U -> R * U) (fuel : nat) (w : W)
      : res (R * W) := fold_gen f fuel (activate s 0) init fuel w.
  (** stream/collect.go:8-19, the branch parallelism == 0 *)
  Definition collect {T} (s : stream U T) (consume : T -> U -> U) (fuel : nat) (w : W) : res W :=
    match fold_gen (fun (_ : unit) t u => (tt, consume t u)) fuel (activate s 0) tt fuel w with
    | Ok (_, w') => Ok w'
    | Panic => Panic
    | Fuel => Fuel
    end.
  (** stream/first.go:3-14 *)
  Definition first {T} (s : stream U T) (fuel : nat) (w : W) : res (option T * W) :=
    match nextseg (activate s (parallelism s)) fuel w with
    | Ok (Some it, _, w') =>
      match pull it fuel w' with
      | Ok (o, _, w'') => Ok (o, w'')
      | Panic => Panic
      | Fuel => Fuel
      end
    | Ok (None, _, w') => Ok (None, w')
    | Panic => Panic
    | Fuel => Fuel
    end.
  (** stream/reduce.go:3-9 and MaxBy/MinBy (max_min.go:12-18, 29-36), parallelism 0;
      [zero] is the zero value of the result type *)
  Definition reduce {T} (zero : T) (s : stream U T) (f : T -> T -> U -> T * U) (fuel : nat) (w : W)
      : res (T * W) :=
    match first s fuel w with
    | Ok (Some x, w') => fold_with s x f fuel w'
    | Ok (None, w') => Ok (zero, w')
    | Panic => Panic
    | Fuel => Fuel
    end.
  (** max_min.go:3-10, 20-27; sum.go:7-12 (integers, unbounded here) *)
  Definition max_fn (a b : Z) (u : U) : Z * U := (if (a >? b)%Z then a else b, u).
  Definition min_fn (a b : Z) (u : U) : Z * U := (if (a <? b)%Z then a else b, u).
  Definition smax (s : stream U Z) := reduce 0%Z s max_fn.
  Definition smin (s : stream U Z) := reduce 0%Z s min_fn.
  Definition sum (s : stream U Z) := fold_with s 0%Z (fun a b u => ((a + b)%Z, u)).

  (** stream/tryfold.go:16-21 *)
  Fixpoint tryfold_seg {T R} (f : R -> T -> U -> (R * bool) * U) (n : nat) (it : iter U T) (acc : R)
      (fuel : nat) (w : W) : res (R * bool * W) :=
    match n with
    | 0 => Fuel
    | S n' =>
      match pull it fuel w with
      | Ok (Some t, it', w') =>
          let '((acc', ok), w'') := on_usr (f acc t) w' in
          if ok then tryfold_seg f n' it' acc' fuel w'' else Ok (acc', false, w'')
      | Ok (None, _, w') => Ok (acc, true, w')
      | Panic => Panic
      | Fuel => Fuel
      end
    end.
  (** stream/tryfold.go:9-22: only the first segment is used.  [zero] is the
      zero value returned when there is no segment *)
  Definition try_fold {T} (zero : T) (s : stream U T) (init : T) (f : T -> T -> U -> (T * bool) * U)
      (fuel : nat) (w : W) : res (T * bool * W) :=
    match nextseg (activate s 0) fuel w with
    | Ok (Some it, _, w') => tryfold_seg f fuel it init fuel w'
    | Ok (None, _, w') => Ok (zero, false, w')
    | Panic => Panic
    | Fuel => Fuel
    end.
  (** stream/all_any_match.go:3-15 *)
  Definition all_match {T} (zero : T) (s : stream U T) (cb : T -> U -> bool * U) (fuel : nat) (w : W)
      : res (bool * W) :=
    match first s fuel w with
    | Ok (Some x, w') =>
      match try_fold zero s x (fun a b u => let '(r, u') := cb b u in ((a, r), u')) fuel w' with
      | Ok (_, ok, w'') => Ok (ok, w'')
      | Panic => Panic
      | Fuel => Fuel
      end
    | Ok (None, w') => Ok (false, w')
    | Panic => Panic
    | Fuel => Fuel
    end.
  (** stream/all_any_match.go:17-29 *)
  Definition any_match {T} (zero : T) (s : stream U T) (cb : T -> U -> bool * U) (fuel : nat) (w : W)
      : res (bool * W) :=
    match first s fuel w with
    | Ok (Some x, w') =>
      match try_fold zero s x (fun a b u => let '(r, u') := cb b u in ((a, negb r), u')) fuel w' with
      | Ok (_, ok, w'') => Ok (negb ok, w'')
      | Panic => Panic
      | Fuel => Fuel
      end
    | Ok (None, w') => Ok (false, w')
    | Panic => Panic
    | Fuel => Fuel
    end.
End stream.
