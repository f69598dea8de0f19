(** Property theorems for parallel streams (C25-C27). *)
From Verif Require Import Base Split_Model StreamPar_Model StreamPar_Spec StreamPar_Proofs StreamPar_Proofs2 StreamPar_Proofs3.

(** * C25: FoldWith on a slice of length n with parallelism p *)

(** p <= n: a returned value combines init with the folds of exactly p of the
    non-empty segments the slice is cut into; none is left out iff p divides n. *)
Theorem C25_returned_value :
  forall (T R : Type) (s : list T) (p : Z) (init : R) (f : R -> T -> R) (comb : R -> R -> R),
  (1 <= p)%Z -> (p <= Z.of_nat (length s))%Z ->
  forall x v, rtc (fstep s p init f comb) finit x -> fm x = FReturned v ->
  exists segs used lost, concat segs = s /\ used ++ lost ≡ₚ segs /\ Forall (fun seg => seg <> []) segs /\
    Z.of_nat (length used) = p /\
    v = fold_left comb ((fun seg => fold_left f seg init) <$> used) init /\
    (lost = [] <-> (p | Z.of_nat (length s))%Z).
Proof. exact @fold_result. Qed.
Print Assumptions C25_returned_value.

(** p divides n: no schedule panics or gets stuck, all are finite, and all can be completed *)
Theorem C25_no_deadlock :
  forall (T R : Type) (s : list T) (p : Z) (init : R) (f : R -> T -> R) (comb : R -> R -> R),
  (1 <= p)%Z -> (p <= Z.of_nat (length s))%Z -> (p | Z.of_nat (length s))%Z ->
  (forall x, rtc (fstep s p init f comb) finit x -> fcrashed x = false /\
     ((exists y, fstep s p init f comb x y) \/ (exists v, fm x = FReturned v))) /\
  (exists b, forall m x, nsteps (fstep s p init f comb) m finit x -> m <= b) /\
  (forall x, rtc (fstep s p init f comb) finit x ->
     exists y v, rtc (fstep s p init f comb) x y /\ fm y = FReturned v).
Proof. exact @fold_ok. Qed.
Print Assumptions C25_no_deadlock.

(** ... and with a commutative, associative combiner with unit init the result is the sequential fold *)
Theorem C25_equals_sequential_fold :
  forall (T R : Type) (s : list T) (p : Z) (init : R) (f : R -> T -> R) (comb : R -> R -> R),
  (1 <= p)%Z -> (p <= Z.of_nat (length s))%Z ->
  (forall a b c, comb a (comb b c) = comb (comb a b) c) -> (forall a b, comb a b = comb b a) ->
  (forall a, comb init a = a) -> (forall a b x, f (comb a b) x = comb a (f b x)) ->
  forall x v, (p | Z.of_nat (length s))%Z ->
  rtc (fstep s p init f comb) finit x -> fm x = FReturned v -> v = fold_left f s init.
Proof. exact @fold_seq. Qed.
Print Assumptions C25_equals_sequential_fold.

(** p < n, p does not divide n: some schedule returns and then a worker sends on the closed channel *)
Theorem C25_panic_when_not_divisible :
  forall (T R : Type) (s : list T) (p : Z) (init : R) (f : R -> T -> R) (comb : R -> R -> R),
  (1 <= p)%Z -> (p <= Z.of_nat (length s))%Z -> ~ (p | Z.of_nat (length s))%Z ->
  exists x v, rtc (fstep s p init f comb) finit x /\ fm x = FReturned v /\ fcrashed x = true.
Proof. exact @fold_can_crash. Qed.
Print Assumptions C25_panic_when_not_divisible.

(** n = 0: never returns, and is stuck after at most one step *)
Theorem C25_empty_deadlocks :
  forall (T R : Type) (init : R) (f : R -> T -> R) (comb : R -> R -> R) (p : Z), (1 <= p)%Z ->
  (forall x, rtc (fstep [] p init f comb) finit x -> forall v, fm x <> FReturned v) /\
  rtc (fstep [] p init f comb) finit (FState (FRecv 0 init) [] [] false false) /\
  (forall y, ~ fstep [] p init f comb (FState (FRecv 0 init) [] [] false false) y).
Proof. exact @fold_empty. Qed.
Print Assumptions C25_empty_deadlocks.

(** 0 < n < p: spawns goroutines for ever *)
Theorem C25_short_never_returns :
  forall (T R : Type) (init : R) (f : R -> T -> R) (comb : R -> R -> R) (s : list T) (p : Z) x,
  (0 < Z.of_nat (length s) < p)%Z -> rtc (fstep s p init f comb) finit x ->
  fm x = FSpawn 0 /\ (fcrashed x = false /\ fclosed x = false) /\ exists y, fstep s p init f comb x y.
Proof. exact @fold_short. Qed.
Print Assumptions C25_short_never_returns.

(** * C26: the shared counters; [c0] is the counter's value at the start (0 on a fresh stream) *)
Theorem C26_enumerate_keys :
  forall (T : Type) (segs : list (list T)) (c0 : Z) x,
  rtc (cstep Enum) (cinit segs c0) x -> cm x = CReturned ->
  (forall j seg, segs !! j = Some seg -> delivered j (clog x) = seg) /\
  Forall (fun e => e.1.1 < length segs) (clog x) /\
  keys (clog x) ≡ₚ seqZ (c0 + 1) (Z.of_nat (length (concat segs))).
Proof. exact @enum_returned. Qed.
Print Assumptions C26_enumerate_keys.

Theorem C26_skip_drops_exactly :
  forall (T : Type) (segs : list (list T)) (c0 n : Z) x,
  rtc (cstep (SkipN n)) (cinit segs c0) x -> cm x = CReturned ->
  (forall j seg, segs !! j = Some seg ->
     delivered j (clog x) ++ dropped j (cdrop x) ≡ₚ seg /\ sublist (delivered j (clog x)) seg) /\
  Forall (fun e => e.1.1 < length segs) (clog x) /\
  Forall (fun e => e.1 < length segs) (cdrop x) /\
  Z.of_nat (length (cdrop x)) = Z.min (Z.of_nat (length (concat segs))) (Z.max (n - 1 - c0) 0) /\
  length (clog x) + length (cdrop x) = length (concat segs).
Proof. exact @skip_returned. Qed.
Print Assumptions C26_skip_drops_exactly.

Theorem C26_take_bounds :
  forall (T : Type) (segs : list (list T)) (c0 n : Z) x,
  rtc (cstep (TakeN n)) (cinit segs c0) x -> cm x = CReturned ->
  (forall j seg, segs !! j = Some seg -> delivered j (clog x) `prefix_of` seg) /\
  Forall (fun e => e.1.1 < length segs) (clog x) /\
  (Z.min (Z.max (n - c0) 0) (Z.of_nat (length (concat segs))) <= Z.of_nat (length (clog x)))%Z /\
  ((n <= c0)%Z -> clog x = []) /\
  ((c0 < n)%Z -> Z.of_nat (length (clog x)) <=
     Z.min (Z.of_nat (length (concat segs))) (n - c0 + Z.of_nat (length segs) - 1))%Z.
Proof. exact @take_returned. Qed.
Print Assumptions C26_take_bounds.

(** both bounds are reached; the lower one for all segment lists, the upper one
    whenever no segment is empty *)
Theorem C26_take_lower_bound_reached :
  forall (T : Type) (n : Z) (segs : list (list T)) (c0 : Z),
  exists x, rtc (cstep (TakeN n)) (cinit segs c0) x /\ cm x = CReturned /\
    Z.of_nat (length (clog x)) = Z.min (Z.max (n - c0) 0) (Z.of_nat (length (concat segs))).
Proof. exact @take_low. Qed.
Print Assumptions C26_take_lower_bound_reached.

Theorem C26_take_exceeds_limit :
  forall (T : Type) (n : Z) (segs : list (list T)) (c0 : Z),
  Forall (fun seg => seg <> []) segs -> (c0 < n)%Z ->
  exists x, rtc (cstep (TakeN n)) (cinit segs c0) x /\ cm x = CReturned /\
    Z.of_nat (length (clog x)) = Z.min (Z.of_nat (length (concat segs))) (n - c0 + Z.of_nat (length segs) - 1).
Proof. exact @take_high. Qed.
Print Assumptions C26_take_exceeds_limit.

(** * C27: exactly once, in order within a segment *)
Theorem C27_collect_exactly_once :
  forall (T : Type) (segs : list (list T)) (c0 : Z) x,
  rtc (cstep Plain) (cinit segs c0) x -> cm x = CReturned ->
  (forall j seg, segs !! j = Some seg -> delivered j (clog x) = seg) /\
  Forall (fun e => e.1.1 < length segs) (clog x) /\ length (clog x) = length (concat segs).
Proof. exact @plain_returned. Qed.
Print Assumptions C27_collect_exactly_once.

(** with any counting stage: never stuck before it returns, and schedules are bounded *)
Theorem C27_collect_terminates :
  forall (T : Type) (st : stage) (segs : list (list T)) (c0 : Z),
  (forall x, rtc (cstep st) (cinit segs c0) x -> (exists y, cstep st x y) \/ cm x = CReturned) /\
  (exists b, forall m x, nsteps (cstep st) m (cinit segs c0) x -> m <= b).
Proof.
  intros T st segs c0. split; [exact (collect_progress st segs c0)|].
  eexists. intros m x. exact (collect_bounded st segs c0 m x).
Qed.
Print Assumptions C27_collect_terminates.

(** * Non-vacuity *)
(** parallelism 2 on 4 numbers: a complete schedule exists and returns their sum *)
Example C25_sum_of_four :
  exists x, rtc (fstep [1;2;3;4]%Z 2 0%Z Z.add Z.add) finit x /\ fm x = FReturned 10%Z.
Proof.
  destruct (C25_no_deadlock Z Z [1;2;3;4]%Z 2 0%Z Z.add Z.add ltac:(lia) ltac:(simpl; lia)) as (_ & _ & H).
  { exists 2%Z. done. }
  destruct (H finit) as (y & v & Hr & Hm); [constructor|]. exists y. split; [done|]. rewrite Hm. f_equal.
  change 10%Z with (fold_left Z.add [1;2;3;4]%Z 0%Z).
  eapply C25_equals_sequential_fold; [..|exact Hr|exact Hm]; try (intros; simpl; lia). by exists 2%Z.
Qed.
(** 3 elements, parallelism 2 can panic *)
Example C25_three_by_two :
  exists x v, rtc (fstep [1;2;3]%Z 2 0%Z Z.add Z.add) finit x /\ fm x = FReturned v /\ fcrashed x = true.
Proof. apply C25_panic_when_not_divisible; [lia|simpl; lia|]. intros [q Hq]. simpl in Hq. lia. Qed.
(** Take(2) over two segments of two can deliver three elements *)
Example C26_take_two_delivers_three :
  exists x, rtc (cstep (TakeN 2)) (cinit [[1;2];[3;4]] 0) x /\ cm x = CReturned /\ length (clog x) = 3.
Proof.
  destruct (C26_take_exceeds_limit nat 2 [[1;2];[3;4]] 0) as (x & Hr & Hm & Hl); [by repeat constructor|lia|].
  exists x. splits; [done|done|]. simpl in Hl. lia.
Qed.
(** completed schedules exist for every stage *)
Example C27_some_schedule_returns :
  forall (st : stage), exists x, rtc (cstep st) (cinit [[1;2];[3;4]] 0) x /\ cm x = CReturned.
Proof.
  intros st. destruct (C27_collect_terminates nat st [[1;2];[3;4]] 0) as [Hp [b Hb]].
  assert (G : forall n m y, m + n >= b -> nsteps (cstep st) m (cinit [[1;2];[3;4]] 0) y ->
     exists x, rtc (cstep st) y x /\ cm x = CReturned).
  { induction n as [|n IH]; intros m y Hm Hy.
    - destruct (Hp y) as [[z Hz]|]; [by eapply rtc_nsteps_2| |by exists y; split; [constructor|]].
      specialize (Hb (m + 1) z). exfalso. enough (m + 1 <= b) by lia. apply Hb.
      eapply nsteps_trans; [done|]. by apply nsteps_once.
    - destruct (Hp y) as [[z Hz]|]; [by eapply rtc_nsteps_2| |by exists y; split; [constructor|]].
      destruct (IH (m + 1) z ltac:(lia)) as (x & ? & ?).
      { eapply nsteps_trans; [done|]. by apply nsteps_once. }
      exists x. split; [by eapply rtc_l|done]. }
  apply (G b 0); [lia|constructor].
Qed.
