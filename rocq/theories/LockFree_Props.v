(** Property theorems for the lock-free skip list (C50-C53, C62, C63). *)
From Verif Require Import Base Lin_Spec LockFree_Model LockFree_Spec LockFree_Proofs LockFree_Proofs4 LockFree_Proofs6 LockFree_Proofs7 LockFree_Proofs9 LockFree_Proofs5 LockFree_Proofs10 LockFree_Proofs11 LockFree_Proofs12 LockFree_Proofs15.

(** C50: every interleaving of the atomic steps of any number of goroutines,
    with any tower heights, is a linearizable history of a set *)
Theorem C50_lockfree_linearizable :
  forall (T : Type) (zero : T) (comp : T -> T -> Z), cmp_ok comp ->
  forall n h x, exec (step comp) (sys_init zero n) h x -> linearizable (set_legal zero comp) [] h.
Proof. intros T zero comp H n h x E. destruct (reach zero comp H n h x E) as (ms & s & ph & past & L & _). by exists ms, s. Qed.
Print Assumptions C50_lockfree_linearizable.

(** sequentially: a call on a quiet list returns what the set operation
    returns and leaves what it leaves *)
Theorem C50_quiet_call :
  forall (T : Type) (zero : T) (comp : T -> T -> Z), cmp_ok comp ->
  forall n h x s t o r y,
  exec (step comp) (sys_init zero n) h x -> quiet x -> stored x s ->
  exec (step comp) x [Call t o; Return t r] y ->
  quiet y /\ exists s', set_legal zero comp s o r s' /\ stored y s'.
Proof. exact @quiet_call. Qed.
Print Assumptions C50_quiet_call.

(** C51: following the bottom links from the head reaches the tail through
    strictly increasing values; the unmarked nodes met are, in order, exactly
    the elements that the calls that have taken effect leave in the set *)
Theorem C51_bottom_level :
  forall (T : Type) (zero : T) (comp : T -> T -> Z), cmp_ok comp ->
  forall n h x, exec (step comp) (sys_init zero n) h x ->
  exists ids ms s,
    path (heap (shared x)) 0 head ids /\
    StronglySorted (fun a b => (comp a b < 0)%Z) (values (heap (shared x)) ids) /\
    linearizes (set_legal zero comp) [] h ms s /\
    s = omap (unmarked_value (heap (shared x))) ids.
Proof.
  intros T zero comp H n h x E. destruct (reach zero comp H n h x E) as (ms & s & ph & past & L & Rx).
  destruct (R_stored zero comp H _ _ _ _ Rx) as (ids & P & Es & S). by exists ids, ms, s.
Qed.
Print Assumptions C51_bottom_level.

(** every link of every node that can be reached from the head leads to a node
    that is tall enough, that has been linked at the bottom level, and whose
    value is greater, or equal and then a removed node that is older *)
Theorem C51_links :
  forall (T : Type) (zero : T) (comp : T -> T -> Z), cmp_ok comp ->
  forall n h x, exec (step comp) (sys_init zero n) h x ->
  forall i nd l nx m, reaches (heap (shared x)) head i -> i <> tail ->
  heap (shared x) !! i = Some nd -> nexts nd !! l = Some (nx, m) ->
  exists j nd', nx = Some j /\ heap (shared x) !! j = Some nd' /\ l < length (nexts nd') /\ j <> head /\
    (forall t v prevs succs, pcs x !! t <> Some (AddCas v j prevs succs)) /\
    (i = head \/ j = tail \/ (comp (value nd) (value nd') < 0)%Z \/
     (0 < l /\ comp (value nd) (value nd') = 0%Z /\ j < i /\ exists k, nexts nd' !! 0 = Some (k, true))).
Proof. exact @reach_links. Qed.
Print Assumptions C51_links.

(** the links of every level lead from the head to the tail *)
Theorem C51_levels :
  forall (T : Type) (zero : T) (comp : T -> T -> Z), cmp_ok comp ->
  forall n h x l, exec (step comp) (sys_init zero n) h x -> l < max_level ->
  exists ids, path (heap (shared x)) l head ids.
Proof. exact @reach_levels. Qed.
Print Assumptions C51_levels.

Theorem C51_no_panic :
  forall (T : Type) (zero : T) (comp : T -> T -> Z), cmp_ok comp ->
  forall n h x, exec (step comp) (sys_init zero n) h x -> ~ panics comp x.
Proof. exact @reach_no_panic. Qed.
Print Assumptions C51_no_panic.

(** C52: on a quiet list Len is the number of elements *)
Theorem C52_len_quiet :
  forall (T : Type) (zero : T) (comp : T -> T -> Z), cmp_ok comp ->
  forall n h x s t r y,
  exec (step comp) (sys_init zero n) h x -> quiet x -> stored x s -> (Z.of_nat (length s) < 2 ^ 31)%Z ->
  exec (step comp) x [Call t Len; Return t r] y -> r = RInt (Z.of_nat (length s)).
Proof. exact @quiet_len. Qed.
Print Assumptions C52_len_quiet.

(** a call of Len answers, for some instant between its call and its return,
    the number of elements up to an error that is smaller than the number of
    calls in progress (Len itself being one), modulo 2^32 *)
Theorem C52_len_error :
  forall (T : Type) (zero : T) (comp : T -> T -> Z), cmp_ok comp ->
  forall n t h1 h2 z y,
  exec (step comp) (sys_init zero n) (h1 ++ Call t Len :: h2 ++ [Return t (RInt z)]) y ->
  (forall e, e ∈ h2 -> thread_of (Ev e) <> t) ->
  exists h2a h2b x s d, h2 = h2a ++ h2b /\
    exec (step comp) (sys_init zero n) (h1 ++ Call t Len :: h2a) x /\ stored x s /\
    z = to_int32 (Z.of_nat (length s) + d) /\
    (Z.abs d < Z.of_nat (length (filter (fun p => in_call p) (pcs x))))%Z.
Proof. exact @len_call. Qed.
Print Assumptions C52_len_error.

(** C53: Get on a quiet list is the least element that is at least v, or zero *)
Theorem C53_get_quiet :
  forall (T : Type) (zero : T) (comp : T -> T -> Z), cmp_ok comp ->
  forall n h x s t v r y,
  exec (step comp) (sys_init zero n) h x -> quiet x -> stored x s ->
  exec (step comp) x [Call t (Get v); Return t r] y ->
  (exists w, r = RVal w /\ w ∈ s /\ (0 <= comp w v)%Z /\ forall u, u ∈ s -> (0 <= comp u v)%Z -> (comp w u <= 0)%Z) \/
  (r = RVal zero /\ forall u, u ∈ s -> (comp u v < 0)%Z).
Proof.
  intros T zero comp H n h x s t v r y E Q S E2. destruct (quiet_call zero comp H _ _ _ _ _ _ _ _ E Q S E2) as (_ & s' & L & _).
  inversion L; subst; [left|right]; eauto.
Qed.
Print Assumptions C53_get_quiet.

(** Rank on a quiet list *)
Theorem C53_rank_quiet :
  forall (T : Type) (zero : T) (comp : T -> T -> Z), cmp_ok comp ->
  forall n h x s t v r y,
  exec (step comp) (sys_init zero n) h x -> quiet x -> stored x s -> (Z.of_nat (length s) < 2 ^ 31)%Z ->
  exec (step comp) x [Call t (Rank v); Return t r] y ->
  exists z, r = RInt z /\
    (length s <= 1 -> z = Z.of_nat (length s)) /\
    (1 < length s -> (1 <= z <= 1 + Z.of_nat (length (filter (fun w => (comp w v < 0)%Z) s)))%Z).
Proof. exact @quiet_rank'. Qed.
Print Assumptions C53_rank_quiet.

(** When the calls so far did not overlap, Rank is known exactly: with at most
    one element it is the number of elements; otherwise it is one more than the
    number of elements below v whose tower is not exceeded by that of a later
    element below v *)
Theorem C53_rank_exact :
  forall (T : Type) (zero : T) (comp : T -> T -> Z), cmp_ok comp ->
  forall n h x tw t v r y,
  exec (step comp) (sys_init zero n) h x -> one_at_a_time h -> towers x tw -> (Z.of_nat (length tw) < 2 ^ 31)%Z ->
  exec (step comp) x [Call t (Rank v); Return t r] y ->
  let below := filter (fun w => (comp w.1 v < 0)%Z) tw in
  r = RInt (if decide (length tw <= 1) then Z.of_nat (length tw) else (1 + Z.of_nat (peaks below.*2))%Z).
Proof. exact @rank_exact. Qed.
Print Assumptions C53_rank_exact.

(** so Rank is the position of v exactly when the towers below v never grow *)
Theorem C53_rank_is_position :
  forall (T : Type) (zero : T) (comp : T -> T -> Z), cmp_ok comp ->
  forall n h x tw t v r y,
  exec (step comp) (sys_init zero n) h x -> one_at_a_time h -> towers x tw -> (Z.of_nat (length tw) < 2 ^ 31)%Z ->
  1 < length tw ->
  exec (step comp) x [Call t (Rank v); Return t r] y ->
  let below := filter (fun w => (comp w.1 v < 0)%Z) tw in
  r = RInt (1 + Z.of_nat (length below))%Z <-> StronglySorted (fun a b => b <= a) below.*2.
Proof. exact @rank_position. Qed.
Print Assumptions C53_rank_is_position.

(** C51: when calls do not overlap, the links of level l lead, in order,
    through exactly those elements whose tower is higher than l (and through
    removed nodes) *)
Theorem C51_levels_complete :
  forall (T : Type) (zero : T) (comp : T -> T -> Z), cmp_ok comp ->
  forall n h x tw l ids,
  exec (step comp) (sys_init zero n) h x -> one_at_a_time h -> towers x tw -> l < max_level ->
  path (heap (shared x)) l head ids ->
  omap (tower (heap (shared x))) ids = filter (fun w => l < w.2) tw.
Proof. exact @level_exact. Qed.
Print Assumptions C51_levels_complete.

(** C62: in any reachable state a goroutine that runs alone finishes its call
    within a bounded number of steps, whatever the tower heights *)
Theorem C62_running_alone_finishes :
  forall (T : Type) (zero : T) (comp : T -> T -> Z), cmp_ok comp ->
  forall n h x t p, exec (step comp) (sys_init zero n) h x -> pcs x !! t = Some p ->
  exists N, (forall k y, alone comp t k x y -> k <= N) /\
    (forall k y, alone comp t k x y -> exists q, pcs y !! t = Some q /\ (running q = true -> exists z, alone comp t (S k) x z)).
Proof. exact @alone_finishes. Qed.
Print Assumptions C62_running_alone_finishes.

(** so a call made on a list on which nobody else moves returns *)
Theorem C62_call_returns :
  forall (T : Type) (zero : T) (comp : T -> T -> Z), cmp_ok comp ->
  forall n h x t o, exec (step comp) (sys_init zero n) h x -> pcs x !! t = Some Quiet ->
  exists r y, exec (step comp) x [Call t o; Return t r] y.
Proof. intros. by eapply call_completes. Qed.
Print Assumptions C62_call_returns.

(** C63: lock-freedom.  In any infinite run, whoever is scheduled and whatever
    is called, calls return again and again *)
Theorem C63_lock_free :
  forall (T : Type) (zero : T) (comp : T -> T -> Z), cmp_ok comp ->
  forall n (run : nat -> sys T) (ev : nat -> option (event (op T) (ret T))),
  run 0 = sys_init zero n -> (forall i, step comp (run i) (ev i) (run (S i))) ->
  forall i, exists j, i <= j /\ exists t r, ev j = Some (Return t r).
Proof. exact @lock_free. Qed.
Print Assumptions C63_lock_free.

(** from any reachable state the number of steps of all goroutines together
    before one of them returns is bounded *)
Theorem C63_bounded_without_return :
  forall (T : Type) (zero : T) (comp : T -> T -> Z), cmp_ok comp ->
  forall n h x, exec (step comp) (sys_init zero n) h x ->
  exists N, forall k y, nsteps (fun a b => step comp a None b) k x y -> k <= N.
Proof. exact @silent_bound. Qed.
Print Assumptions C63_bounded_without_return.

(** and a goroutine in the middle of a call can always take its next step *)
Theorem C63_never_blocked :
  forall (T : Type) (zero : T) (comp : T -> T -> Z), cmp_ok comp ->
  forall n h x t p, exec (step comp) (sys_init zero n) h x -> pcs x !! t = Some p -> p <> Quiet ->
  exists y, alone comp t 1 x y \/ exists r, step comp x (Some (Return t r)) y.
Proof. exact @never_stuck. Qed.
Print Assumptions C63_never_blocked.

(** The list is lock-free but not wait-free: for every value v there is an
    infinite run of two goroutines in which the first calls Has(v), takes
    infinitely many steps (its position changes infinitely often) and never
    returns. *)
Theorem C63_wait_free_refuted :
  forall (T : Type) (zero : T) (comp : T -> T -> Z), cmp_ok comp -> forall v : T,
  exists (run : nat -> sys T) (ev : nat -> option (event (op T) (ret T))),
    run 0 = sys_init zero 2 /\ (forall i, step comp (run i) (ev i) (run (S i))) /\
    ev 0 = Some (Call 0 (Has v)) /\ (forall i r, ev i <> Some (Return 0 r)) /\
    (forall i, exists j, i <= j /\ pcs (run j) !! 0 <> pcs (run (S j)) !! 0).
Proof. intros T zero comp C v. apply starves. by apply cmp_refl. Qed.
Print Assumptions C63_wait_free_refuted.

(** * Non-vacuity *)
(** infinite runs exist: two goroutines that take turns and call for ever *)
Local Definition turn (o : nat -> op Z) (i : nat) (x : sys Z) : option (event (op Z) (ret Z)) * sys Z :=
  let t := i mod 2 in
  match pcs x !! t with
  | Some Quiet => (Some (Call t (o i)), Sys (shared x) (<[t := start (o i)]> (pcs x)))
  | Some (Ready r) => (Some (Return t r), Sys (shared x) (<[t := Quiet]> (pcs x)))
  | Some p => match tstep Zcomp (shared x) p 2 with Ok (m, p') => (None, Sys m (<[t := p']> (pcs x))) | _ => (None, x) end
  | None => (None, x)
  end.
Local Fixpoint turns (o : nat -> op Z) (i : nat) : sys Z := match i with O => sys_init 0%Z 2 | S i => (turn o i (turns o i)).2 end.
Example C63_infinite_runs_exist : forall o : nat -> op Z, exists run ev,
  run 0 = sys_init 0%Z 2 /\ (forall i, step Zcomp (run i) (ev i) (run (S i))) /\
  forall i u, ev i = Some u -> forall o', u = Call (i mod 2) o' -> o' = o i.
Proof.
  intros o. exists (turns o), (fun i => (turn o i (turns o i)).1).
  assert (G : forall i x h, exec (step Zcomp) (sys_init 0%Z 2) h x -> length (pcs x) = 2 -> step Zcomp x (turn o i x).1 (turn o i x).2 /\ length (pcs (turn o i x).2) = 2).
  { intros i x h E L. assert (Lt : i mod 2 < 2) by (apply Nat.mod_upper_bound; lia). unfold turn. destruct (lookup_lt_is_Some_2 (pcs x) (i mod 2) ltac:(rewrite L; exact Lt)) as [p Ep]. rewrite Ep. destruct x as [m ps]. cbn [pcs shared] in *.
    destruct (running p) eqn:Hr.
    - assert (Ht : random_level 2) by (unfold random_level, max_level; lia).
      destruct (reach 0%Z Zcomp Zcomp_ok _ _ _ E) as (ms & s & ph & past & _ & (pub & ch & Rr)).
      destruct (tstep_ok 0%Z Zcomp Zcomp_ok _ _ _ _ _ _ _ _ p 2 Rr Ep Hr Ht) as (m1 & p1 & s' & ph' & past' & E' & _). cbn [shared] in E'. rewrite E'.
      destruct p; try done; cbn [fst snd pcs]; rewrite insert_length; (split; [by eapply s_silent|done]).
    - destruct p; try done; cbn [fst snd pcs]; rewrite insert_length; (split; [|done]); [by apply s_call|by apply s_return]. }
  assert (E : forall i, (exists h, exec (step Zcomp) (sys_init 0%Z 2) h (turns o i)) /\ length (pcs (turns o i)) = 2).
  { induction i as [|i [[h E] L]]; [split; [by exists []; constructor|done]|]. destruct (G i _ _ E L) as [St L']. split; [|done]. cbn [turns].
    destruct ((turn o i (turns o i)).1) as [e|] eqn:Ee; [exists (h ++ [e])|exists h]; [by eapply exec_event|by eapply exec_silent]. }
  splits; [done| |].
  - intros i. destruct (E i) as [[h Ei] L]. by destruct (G i _ _ Ei L).
  - intros i u Eu o' ->. unfold turn in Eu. destruct (pcs (turns o i) !! (i mod 2)) as [p|]; [|done].
    destruct p; try (cbn in Eu; congruence); match type of Eu with context [tstep ?a ?b ?c ?d] => by destruct (tstep a b c d) as [[]| |] end.
Qed.
(** an executable schedule *)
Inductive act :=
| ACall (t : nat) (o : op Z)
| ASteps (t top : nat) (stop : pc Z -> bool) (k : nat)   (* at most k steps, until [stop] *)
| ARet (t : nat).
Local Fixpoint steps (x : sys Z) (t top : nat) (stop : pc Z -> bool) (k : nat) : option (sys Z) :=
  match k with
  | O => Some x
  | S k => match pcs x !! t with
           | Some p => if stop p || negb (running p) then Some x
                       else match tstep Zcomp (shared x) p top with
                            | Ok (m, p') => steps (Sys m (<[t := p']> (pcs x))) t top stop k
                            | _ => None
                            end
           | None => None
           end
  end.
Local Fixpoint play (l : list act) (x : sys Z) : option (list (event (op Z) (ret Z)) * sys Z) :=
  match l with
  | [] => Some ([], x)
  | ACall t o :: l => match pcs x !! t with
      | Some Quiet => match play l (Sys (shared x) (<[t := start o]> (pcs x))) with Some (h, y) => Some (Call t o :: h, y) | None => None end
      | _ => None end
  | ASteps t top stop k :: l =>
      if decide (random_level top) then match steps x t top stop k with Some x => play l x | None => None end else None
  | ARet t :: l => match pcs x !! t with
      | Some (Ready r) => match play l (Sys (shared x) (<[t := Quiet]> (pcs x))) with Some (h, y) => Some (Return t r :: h, y) | None => None end
      | _ => None end
  end.
Local Lemma steps_exec top t stop k : random_level top -> forall x0 h x y, exec (step Zcomp) x0 h x -> steps x t top stop k = Some y -> exec (step Zcomp) x0 h y.
Proof.
  intros Ht. induction k as [|k IH]; intros x0 h x y E S; cbn [steps] in S; [by injection S as <-|].
  destruct x as [m ps]. cbn [pcs shared] in S. destruct (ps !! t) as [p|] eqn:Ep; [|done]. destruct (stop p || negb (running p)) eqn:B; [by injection S as <-|].
  apply orb_false_iff in B as [_ B]. apply negb_false_iff in B.
  destruct (tstep Zcomp m p top) as [[m' p']| |] eqn:Es; try done. eapply IH; [|done]. eapply exec_silent; [done|]. by eapply s_silent.
Qed.
Local Lemma play_exec l : forall x0 h0 x h y, exec (step Zcomp) x0 h0 x -> play l x = Some (h, y) -> exec (step Zcomp) x0 (h0 ++ h) y.
Proof.
  induction l as [|a l IH]; intros x0 h0 x h y E P; cbn [play] in P; [injection P as <- <-; by rewrite app_nil_r|].
  destruct a as [t o|t top stop k|t].
  - destruct x as [m ps]. cbn [pcs shared] in P. destruct (ps !! t) as [[]|] eqn:Ep; try done. destruct (play l _) as [[h' y']|] eqn:Pl; [|done]. injection P as <- <-.
    change (Call t o :: h') with ([Call t o] ++ h'). rewrite app_assoc. eapply IH; [|done]. eapply exec_event; [done|]. by apply s_call.
  - destruct (decide (random_level top)) as [Ht|]; [|done]. destruct (steps x t top stop k) as [x'|] eqn:S; [|done]. eapply IH; [|done]. by eapply steps_exec.
  - destruct x as [m ps]. cbn [pcs shared] in P. destruct (ps !! t) as [[| | | | | | | | | |r]|] eqn:Ep; try done. destruct (play l _) as [[h' y']|] eqn:Pl; [|done]. injection P as <- <-.
    change (Return t r :: h') with ([Return t r] ++ h'). rewrite app_assoc. eapply IH; [|done]. eapply exec_event; [done|]. by apply s_return.
Qed.
Local Lemma play_ex l n h : (match play l (sys_init 0%Z n) with Some (h', _) => h' | None => [] end) = h -> h <> [] ->
  exists y, exec (step Zcomp) (sys_init 0%Z n) h y.
Proof. destruct (play l _) as [[h' y]|] eqn:P; intros <- N; [|done]. exists y. by apply (play_exec l _ [] _ _ _ (exec_nil _ _) P). Qed.
Local Definition never (_ : pc Z) : bool := false.
Local Definition whole (t : nat) (o : op Z) (top : nat) : list act := [ACall t o; ASteps t top never 400; ARet t].
Local Definition at_inc (p : pc Z) : bool := match p with AddInc => true | _ => false end.
Local Definition at_snip (p : pc Z) : bool := match p with Find _ _ _ _ (PSnip _ _ _ _) => true | _ => false end.

(** one goroutine adds 5, another one removes it before the first has counted
    it: a third one sees the length -1 *)
Example C52_negative_length :
  exists y, exec (step Zcomp) (sys_init 0%Z 3)
    [Call 0 (Add 5%Z); Call 1 (Del 5%Z); Return 1 (RBool true); Call 2 Len; Return 2 (RInt (-1)); Return 0 (RBool true)] y.
Proof.
  apply (play_ex ([ACall 0 (Add 5%Z); ASteps 0 2 at_inc 400] ++ whole 1 (Del 5%Z) 1 ++ whole 2 Len 1 ++ [ASteps 0 2 never 400; ARet 0])); [by vm_compute|done].
Qed.
(** duplicates, Get between elements, Has of a removed element *)
Example C50_example :
  exists y, exec (step Zcomp) (sys_init 0%Z 2)
    [Call 0 (Add 5%Z); Return 0 (RBool true); Call 1 (Add 5%Z); Return 1 (RBool false); Call 0 (Add 9%Z); Return 0 (RBool true);
     Call 0 (Get 6%Z); Return 0 (RVal 9%Z); Call 1 (Del 5%Z); Return 1 (RBool true); Call 0 (Has 5%Z); Return 0 (RBool false); Call 0 (Get 10%Z); Return 0 (RVal 0%Z)] y.
Proof.
  apply (play_ex (whole 0 (Add 5%Z) 3 ++ whole 1 (Add 5%Z) 1 ++ whole 0 (Add 9%Z) 1 ++ whole 0 (Get 6%Z) 1 ++ whole 1 (Del 5%Z) 1 ++ whole 0 (Has 5%Z) 1 ++ whole 0 (Get 10%Z) 1)); [by vm_compute|done].
Qed.
(** Rank skips the elements below a taller tower: 3 is the third of 1, 2, 3 and has rank 2 *)
Example C53_rank_can_be_too_small :
  exists y, exec (step Zcomp) (sys_init 0%Z 1)
    [Call 0 (Add 1%Z); Return 0 (RBool true); Call 0 (Add 2%Z); Return 0 (RBool true); Call 0 (Add 3%Z); Return 0 (RBool true);
     Call 0 (Rank 3%Z); Return 0 (RInt 2)] y.
Proof.
  apply (play_ex (whole 0 (Add 1%Z) 1 ++ whole 0 (Add 2%Z) 2 ++ whole 0 (Add 3%Z) 1 ++ whole 0 (Rank 3%Z) 1)); [by vm_compute|done].
Qed.
(** under concurrency Rank can exceed 1 + the number of elements there ever
    were: it does not start counting again when its search starts again *)
Example C53_concurrent_rank_counts_twice :
  exists y, exec (step Zcomp) (sys_init 0%Z 2)
    [Call 0 (Add 1%Z); Return 0 (RBool true); Call 0 (Add 2%Z); Return 0 (RBool true); Call 0 (Add 3%Z); Return 0 (RBool true); Call 0 (Add 5%Z); Return 0 (RBool true);
     Call 0 (Del 5%Z); Return 0 (RBool true); Call 1 (Rank 9%Z); Call 0 (Has 5%Z); Return 0 (RBool false); Return 1 (RInt 7)] y.
Proof.
  apply (play_ex (whole 0 (Add 1%Z) 1 ++ whole 0 (Add 2%Z) 1 ++ whole 0 (Add 3%Z) 1 ++ whole 0 (Add 5%Z) 1 ++ whole 0 (Del 5%Z) 1 ++
    [ACall 1 (Rank 9%Z); ASteps 1 1 at_snip 400] ++ whole 0 (Has 5%Z) 1 ++ [ASteps 1 1 never 400; ARet 1])); [by vm_compute|done].
Qed.
(** the hypotheses of C53_rank_exact: after three additions and a removal that
    do not overlap the elements are 1, 2, 3 with towers of heights 1, 2, 1 *)
Local Fixpoint walk (h : list (node Z)) (l i fuel : nat) : option (list nat) :=
  match fuel with
  | O => None
  | S fuel => match h !! i with
              | Some n => match nexts n !! l with
                          | Some (Some j, _) => if decide (j = tail) then Some [] else match walk h l j fuel with Some r => Some (j :: r) | None => None end
                          | _ => None
                          end
              | None => None
              end
  end.
Local Lemma walk_path h l fuel : forall i ids, walk h l i fuel = Some ids -> path h l i ids.
Proof.
  induction fuel as [|fuel IH]; intros i ids E; cbn [walk] in E; [done|]. destruct (h !! i) as [n|] eqn:En; [|done]. destruct (nexts n !! l) as [[[j|] m]|] eqn:El; try done.
  destruct (decide (j = tail)) as [->|N]; [injection E as <-; by eapply path_end|]. destruct (walk h l j fuel) as [r|] eqn:Er; [|done]. injection E as <-. eapply path_hop; eauto.
Qed.
Local Definition seq_acts : list act := whole 0 (Add 2%Z) 2 ++ whole 1 (Add 1%Z) 1 ++ whole 0 (Add 5%Z) 3 ++ whole 1 (Del 5%Z) 1 ++ whole 1 (Add 3%Z) 1.
Example C53_sequential_example :
  exists h x, exec (step Zcomp) (sys_init 0%Z 2) h x /\ one_at_a_time h /\ length h = 10 /\ towers x [(1%Z, 1); (2%Z, 2); (3%Z, 1)] /\
    exists y, exec (step Zcomp) x [Call 0 (Rank 3%Z); Return 0 (RInt 2)] y.
Proof.
  destruct (play seq_acts (sys_init 0%Z 2)) as [[h x]|] eqn:P; [|by vm_compute in P]. exists h, x.
  pose proof (play_exec _ _ [] _ _ _ (exec_nil _ _) P) as E. split; [exact E|].
  assert (D : play seq_acts (sys_init 0%Z 2) = Some (h, x)) by exact P. clear P. vm_compute in D. injection D as <- <-. splits.
  - apply (oat_call [_; _; _; _; _; _; _; _]), (oat_call [_; _; _; _; _; _]), (oat_call [_; _; _; _]), (oat_call [_; _]), (oat_call []), oat_nil.
  - done.
  - eexists. split; [apply (walk_path _ _ 10); by vm_compute|]. by vm_compute.
  - match goal with |- exists y, exec _ ?x _ _ => destruct (play (whole 0 (Rank 3%Z) 1) x) as [[h y]|] eqn:P; [|by vm_compute in P] end. exists y.
    pose proof (play_exec _ _ [] _ _ _ (exec_nil _ _) P) as E2. cbn [app] in E2. assert (h = [Call 0 (Rank 3%Z); Return 0 (RInt 2)]) as ->; [|done].
    vm_compute in P. by injection P as <- _.
Qed.
