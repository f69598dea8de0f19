(** Overlapping additions can lose upper links of the lock-free skip list for
    good (C51, C53): Add writes the links of its new node once, before it
    publishes it (lockfree_skiplist.go:51-53); when another addition comes in
    between it looks for the place again (lockfree_skiplist.go:65) but does not
    write the new node's link again, and so links past the other element. *)
From Verif Require Import Base Lin_Spec LockFree_Model LockFree_Spec.
From Verif Require LockFree_Props LockFree_Proofs13 LFGap_Proofs.
Local Notation play := LockFree_Props.play.
Local Notation whole := LockFree_Props.whole.
Local Notation never := LockFree_Props.never.
Local Definition at_link (p : pc Z) : bool := match p with AddLink _ _ _ _ _ => true | _ => false end.
Local Lemma quiet_dec (x : sys Z) : forallb (fun p => match p with Quiet => true | _ => false end) (pcs x) = true -> quiet x.
Proof.
  intros H t p Hp. rewrite forallb_forall in H. assert (HI : In p (pcs x)) by (apply elem_of_list_In; by eapply elem_of_list_lookup_2).
  apply H in HI. by destruct p.
Qed.
(** 8 is there; while one goroutine adds 5, another one adds 7; all with towers of height 2 *)
Local Definition gap_low : list LockFree_Props.act :=
  whole 0 (Add 8%Z) 2 ++ [LockFree_Props.ACall 0 (Add 5%Z); LockFree_Props.ASteps 0 2 at_link 400] ++ whole 1 (Add 7%Z) 2 ++
  [LockFree_Props.ASteps 0 2 never 400; LockFree_Props.ARet 0].
(** the same without 8, then 6 with a tower of height 1 *)
Local Definition gap_high : list LockFree_Props.act :=
  [LockFree_Props.ACall 0 (Add 5%Z); LockFree_Props.ASteps 0 2 at_link 400] ++ whole 1 (Add 7%Z) 2 ++
  [LockFree_Props.ASteps 0 2 never 400; LockFree_Props.ARet 0] ++ whole 0 (Add 6%Z) 1.

(** C51: whatever calls follow, as long as they do not overlap, a node that is
    not met on a level at rest will not be met on it later *)
Theorem C51_missing_links_stay_missing :
  forall (T : Type) (zero : T) (comp : T -> T -> Z), cmp_ok comp ->
  forall n h x h' y l ids ids',
  exec (step comp) (sys_init zero n) h x -> quiet x ->
  exec (step comp) x h' y -> one_at_a_time h' ->
  path (heap (shared x)) l head ids -> path (heap (shared y)) l head ids' ->
  forall i, i ∈ ids' -> i < length (heap (shared x)) -> i ∈ ids.
Proof. intros T zero comp Hc n h x h' y l ids ids' E Q E' Oat P P'. by eapply (LFGap_Proofs.missing_stays zero comp Hc). Qed.
Print Assumptions C51_missing_links_stay_missing.

(** C51: at rest, after two additions that overlapped, an element can be missing
    from a level its tower reaches: of 5, 7 and 8, all of height 2, level 1
    leads through 5 and 8 only; and no later calls that do not overlap bring the
    node of 7 (node 4) back *)
Theorem C51_levels_complete_after_overlap_refuted :
  exists h x tw ids, exec (step Zcomp) (sys_init 0%Z 2) h x /\ quiet x /\ towers x tw /\
    path (heap (shared x)) 1 head ids /\
    tw = [(5%Z, 2); (7%Z, 2); (8%Z, 2)] /\
    omap (tower (heap (shared x))) ids = [(5%Z, 2); (8%Z, 2)] /\
    h = [Call 0 (Add 8%Z); Return 0 (RBool true); Call 0 (Add 5%Z); Call 1 (Add 7%Z); Return 1 (RBool true); Return 0 (RBool true)] /\
    tower (heap (shared x)) 4 = Some (7%Z, 2) /\
    (forall h' y ids', exec (step Zcomp) x h' y -> one_at_a_time h' -> path (heap (shared y)) 1 head ids' -> 4 ∉ ids').
Proof.
  destruct (play gap_low (sys_init 0%Z 2)) as [[h x]|] eqn:P; [|by vm_compute in P]. exists h, x.
  pose proof (LockFree_Props.play_exec _ _ [] _ _ _ (exec_nil _ _) P) as E.
  exists [(5%Z, 2); (7%Z, 2); (8%Z, 2)], [3; 2]. split; [exact E|].
  assert (D : play gap_low (sys_init 0%Z 2) = Some (h, x)) by exact P. clear P.
  assert (Q : quiet x) by (clear E; vm_compute in D; injection D as <- <-; by apply quiet_dec).
  assert (Pa : path (heap (shared x)) 1 head [3; 2]) by (clear E; vm_compute in D; injection D as <- <-; apply (LockFree_Props.walk_path _ _ 10); by vm_compute).
  assert (Ln : 4 < length (heap (shared x))) by (clear E; vm_compute in D; injection D as <- <-; cbn; lia).
  split; [exact Q|]. split; [|split; [exact Pa|]].
  { clear E. vm_compute in D; injection D as <- <-. eexists. split; [apply (LockFree_Props.walk_path _ _ 10); by vm_compute|]. by vm_compute. }
  split; [reflexivity|]. split; [clear - D; vm_compute in D; injection D as <- <-; by vm_compute|].
  split; [clear - D; vm_compute in D; injection D as <- <-; reflexivity|].
  split; [clear - D; vm_compute in D; injection D as <- <-; by vm_compute|]. clear D.
  intros h' y ids' E' Oat P' Hi. pose proof (C51_missing_links_stay_missing Z 0%Z Zcomp Zcomp_ok _ _ _ _ _ _ _ _ E Q E' Oat Pa P' 4 Hi Ln) as F.
  apply elem_of_list_In in F. cbn in F. lia.
Qed.
Print Assumptions C51_levels_complete_after_overlap_refuted.

(** C53: so, at rest, the exact Rank of calls that did not overlap is wrong in
    both directions: too small (three elements of equal height below 9, Rank 3
    instead of 4) and too large (heights 2, 1, 2 below 9: Rank 4 instead of 3) *)
Theorem C53_rank_exact_after_overlap_refuted :
  (exists h x tw y, exec (step Zcomp) (sys_init 0%Z 2) h x /\ quiet x /\ towers x tw /\
     tw = [(5%Z, 2); (7%Z, 2); (8%Z, 2)] /\ (1 + peaks tw.*2 = 4) /\
     exec (step Zcomp) x [Call 0 (Rank 9%Z); Return 0 (RInt 3)] y) /\
  (exists h x tw y, exec (step Zcomp) (sys_init 0%Z 2) h x /\ quiet x /\ towers x tw /\
     tw = [(5%Z, 2); (6%Z, 1); (7%Z, 2)] /\ (1 + peaks tw.*2 = 3) /\
     exec (step Zcomp) x [Call 0 (Rank 9%Z); Return 0 (RInt 4)] y).
Proof.
  split.
  - destruct (play gap_low (sys_init 0%Z 2)) as [[h x]|] eqn:P; [|by vm_compute in P].
    pose proof (LockFree_Props.play_exec _ _ [] _ _ _ (exec_nil _ _) P) as E.
    assert (D : play gap_low (sys_init 0%Z 2) = Some (h, x)) by exact P. clear P.
    destruct (play (whole 0 (Rank 9%Z) 1) x) as [[h2 y]|] eqn:P2.
    2:{ exfalso. vm_compute in D. injection D as <- <-. by vm_compute in P2. }
    pose proof (LockFree_Props.play_exec _ _ [] _ _ _ (exec_nil _ _) P2) as E2. cbn [app] in E2.
    exists h, x, [(5%Z, 2); (7%Z, 2); (8%Z, 2)], y. split; [exact E|]. clear E.
    assert (h2 = [Call 0 (Rank 9%Z); Return 0 (RInt 3)]) as -> by (vm_compute in D; injection D as <- <-; vm_compute in P2; by injection P2 as <- _).
    split; [|split; [|split; [done|split; [by vm_compute|exact E2]]]]; clear E2 P2; vm_compute in D; injection D as <- <-.
    + by apply quiet_dec.
    + eexists. split; [apply (LockFree_Props.walk_path _ _ 10); by vm_compute|]. by vm_compute.
  - destruct (play gap_high (sys_init 0%Z 2)) as [[h x]|] eqn:P; [|by vm_compute in P].
    pose proof (LockFree_Props.play_exec _ _ [] _ _ _ (exec_nil _ _) P) as E.
    assert (D : play gap_high (sys_init 0%Z 2) = Some (h, x)) by exact P. clear P.
    destruct (play (whole 0 (Rank 9%Z) 1) x) as [[h2 y]|] eqn:P2.
    2:{ exfalso. vm_compute in D. injection D as <- <-. by vm_compute in P2. }
    pose proof (LockFree_Props.play_exec _ _ [] _ _ _ (exec_nil _ _) P2) as E2. cbn [app] in E2.
    exists h, x, [(5%Z, 2); (6%Z, 1); (7%Z, 2)], y. split; [exact E|]. clear E.
    assert (h2 = [Call 0 (Rank 9%Z); Return 0 (RInt 4)]) as -> by (vm_compute in D; injection D as <- <-; vm_compute in P2; by injection P2 as <- _).
    split; [|split; [|split; [done|split; [by vm_compute|exact E2]]]]; clear E2 P2; vm_compute in D; injection D as <- <-.
    + by apply quiet_dec.
    + eexists. split; [apply (LockFree_Props.walk_path _ _ 10); by vm_compute|]. by vm_compute.
Qed.
Print Assumptions C53_rank_exact_after_overlap_refuted.
