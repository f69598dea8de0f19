(** Property theorems for C80, lock-free skip list: what stays reachable. *)
From Verif Require Import Base Lin_Spec LockFree_Model LockFree_Spec LFKeep_Spec LockFree_Proofs7 LFKeep_Proofs.
From Verif Require LockFree_Props.

(** C80, lock-free skip list, after any concurrent history: a removal that runs
    alone unlinks no node whose value is not below the removed one at the bottom
    level -- so not the node it removes either, which stays linked although the
    list does not contain its value any more *)
Theorem C80_lockfree_removed_element_stays_linked :
  forall (T : Type) (zero : T) (comp : T -> T -> Z), cmp_ok comp ->
  forall n h x t v y, exec (step comp) (sys_init zero n) h x -> quiet x ->
  exec (step comp) x [Call t (Del v); Return t (RBool true)] y ->
  (forall i w, linked x i w -> (0 <= comp w v)%Z -> linked y i w) /\
  (exists s, stored y s /\ ~ present comp s v) /\
  exists i w, comp w v = 0%Z /\ linked x i w /\ linked y i w.
Proof.
  intros T zero comp H n h x t v y E Q E2.
  destruct (del_keeps zero comp H _ _ _ _ _ _ E Q E2) as (_ & K & s & s' & w & i & _ & Hs' & _ & _ & NP & Cw & Lx & Ly).
  splits; [exact K|by exists s'|by exists i, w].
Qed.
Print Assumptions C80_lockfree_removed_element_stays_linked.

(** C80: values removed one after the other in descending order, nothing else
    running: the list contains none of them, and all their nodes are still linked *)
Theorem C80_lockfree_removing_downwards_keeps_all :
  forall (T : Type) (zero : T) (comp : T -> T -> Z), cmp_ok comp ->
  forall n h x t vs y, exec (step comp) (sys_init zero n) h x -> quiet x ->
  StronglySorted (fun a b => (0 < comp a b)%Z) vs -> exec (step comp) x (del_calls t vs) y ->
  exists s, stored y s /\ forall v, v ∈ vs -> ~ present comp s v /\ exists i w, linked y i w /\ comp w v = 0%Z.
Proof.
  intros T zero comp H n h x t vs y E Q S E2.
  destruct (dels_keep zero comp H n t vs _ _ _ E Q E2 S) as (_ & _ & s & s' & _ & Hs' & _ & K). by exists s'.
Qed.
Print Assumptions C80_lockfree_removing_downwards_keeps_all.

(** linked nodes can be reached from the head of the list *)
Theorem C80_lockfree_linked_is_reachable :
  forall (T : Type) (x : sys T) i w, linked x i w -> reaches (heap (shared x)) head i.
Proof.
  intros T x i w (ids & P & Hi & _).
  assert (G : forall j ids, path (heap (shared x)) 0 j ids -> reaches (heap (shared x)) head j -> forall k, k ∈ ids -> reaches (heap (shared x)) head k).
  { clear. intros j ids P. induction P as [j n m En El|j n m j' ids En El Nj P IH]; intros R k Hk; [by apply elem_of_nil in Hk|].
    assert (R' : reaches (heap (shared x)) head j') by (by eapply reaches_hop).
    apply elem_of_cons in Hk as [->|Hk]; [done|by apply IH]. }
  eapply G; [exact P|constructor|done].
Qed.
Print Assumptions C80_lockfree_linked_is_reachable.

(** ** Runs *)
Local Definition adds : list LockFree_Props.act :=
  LockFree_Props.whole 0 (Add 1%Z) 3 ++ LockFree_Props.whole 0 (Add 2%Z) 2 ++ LockFree_Props.whole 0 (Add 3%Z) 3.
Local Definition is_value (h : list (node Z)) (i : nat) (v : Z) : bool :=
  match h !! i with Some n => bool_decide (value n = v) | None => false end.
Local Lemma hop_check (h : list (node Z)) i j l k m : reaches h i j ->
  match h !! j with Some n => nexts n !! l | None => None end = Some (Some k, m) -> reaches h i k.
Proof. intros R E. destruct (h !! j) as [n|] eqn:En; [|done]. by eapply reaches_hop. Qed.
Local Lemma play_runs l x h y : LockFree_Props.play l x = Some (h, y) -> exec (step Zcomp) x h y.
Proof. intros P. apply (LockFree_Props.play_exec l x [] x h y (exec_nil _ _) P). Qed.

(** C80: looking for a removed value does not always free its node: 1, 2, 3 with
    towers of heights 3, 2, 3; 1 and 3 are removed and 3 is looked for; the search
    goes past 1 on the third level only, where 2 is missing, and the node of 3 can
    still be reached through the tower of 1, which is still linked at the bottom *)
Theorem C80_lockfree_search_frees_refuted :
  ~ (forall n h x t v y, one_at_a_time h -> exec (step Zcomp) (sys_init 0%Z n) h x ->
       exec (step Zcomp) x [Call t (Has v); Return t (RBool false)] y ->
       forall i nd, reaches (heap (shared y)) head i -> i <> head -> i <> tail -> heap (shared y) !! i = Some nd -> value nd <> v).
Proof.
  intros F.
  set (l := adds ++ LockFree_Props.whole 0 (Del 1%Z) 1 ++ LockFree_Props.whole 0 (Del 3%Z) 1).
  destruct (LockFree_Props.play l (sys_init 0%Z 1)) as [[h x]|] eqn:P; [|by vm_compute in P].
  destruct (LockFree_Props.play (LockFree_Props.whole 0 (Has 3%Z) 1) x) as [[h' y]|] eqn:P'.
  2: { exfalso. vm_compute in P. injection P as <- <-. by vm_compute in P'. }
  pose proof (play_runs _ _ _ _ P) as E. pose proof (play_runs _ _ _ _ P') as E'.
  vm_compute in P. injection P as Eh Ex. rewrite <-Ex in P'. vm_compute in P'. injection P' as Eh' Ey.
  subst h h'. assert (O : one_at_a_time [Call 0 (Add 1%Z); Return 0 (RBool true); Call 0 (Add 2%Z); Return 0 (RBool true); Call 0 (Add 3%Z); Return 0 (RBool true);
     Call 0 (Del 1%Z); Return 0 (RBool true); Call 0 (Del 3%Z); Return 0 (RBool true)] ).
  { apply (oat_call [_; _; _; _; _; _; _; _]), (oat_call [_; _; _; _; _; _]), (oat_call [_; _; _; _]), (oat_call [_; _]), (oat_call []), oat_nil. }
  specialize (F 1 _ x 0 3%Z y O E E'). clear E E' O Ex. subst y. cbn [shared heap] in F.
  match type of F with forall i nd, reaches ?m _ _ -> _ => destruct (m !! 4) as [nd|] eqn:En; [|by vm_compute in En] end.
  refine (F 4 nd _ _ _ En _); [|done|done|vm_compute in En; by injection En as <-].
  eapply (hop_check _ _ 2 2); [eapply (hop_check _ _ 0 0); [constructor|]|]; by vm_compute.
Qed.
Print Assumptions C80_lockfree_search_frees_refuted.

(** * Non-vacuity *)
(** 3, 2, 1 removed in this order: the list is empty, the three nodes are linked,
    and a search for 1 unlinks all of them *)
Example C80_lockfree_removing_downwards_met :
  exists h x y z, exec (step Zcomp) (sys_init 0%Z 1) h x /\ quiet x /\ exec (step Zcomp) x (del_calls 0 [3; 2; 1]%Z) y /\
    stored y [] /\ linked y 2 1%Z /\ linked y 3 2%Z /\ linked y 4 3%Z /\
    exec (step Zcomp) y [Call 0 (Has 1%Z); Return 0 (RBool false)] z /\ path (heap (shared z)) 0 head [].
Proof.
  destruct (LockFree_Props.play adds (sys_init 0%Z 1)) as [[h x]|] eqn:P; [|by vm_compute in P].
  destruct (LockFree_Props.play (LockFree_Props.whole 0 (Del 3%Z) 1 ++ LockFree_Props.whole 0 (Del 2%Z) 1 ++ LockFree_Props.whole 0 (Del 1%Z) 1) x) as [[h1 y]|] eqn:P1.
  2: { exfalso. vm_compute in P. injection P as <- <-. by vm_compute in P1. }
  destruct (LockFree_Props.play (LockFree_Props.whole 0 (Has 1%Z) 1) y) as [[h2 z]|] eqn:P2.
  2: { exfalso. vm_compute in P. injection P as <- <-. vm_compute in P1. injection P1 as <- <-. by vm_compute in P2. }
  pose proof (play_runs _ _ _ _ P) as E. pose proof (play_runs _ _ _ _ P1) as E1. pose proof (play_runs _ _ _ _ P2) as E2.
  exists h, x, y, z. vm_compute in P. injection P as Eh Ex. rewrite <-Ex in P1. vm_compute in P1. injection P1 as Eh1 Ey.
  rewrite <-Ey in P2. vm_compute in P2. injection P2 as Eh2 Ez. subst h1 h2.
  assert (Path : path (heap (shared y)) 0 head [2; 3; 4]).
  { rewrite <-Ey. eapply LockFree_Props.walk_path with (fuel := 10). by vm_compute. }
  splits; [exact E| |exact E1| | | | |exact E2|].
  - rewrite <-Ex. intros t p Ep. destruct t as [|t]; [by injection Ep as <-|by destruct t].
  - exists [2; 3; 4]. split; [exact Path|]. rewrite <-Ey. by vm_compute.
  - exists [2; 3; 4]. splits; [exact Path|by left|]. rewrite <-Ey. by vm_compute.
  - exists [2; 3; 4]. splits; [exact Path|right; by left|]. rewrite <-Ey. by vm_compute.
  - exists [2; 3; 4]. splits; [exact Path|do 2 right; by left|]. rewrite <-Ey. by vm_compute.
  - rewrite <-Ez. eapply LockFree_Props.walk_path with (fuel := 10). by vm_compute.
Qed.
