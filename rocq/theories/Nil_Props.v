(** Property theorems for C81: containers made with a nil comparator. *)
From stdpp Require Import functions.
From Verif Require Import Base.
From Verif Require SkipList_Model SkipList_Spec SkipList_Proofs SkipList_Proofs4 SkipList_Proofs5 PanicCompSL_Model.
From Verif Require RBTree_Model RBTree_Spec RBTree_Proofs7 RBTree_Proofs10 PanicCompRB_Model.
From Verif Require PQ_Model PanicComp_Model.
From Verif Require BPlus_Model BPlus_Spec PanicCompBP_Model.
From Verif Require Import Nil_Model Nil_Spec Nil_Proofs Nil_Proofs2 Nil_Proofs3 Nil_Proofs4.

Lemma late_nil {S O K R} (nil_step : S -> O -> PanicComp_Model.cr S (R * S)) (step : (K -> K -> Z) -> S -> O -> res (R * S))
    (run : S -> list (O * nat) -> res (list (option R) * S)) :
  (forall s, run s [] = Ok ([], s)) ->
  (forall s o os, run s ((o, 0) :: os) =
     match nil_step s o with
     | PanicComp_Model.Done r _ => let! r' := run (snd r) os in Ok (Some (fst r) :: fst r', snd r')
     | PanicComp_Model.Crash s => let! r' := run s os in Ok (None :: fst r', snd r')
     | PanicComp_Model.CPanic => Panic
     | PanicComp_Model.CFuel => Fuel
     end) ->
  forall os s rs s' es rs' s'', run s (unanswered os) = Ok (rs, s') -> late_run nil_step step None s' es = Ok (rs', s'') ->
  late_run nil_step step None s ((Call <$> os) ++ es) = Ok (rs ++ rs', s'').
Proof.
  intros H0 H1. induction os as [|o os IH]; intros s rs s' es rs' s'' E1 E2.
  - unfold unanswered in E1. cbn in E1. rewrite H0 in E1. by injection E1 as <- <-.
  - unfold unanswered in E1. cbn [fmap list_fmap] in E1. rewrite H1 in E1. cbn [fmap list_fmap app late_run].
    destruct (nil_step s o) as [r n|s1| |]; [..|done|done]; cbn [fst snd] in *.
    + destruct (run _ _) as [[rs1 s2]| |] eqn:E; [|done|done]. cbn in E1. injection E1 as <- <-.
      by rewrite (IH _ _ _ _ _ _ E E2).
    + destruct (run _ _) as [[rs1 s2]| |] eqn:E; [|done|done]. cbn in E1. injection E1 as <- <-.
      by rewrite (IH _ _ _ _ _ _ E E2).
Qed.
Lemma late_set {S O K R} nil_step (step : (K -> K -> Z) -> S -> O -> res (R * S)) (run : (K -> K -> Z) -> S -> list O -> res (list R * S)) f :
  (forall s, run f s [] = Ok ([], s)) ->
  (forall s o os, run f s (o :: os) = let! (r, s) := step f s o in let! (rs, s) := run f s os in Ok (r :: rs, s)) ->
  forall es s rs s', run f s (calls es) = Ok (rs, s') -> late_run nil_step step (Some f) s es = Ok (Some <$> rs, s').
Proof.
  intros H0 H1. induction es as [|[o|g] es IH]; intros s rs s' E.
  - cbn in E. rewrite H0 in E. by injection E as <- <-.
  - cbn in E. rewrite H1 in E. cbn [late_run]. destruct (step f s o) as [[r s1]| |]; [|done|done]. cbn [rbind] in *.
    destruct (run f s1 _) as [[rs1 s2]| |] eqn:E1; [|done|done]. cbn in E. injection E as <- <-. by rewrite (IH _ _ _ E1).
  - cbn [late_run set_compare]. by apply IH.
Qed.

(** C81, red-black tree: the history [os1], then SetCompareFunc(f), then a history
    [es2] that may call SetCompareFunc again.  Before SetCompareFunc the calls do
    what [nil_tree] says; from then on the tree is the sorted map of C35 under [f]
    with what was stored before *)
Theorem C81_rbtree_without_comparator :
  forall (K V : Type) (kzero : K) (vzero : V) (dummy f : K -> K -> Z) (os1 : list (RBTree_Model.op K V)) es2 rs1 m1 fuel,
  cmp_ok f -> cmp_unit f -> Forall no_node_op os1 ->
  nil_run (nil_tree vzero) [] os1 = (rs1, m1) ->
  RBTree_Spec.allowed vzero f (RBTree_Spec.ascending f) m1 (calls es2) -> length (calls es2) + 3 <= fuel ->
  exists rs2 t m2,
  late_run (fun t o => PanicCompRB_Model.rb_step_c vzero dummy fuel t o 0) (fun f t o => RBTree_Model.step vzero f fuel t o) None
    (RBTree_Model.new_tree kzero vzero) ((Call <$> os1) ++ SetCompare f :: es2) = Ok (rs1 ++ (Some <$> rs2), t) /\
  length m1 <= 1 /\ RBTree_Spec.map_run vzero f m1 (calls es2) rs2 m2 /\ RBTree_Spec.sorted f m2.
Proof.
  intros K V kzero vzero dummy f os1 es2 rs1 m1 fuel Hc Hu Ho EN HA Hf.
  destruct (Nil_Proofs2.run_nil kzero vzero dummy f Hc Hu os1 [] _ _ [] fuel (RBTree_Proofs10.sinv_new kzero vzero f) ltac:(cbn; lia) ltac:(lia) Ho)
    as (t1 & bt1 & own1 & E1 & I1 & Hl1). rewrite EN in E1, I1, Hl1. cbn [fst snd] in *.
  destruct (RBTree_Proofs10.sinv_run kzero vzero f Hc Hu (RBTree_Spec.ascending f) (calls es2) own1 t1 bt1 m1 fuel (fun _ _ H => H) I1 HA ltac:(lia))
    as (rs2 & t2 & bt2 & m2 & own2 & E2 & HM & I2 & _).
  exists rs2, t2, m2. split; [|split; [done|split; [done|by eapply RBTree_Proofs10.s_sorted]]].
  eapply late_nil; [..|exact E1|]; [done|done|]. cbn [late_run set_compare].
  by eapply (late_set _ (fun f t o => RBTree_Model.step vzero f fuel t o) (fun f t os => RBTree_Model.run vzero f fuel t os)).
Qed.
Print Assumptions C81_rbtree_without_comparator.

(** C81, skip list: likewise; from SetCompareFunc(f) on the calls do what they do
    under [f] to the sequence stored before (C40) *)
Theorem C81_skiplist_without_comparator :
  forall (K V : Type) (kzero : K) (vzero : V) (dummy f : K -> K -> Z) (os1 : list (SkipList_Model.op K V)) es2 rs1 m1 fuel,
  nil_run nil_skip [] os1 = (rs1, m1) -> length (calls es2) + 1 < fuel ->
  exists rs2 s m2,
  late_run (fun s o => PanicCompSL_Model.sl_step_c vzero dummy kzero fuel s o 0) (fun f s o => SkipList_Model.step kzero vzero f fuel s o) None
    (SkipList_Model.new_list kzero vzero) ((Call <$> os1) ++ SetCompare f :: es2) = Ok (rs1 ++ (Some <$> rs2), s) /\
  length m1 <= 1 /\ SkipList_Spec.seq_run f m1 (calls es2) rs2 m2 /\ SkipList_Spec.shows vzero fuel s m2.
Proof.
  intros K V kzero vzero dummy f os1 es2 rs1 m1 fuel EN Hf.
  destruct (Nil_Proofs.run_nil kzero vzero dummy os1 (SkipList_Model.new_list kzero vzero) [] fuel) as (s1 & ns1 & E1 & R1 & Z1 & L1 & N1).
  { apply SkipList_Proofs4.repr_init. exact dummy. }
  { unfold SkipList_Proofs4.zero_hdr, SkipList_Model.new_list, SkipList_Model.init. cbn. by rewrite fn_lookup_insert. }
  { cbn. lia. } { lia. }
  change (SkipList_Proofs.ents (SkipList_Model.new_list kzero vzero) []) with ([] : list (K * V)) in *. rewrite EN in E1, N1. cbn [fst snd] in *.
  destruct (SkipList_Proofs4.run_ok f kzero vzero (calls es2) s1 ns1 fuel R1 Z1 ltac:(lia)) as (rs2 & s2 & ns2 & E2 & R2 & Z2 & L2 & HS).
  exists rs2, s2, (SkipList_Proofs.ents s2 ns2). rewrite N1 in HS. split; [|split; [|split; [done|]]].
  - eapply late_nil; [..|exact E1|]; [done|done|]. cbn [late_run set_compare].
    by eapply (late_set _ (fun f s o => SkipList_Model.step kzero vzero f fuel s o) (fun f s os => SkipList_Model.run kzero vzero f fuel s os)).
  - rewrite <- N1. unfold SkipList_Proofs.ents. rewrite fmap_length. done.
  - apply SkipList_Proofs5.shows_ok; [done|lia|apply Z2].
Qed.
Print Assumptions C81_skiplist_without_comparator.

(** C81, skip list: Has, Get and Rank always panic, on an empty list too *)
Theorem C81_skiplist_lookups_always_panic :
  forall (K V : Type) (kzero : K) (vzero : V) (dummy : K -> K -> Z) (os : list (SkipList_Model.op K V)) fuel k,
  1 < fuel ->
  exists s, PanicCompSL_Model.sl_run_c vzero dummy kzero fuel (SkipList_Model.new_list kzero vzero) (unanswered os)
    = Ok ((nil_run nil_skip [] os).1, s) /\
  PanicCompSL_Model.sl_has_c dummy fuel s k 0 = PanicComp_Model.Crash s /\
  PanicCompSL_Model.sl_get_c vzero dummy fuel s k 0 = PanicComp_Model.Crash s /\
  PanicCompSL_Model.sl_rank_c dummy fuel s k 0 = PanicComp_Model.Crash s.
Proof.
  intros K V kzero vzero dummy os fuel k Hf.
  destruct (Nil_Proofs.run_nil kzero vzero dummy os (SkipList_Model.new_list kzero vzero) [] fuel) as (s1 & ns1 & E1 & R1 & Z1 & L1 & N1).
  { apply SkipList_Proofs4.repr_init. exact dummy. }
  { unfold SkipList_Proofs4.zero_hdr, SkipList_Model.new_list, SkipList_Model.init. cbn. by rewrite fn_lookup_insert. }
  { cbn. lia. } { lia. }
  exists s1. split; [exact E1|].
  pose proof (Nil_Proofs.search_nil kzero dummy s1 ns1 k fuel R1 ltac:(lia)) as E.
  unfold PanicCompSL_Model.sl_has_c, PanicCompSL_Model.sl_get_c, PanicCompSL_Model.sl_rank_c, PanicComp_Model.cbnd. by rewrite E.
Qed.
Print Assumptions C81_skiplist_lookups_always_panic.

(** C81, priority queue, any size argument: what every history does *)
Theorem C81_priority_queue_without_comparator :
  forall (T : Type) (zero : T) (dummy : T -> T -> Z) (z : Z) (sizes : list Z) (os : list (@PQ_Model.op T)),
  exists q0 q, PQ_Model.q_new zero (z :: sizes) = Ok q0 /\
  PanicComp_Model.q_run_c zero dummy q0 (unanswered os) = Ok ((nil_run (nil_queue zero) [] os).1, q) /\
  PQ_Model.qsize q = length (nil_run (nil_queue zero) [] os).2 /\
  take (PQ_Model.qsize q) (PQ_Model.elements q) = (nil_run (nil_queue zero) [] os).2.
Proof.
  intros T zero dummy z sizes os. eexists.
  destruct (Nil_Proofs3.run_nil zero dummy os (PQ_Model.Queue (replicate 8 zero) 0) []) as (q & E & r & El & Es).
  { by exists (replicate 8 zero). }
  exists q. split; [reflexivity|]. split; [exact E|]. split; [exact Es|]. rewrite Es, El. by rewrite take_app.
Qed.
Print Assumptions C81_priority_queue_without_comparator.

(** C81, B+ tree: what every history does *)
Theorem C81_bplus_without_comparator :
  forall (K V : Type) (kzero : K) (vzero : V) (dummy : K -> K -> Z) (dummyV : V -> V -> Z) (deg : Z) (os : list (@BPlus_Spec.op K V)),
  (2 <= deg)%Z ->
  exists t, PanicCompBP_Model.bp_run_new_c kzero vzero dummy dummyV deg (unanswered os) = Ok (t, (nil_run (nil_bplus vzero) [] os).1) /\
  BPlus_Spec.entries (BPlus_Spec.reading t) = (nil_run (nil_bplus vzero) [] os).2 /\
  BPlus_Model.size t = Z.of_nat (length (nil_run (nil_bplus vzero) [] os).2).
Proof.
  intros K V kzero vzero dummy dummyV deg os Hd. destruct (alone_new kzero vzero dummy dummyV deg Hd) as (t0 & E0 & A0).
  destruct (Nil_Proofs4.run_nil kzero vzero dummy dummyV os t0 [] A0 ltac:(cbn; lia)) as (t & E & A). exists t.
  unfold PanicCompBP_Model.bp_run_new_c. rewrite E0. split; [exact E|]. by apply alone_entries.
Qed.
Print Assumptions C81_bplus_without_comparator.

(** C81: a map-like container never gets beyond one entry *)
Theorem C81_at_most_one_entry :
  forall (K V : Type) (vzero : V),
  (forall os : list (SkipList_Model.op K V), length (nil_run nil_skip [] os).2 <= 1) /\
  (forall os : list (RBTree_Model.op K V), length (nil_run (nil_tree vzero) [] os).2 <= 1) /\
  (forall os : list (@BPlus_Spec.op K V), length (nil_run (nil_bplus vzero) [] os).2 <= 1).
Proof.
  intros K V vzero.
  assert (G : forall O R (f : list (K * V) -> O -> option R * list (K * V)), (forall m o, length m <= 1 -> length (f m o).2 <= 1) ->
    forall os, length (nil_run f [] os).2 <= 1).
  { intros O R f Hf os. assert (H : forall os m, length m <= 1 -> length (nil_run f m os).2 <= 1); [|apply H; cbn; lia].
    clear os. induction os as [|o os IH]; intros m Hm; [done|]. cbn [nil_run]. specialize (Hf m o Hm). destruct (f m o) as [r m1].
    cbn [snd] in Hf. specialize (IH m1 Hf). by destruct (nil_run f m1 os). }
  splits; apply G; intros m o Hm; destruct o; try (destruct m; cbn in *; lia).
  - destruct ks; destruct m as [|e m]; cbn in *; lia.
  - cbn [nil_skip snd]. destruct m; cbn [snd]; by rewrite ?alter_length.
  - destruct ks; destruct m as [|e m]; cbn in *; lia.
Qed.
Print Assumptions C81_at_most_one_entry.

Lemma exchanged_length {T : Type} (l : list T) : length (ends_exchanged l) = length l.
Proof.
  destruct l as [|x l]; [done|]. destruct (decide (l = [])) as [->|Hl]; [done|]. destruct (exists_last Hl) as (l' & w & ->).
  unfold ends_exchanged. rewrite last_snoc. rewrite (removelast_app l' (l' := [w])) by done. cbn. rewrite !app_length. cbn. lia.
Qed.

(** C81, priority queue: every Push adds its element, and a queue that holds three
    can never be emptied again: every later Pop panics *)
Theorem C81_priority_queue_stuck_at_three :
  forall (T : Type) (zero : T) (l : list T) (os : list (@PQ_Model.op T)),
  3 <= length l ->
  let '(rs, l') := nil_run (nil_queue zero) l os in
  length l <= length l' /\ forall i r, os !! i = Some PQ_Model.Pop -> rs !! i = Some r -> r = None.
Proof.
  intros T zero l os. revert l. induction os as [|o os IH]; intros l Hl; [split; [done|]; intros i r H; by rewrite lookup_nil in H|].
  cbn [nil_run]. destruct (nil_queue zero l o) as [r l1] eqn:E.
  assert (H : length l <= length l1 /\ (o = PQ_Model.Pop -> r = None)).
  { destruct l as [|x [|y [|z l]]]; [cbn in Hl; lia..|]. destruct o; injection E as <- <-.
    - split; [cbn; rewrite app_length; cbn; lia|done].
    - split; [|done]. change (length (x :: y :: z :: l) <= length (ends_exchanged (x :: y :: z :: l))). by rewrite exchanged_length.
    - by split.
    - by split. }
  destruct H as [H1 H2]. specialize (IH l1 ltac:(lia)). destruct (nil_run (nil_queue zero) l1 os) as [rs l'].
  destruct IH as [H3 H4]. split; [lia|]. intros [|i] r' Ho Hr; [|by eapply H4]. cbn in Ho, Hr. injection Ho as ->. injection Hr as <-. by apply H2.
Qed.
Print Assumptions C81_priority_queue_stuck_at_three.

(** Satisfiability and examples. *)
Example C81_rbtree_example :
  nil_run (nil_tree 0%Z) [] [RBTree_Model.OHas 1; RBTree_Model.OPut 1 10; RBTree_Model.OPut 2 20; RBTree_Model.OGet 1; RBTree_Model.OSize]%Z
    = ([Some (RBTree_Model.RBool false); Some (RBTree_Model.RBool true); None; None; Some (RBTree_Model.RInt 1)], [(1, 10)])%Z /\
  RBTree_Spec.allowed 0%Z Zcomp (RBTree_Spec.ascending Zcomp) [(1, 10)]%Z (calls ([Call (RBTree_Model.OPut 2 20); SetCompare (fun _ _ => 0); Call (RBTree_Model.OGet 1)] : list (event (RBTree_Model.op Z Z) Z)))%Z.
Proof. split; [done|]. cbn. split; [right; by repeat constructor|]. intros r m [_ ->]. split; [done|]. done. Qed.
Example C81_rbtree_example_run :
  exists t, late_run (fun t o => PanicCompRB_Model.rb_step_c 0%Z (fun _ _ => 0%Z) 9 t o 0) (fun f t o => RBTree_Model.step 0%Z f 9 t o) None
    (RBTree_Model.new_tree 0 0)%Z
    [Call (RBTree_Model.OPut 1 10); Call (RBTree_Model.OPut 2 20); SetCompare Zcomp; Call (RBTree_Model.OPut 2 20); SetCompare (fun _ _ => 0); Call (RBTree_Model.OGet 1)]%Z
    = Ok ([Some (RBTree_Model.RBool true); None; Some (RBTree_Model.RBool true); Some (RBTree_Model.RVal 10)]%Z, t).
Proof. eexists. by vm_compute. Qed.
Example C81_queue_example :
  nil_run (nil_queue 0) [] [PQ_Model.Push 1; PQ_Model.Push 2; PQ_Model.Push 3; PQ_Model.Len; PQ_Model.Peek; PQ_Model.Pop; PQ_Model.Peek; PQ_Model.Pop; PQ_Model.Peek]
  = ([Some (PQ_Model.OBool true); None; None; Some (PQ_Model.OLen 3); Some (PQ_Model.OVal 1 true); None; Some (PQ_Model.OVal 3 true); None; Some (PQ_Model.OVal 1 true)], [1; 2; 3]).
Proof. done. Qed.
Example C81_bplus_example :
  nil_run (nil_bplus 0) [] [BPlus_Spec.GetVerify 1; BPlus_Spec.InsertEqual 1 10; BPlus_Spec.Delete 1; BPlus_Spec.InsertUnique 2 20]
  = ([Some (BPlus_Spec.RVal 0 false); Some (BPlus_Spec.RBool true); None; None], [(1, 10)]).
Proof. done. Qed.
Example C81_skiplist_example :
  nil_run nil_skip [] [SkipList_Model.ODelete 1; SkipList_Model.OInsertUnique 1 10 0; SkipList_Model.OInsertEquals 2 20 0; SkipList_Model.OSetValue 0 11; SkipList_Model.ODelete 1; SkipList_Model.OClear; SkipList_Model.OInsertEquals 3 30 0]%Z
  = ([Some (SkipList_Model.RBool false); Some (SkipList_Model.RBool true); None; Some SkipList_Model.RUnit; None; Some SkipList_Model.RUnit; Some (SkipList_Model.RBool true)], [(3, 30)])%Z.
Proof. done. Qed.
