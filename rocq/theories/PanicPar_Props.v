(** C73: callbacks that panic in streams. *)
From Verif Require Import Base Split_Model Stream_Model Stream_Spec ParPipe_Proofs PanicPar_Model PanicPar_Spec PanicPar_Proofs.
From Verif Require ParPipe_Proofs3 ParPipe_Proofs4 Split_Proofs PanicPar_Proofs2 PanicPar_Proofs3.

(** the streams of C66, whose callbacks never panic, have segments that all end *)
Theorem C73_stable_streams {U T} (s : stream U T) p segs : stable s p segs -> segments s p ((fun l => Course l false) <$> segs).
Proof. apply stable_segments. Qed.
Print Assumptions C73_stable_streams.

(** Map, Inspect and Filter act segment by segment; a segment ends in a panic at
    the first element whose callback panics *)
Theorem C73_stages {U T} (s : stream U T) p cs : segments s p cs ->
  (forall R (f : T -> U -> option (R * U)) g, answers f g ->
     segments (MapP s f) p ((fun c => map_course g (elems c) (booms c)) <$> cs)) /\
  (forall (f : T -> U -> option U) (bad : T -> bool), (forall x u, f x u = None <-> bad x = true) ->
     segments (InspectP s f) p ((fun c => map_course (fun x => if bad x then None else Some x) (elems c) (booms c)) <$> cs)) /\
  (forall (f : T -> U -> option (bool * U)) q, answers f q ->
     segments (FilterP s f) p ((fun c => filter_course q (elems c) (booms c)) <$> cs)).
Proof.
  intros H. splits.
  - intros R f g Hf. unfold MapP. apply (wrap_runs _ (map_course g)); [|done]. by apply mapP_runs.
  - intros f bad Hf. unfold InspectP. apply (wrap_runs _ (map_course (fun x => if bad x then None else Some x))); [|done].
    apply mapP_runs. intros x u. specialize (Hf x u). destruct (bad x), (f x u); naive_solver.
  - intros f q Hf. unfold FilterP. apply (wrap_runs _ (filter_course q)); [|done]. by apply keepP_runs.
Qed.
Print Assumptions C73_stages.

(** FoldWith and Collect with parallelism 0: exactly the calls of the left fold up
    to the first panic are made, and the panic reaches the caller *)
Theorem C73_sequential_fold {U T R} (f : R -> T -> option R) (s : stream U T) init w cs : segments s 0 cs ->
  exists n, forall fuel, n <= fuel -> FoldWithP_seq f s init fuel w = Ok (fold_courses f init cs).
Proof.
  intros H. destruct (foldP_gen_ok f cs (activate s 0) init w H) as [n Hn]. exists n. intros fuel Hf. by apply Hn.
Qed.
Print Assumptions C73_sequential_fold.

(** whatever happens: a value that FoldWith returns is the combination of [p]
    results of whole segments in which nothing panicked, in some order; and the
    call itself panics only if the combiner does, on such results *)
Theorem C73_fold_value {U T R : Type} (p : Z) (init : R) (f : R -> T -> option R) (comb : R -> R -> option R)
    (s : stream U T) (w0 : world U) (cs : list (course T)) :
  (1 <= p)%Z -> segments s p cs -> forall x, rtc (xstep p init f comb) (xinit p s w0) x ->
  (forall v, xm x = XReturned v ->
     exists rs, rs ⊆+ omap (fold_course f init) cs /\ Z.of_nat (length rs) = p /\ combining comb init rs = Some v) /\
  (xm x = XPanicked ->
     exists rs, rs ⊆+ omap (fold_course f init) cs /\ combining comb init rs = None).
Proof.
  intros Hp Hs x Hx. pose proof (PanicPar_Proofs2.inv_reach p init f comb s w0 cs Hp Hs x Hx) as I. split.
  - intros v E. by eapply PanicPar_Proofs2.returned_value.
  - intros E. by eapply PanicPar_Proofs2.panicked_value.
Qed.
(** with as many segments as the parallelism: if something panics in some segment,
    FoldWith never returns a value, and every execution ends, with the process
    terminated by the panic *)
Theorem C73_fold_panic_ends_the_process {U T R : Type} (p : Z) (init : R) (f : R -> T -> option R) (comb : R -> R -> option R)
    (s : stream U T) (w0 : world U) (cs : list (course T)) :
  (1 <= p)%Z -> segments s p cs -> Z.of_nat (length cs) = p ->
  (exists c, c ∈ cs /\ fold_course f init c = None) ->
  (forall x, rtc (xstep p init f comb) (xinit p s w0) x -> (forall v, xm x <> XReturned v) /\ (xcrashed x = false <-> exists y, (xstep p init f comb) x y)) /\
  exists bound, forall n x, nsteps (xstep p init f comb) n (xinit p s w0) x -> n <= bound.
Proof.
  intros Hp Hs Hk (c & Hc & Ho). split; [|by eapply PanicPar_Proofs2.bounded].
  intros x Hx. pose proof (PanicPar_Proofs2.inv_reach p init f comb s w0 cs Hp Hs x Hx) as I.
  assert (N : forall v, xm x <> XReturned v) by (intros v; by eapply PanicPar_Proofs2.never_returns).
  split; [done|]. split.
  - intros E. destruct (PanicPar_Proofs2.progress p init f comb cs x I Hk E) as [G|[Hm G]]; [done|].
    destruct (PanicPar_Proofs2.some_worker p init f comb cs x c I Hc Ho) as (i & w & Hi & Hu).
    { intros g Eg. destruct Hm as [[v Hm]|Hm]; congruence. }
    rewrite (G i w Hi) in Hu. done.
  - intros [y St]. destruct St; done.
Qed.
(** and if nothing panics in any segment, the process is not terminated, every
    execution ends, with FoldWith returned, or panicked by the combiner in the
    caller, and all goroutines gone *)
Theorem C73_fold_no_panic {U T R : Type} (p : Z) (init : R) (f : R -> T -> option R) (comb : R -> R -> option R)
    (s : stream U T) (w0 : world U) (cs : list (course T)) :
  (1 <= p)%Z -> segments s p cs -> Z.of_nat (length cs) = p ->
  (forall c, c ∈ cs -> fold_course f init c <> None) ->
  (forall x, rtc (xstep p init f comb) (xinit p s w0) x -> xcrashed x = false /\
     ((exists y, (xstep p init f comb) x y) \/ ((exists v, xm x = XReturned v) \/ xm x = XPanicked) /\ Forall (fun w => w = XDone) (xws x))) /\
  exists bound, forall n x, nsteps (xstep p init f comb) n (xinit p s w0) x -> n <= bound.
Proof.
  intros Hp Hs Hk Hno. split; [|by eapply PanicPar_Proofs2.bounded].
  intros x Hx. pose proof (PanicPar_Proofs2.inv_reach p init f comb s w0 cs Hp Hs x Hx) as I.
  assert (Hc : xcrashed x = false) by (by eapply PanicPar_Proofs2.no_crash).
  split; [done|]. destruct (PanicPar_Proofs2.progress p init f comb cs x I Hk Hc) as [G|[Hm G]]; [by left|right].
  split; [done|]. apply Forall_lookup. exact G.
Qed.
Print Assumptions C73_fold_value.
Print Assumptions C73_fold_panic_ends_the_process.
Print Assumptions C73_fold_no_panic.

(** at any time, goroutine [j] has passed a beginning of segment [j] to the
    consumer, and no element at which the consumer panics has been accepted *)
Theorem C73_collect_prefix {U T : Type} (consume : T -> U -> option U) (bad : T -> Prop) (s : stream U T) (w0 : world U) (cs : list (course T)) :
  (forall x u, bad x <-> consume x u = None) -> segments s (parallelism s) cs ->
  forall x, rtc (ystep consume) (yinit s w0) x -> forall j, handed j (ylog x) `prefix_of` default [] (elems <$> cs !! j) /\ Forall (fun e => ~ bad e) (handed j (ylog x)).
Proof.
  intros Hb Hs x Hx j. pose proof (PanicPar_Proofs3.inv_reach consume bad s w0 cs Hb Hs x Hx) as I. split.
  - by apply PanicPar_Proofs3.handed_prefix with (1 := I).
  - apply Forall_forall. intros e He. by apply (PanicPar_Proofs3.i_good _ _ _ I j).
Qed.
Theorem C73_collect_panic_ends_the_process {U T : Type} (consume : T -> U -> option U) (bad : T -> Prop) (s : stream U T) (w0 : world U) (cs : list (course T)) :
  (forall x u, bad x <-> consume x u = None) -> segments s (parallelism s) cs ->
  (exists c, c ∈ cs /\ (booms c = true \/ Exists bad (elems c))) ->
  (forall x, rtc (ystep consume) (yinit s w0) x -> ym x <> YReturned /\ (ycrashed x = false <-> exists y, (ystep consume) x y)) /\
  exists bound, forall n x, nsteps (ystep consume) n (yinit s w0) x -> n <= bound.
Proof.
  intros Hb Hs (c & Hc & Hf). split; [|by eapply PanicPar_Proofs3.bounded].
  intros x Hx. pose proof (PanicPar_Proofs3.inv_reach consume bad s w0 cs Hb Hs x Hx) as I.
  assert (N : ym x <> YReturned).
  { intros E. destruct (PanicPar_Proofs3.returned_ok bad cs x I E) as [F _]. rewrite Forall_forall in F. by destruct (F c Hc). }
  split; [done|]. split.
  - intros E. by destruct (PanicPar_Proofs3.progress consume bad cs x I E).
  - intros [y St]. destruct St; done.
Qed.
Theorem C73_collect_no_panic {U T : Type} (consume : T -> U -> option U) (bad : T -> Prop) (s : stream U T) (w0 : world U) (cs : list (course T)) :
  (forall x u, bad x <-> consume x u = None) -> segments s (parallelism s) cs ->
  (forall c, c ∈ cs -> booms c = false /\ Forall (fun e => ~ bad e) (elems c)) ->
  (forall x, rtc (ystep consume) (yinit s w0) x -> ycrashed x = false /\ ((exists y, (ystep consume) x y) \/ ym x = YReturned) /\
     (ym x = YReturned -> forall j c, cs !! j = Some c -> handed j (ylog x) = elems c)) /\
  exists bound, forall n x, nsteps (ystep consume) n (yinit s w0) x -> n <= bound.
Proof.
  intros Hb Hs Hno. split; [|by eapply PanicPar_Proofs3.bounded].
  intros x Hx. pose proof (PanicPar_Proofs3.inv_reach consume bad s w0 cs Hb Hs x Hx) as I.
  assert (Hc : ycrashed x = false).
  { destruct (ycrashed x) eqn:E; [|done]. destruct (PanicPar_Proofs3.i_crash _ _ _ I E) as (c & Hc & [Hf|Hf]); destruct (Hno c Hc) as [H1 H2]; [congruence|].
    apply Exists_exists in Hf as (e & He & Hf). rewrite Forall_forall in H2. by destruct (H2 e He). }
  splits; [done| |].
  - by apply (PanicPar_Proofs3.progress consume bad cs x I Hc).
  - intros E. by apply (PanicPar_Proofs3.returned_ok bad cs x I E).
Qed.
Print Assumptions C73_collect_prefix.
Print Assumptions C73_collect_panic_ends_the_process.
Print Assumptions C73_collect_no_panic.

(** ** Non-vacuity *)
(** [10, 0, 5, 2] in two segments, each element dividing 100; division by zero panics *)
Definition divide (x : Z) (u : nat) : option (Z * nat) := if (x =? 0)%Z then None else Some ((100 / x)%Z, S u).
Definition quotient (x : Z) : option Z := if (x =? 0)%Z then None else Some (100 / x)%Z.
Local Lemma divide_answers : answers divide quotient.
Proof. intros x u. unfold divide, quotient. by destruct (x =? 0)%Z. Qed.
Local Lemma source_segs (l : list Z) p segs : ParPipe_Proofs3.cut l p segs -> segments (slice_stream (U:=nat) l p) p ((fun l => Course l false) <$> segs).
Proof. intros H. apply C73_stable_streams. apply ParPipe_Proofs3.source_stable. by apply ParPipe_Proofs3.slice_cut. Qed.
Definition demo : stream nat Z := MapP (slice_stream [10; 0; 5; 2]%Z 2) divide.
Example demo_segments : segments demo 2 [Course [10]%Z true; Course [20; 50]%Z false].
Proof.
  destruct (C73_stages (slice_stream (U:=nat) [10; 0; 5; 2]%Z 2) 2 [Course [10; 0]%Z false; Course [5; 2]%Z false]) as [H _].
  - apply (source_segs _ _ [[10; 0]; [5; 2]]%Z). eexists. apply (Split_Proofs.split_drains [10; 0; 5; 2]%Z 2); simpl; lia.
  - exact (H _ _ _ divide_answers).
Qed.
Definition demo0 : stream nat Z := MapP (slice_stream [10; 0; 5; 2]%Z 0) divide.
Example demo_sequential : exists n, forall fuel, n <= fuel ->
  FoldWithP_seq (fun a x => Some (a + x)%Z) demo0 7%Z fuel (World ∅ 0) = Ok ([10]%Z, None).
Proof.
  apply (C73_sequential_fold (fun a x => Some (a + x)%Z) demo0 7%Z (World ∅ 0) [Course [10]%Z true]).
  destruct (C73_stages (slice_stream (U:=nat) [10; 0; 5; 2]%Z 0) 0 [Course [10; 0; 5; 2]%Z false]) as [H _].
  - apply (source_segs _ _ [[10; 0; 5; 2]]%Z). by apply ParPipe_Proofs4.cut_seq.
  - exact (H _ _ _ divide_answers).
Qed.
Example demo_fold_crashes x :
  rtc (xstep 2 0%Z (fun a x => Some (a + x)%Z) (fun a b => Some (a + b)%Z)) (xinit 2 demo (World ∅ 0)) x -> forall v, xm x <> XReturned v.
Proof.
  intros Hx. destruct (C73_fold_panic_ends_the_process 2 0%Z (fun a x => Some (a + x)%Z) (fun a b => Some (a + b)%Z) demo (World ∅ 0) _ ltac:(lia) demo_segments eq_refl) as [H _].
  - exists (Course [10]%Z true). split; [by left|done].
  - by destruct (H x Hx).
Qed.
(** the same without the zero: nothing panics *)
Definition demo1 : stream nat Z := MapP (slice_stream [10; 1; 5; 2]%Z 2) divide.
Example demo1_segments : segments demo1 2 [Course [10; 100]%Z false; Course [20; 50]%Z false].
Proof.
  destruct (C73_stages (slice_stream (U:=nat) [10; 1; 5; 2]%Z 2) 2 [Course [10; 1]%Z false; Course [5; 2]%Z false]) as [H _].
  - apply (source_segs _ _ [[10; 1]; [5; 2]]%Z). eexists. apply (Split_Proofs.split_drains [10; 1; 5; 2]%Z 2); simpl; lia.
  - exact (H _ _ _ divide_answers).
Qed.
Example demo1_fold x :
  rtc (xstep 2 0%Z (fun a x => Some (a + x)%Z) (fun a b => Some (a + b)%Z)) (xinit 2 demo1 (World ∅ 0)) x -> xcrashed x = false.
Proof.
  intros Hx. destruct (C73_fold_no_panic 2 0%Z (fun a x => Some (a + x)%Z) (fun a b => Some (a + b)%Z) demo1 (World ∅ 0) _ ltac:(lia) demo1_segments eq_refl) as [H _].
  - intros c Hc. repeat (apply elem_of_cons in Hc as [->|Hc]; [done|]). by apply elem_of_nil in Hc.
  - by destruct (H x Hx).
Qed.
(** a consumer that panics at 20 *)
Definition picky (x : Z) (u : nat) : option nat := if (x =? 20)%Z then None else Some (S u).
Example demo1_collect x : rtc (ystep picky) (yinit demo1 (World ∅ 0)) x -> ym x <> YReturned /\ handed 1 (ylog x) = [].
Proof.
  assert (Hb : forall y u, y = 20%Z <-> picky y u = None) by (intros y u; unfold picky; destruct (Z.eqb_spec y 20); naive_solver).
  intros Hx. pose proof demo1_segments as Hs. split.
  - destruct (C73_collect_panic_ends_the_process picky (fun y => y = 20%Z) demo1 (World ∅ 0) _ Hb Hs) as [H _].
    + exists (Course [20; 50]%Z false). split; [by right; left|]. right. by left.
    + by destruct (H x Hx).
  - destruct (C73_collect_prefix picky (fun y => y = 20%Z) demo1 (World ∅ 0) _ Hb Hs x Hx 1) as [[k E] F]. cbn in E.
    destruct (handed 1 (ylog x)) as [|y l]; [done|]. injection E as <- _. by inversion F.
Qed.
(** the panic does happen: the process ends *)
Example demo_crash_reached : exists x, rtc (xstep 2 0%Z (fun a x => Some (a + x)%Z) (fun a b => Some (a + b)%Z)) (xinit 2 demo (World ∅ 0)) x /\ xcrashed x = true.
Proof.
  destruct (C73_fold_panic_ends_the_process 2 0%Z (fun a x => Some (a + x)%Z) (fun a b => Some (a + b)%Z) demo (World ∅ 0) _ ltac:(lia) demo_segments eq_refl) as [H [b Hb]].
  { exists (Course [10]%Z true). split; [by left|done]. }
  assert (G : forall n, (exists x, rtc (xstep 2 0%Z (fun a x => Some (a + x)%Z) (fun a b => Some (a + b)%Z)) (xinit 2 demo (World ∅ 0)) x /\ xcrashed x = true)
    \/ exists x, nsteps (xstep 2 0%Z (fun a x => Some (a + x)%Z) (fun a b => Some (a + b)%Z)) n (xinit 2 demo (World ∅ 0)) x).
  { induction n as [|n [IH|[x IH]]]; [right; eexists; constructor|by left|]. assert (Hx := rtc_nsteps_2 _ _ _ IH). destruct (xcrashed x) eqn:E; [left; eauto|].
    right. apply (H x Hx) in E as [y Hy]. exists y. by eapply nsteps_r. }
  destruct (G (S b)) as [Hc|[x Hx]]; [done|]. apply Hb in Hx. lia.
Qed.
