(** Property theorems for parallel folds whose callbacks take time and may panic (C82). *)
From Verif Require Import Base Lin_Spec Busy_Model Busy_Spec Busy_Proofs Busy_Proofs2 Busy_Proofs3 Busy_Proofs4 Busy_Props.
From Verif Require Import BusyPanic_Model BusyPanic_Spec BusyPanic_Proofs BusyPanic_Proofs2.

(** ** FoldWith *)
(** Panics apart, what happens is what happens without any, up to the panic: each
    goroutine pulls and calls in turn, in the order of its segment.  A goroutine
    whose panic ends the process was in pull or in the callback. *)
Theorem C82_fold_one_segment_in_turn :
  forall (T R : Type) p (segs : list (list T)) (init : R) h x, exec (fold_step p segs init) (finit, Up) h x ->
  exec (fstep p segs init) finit (plain h) x.1 /\
  forall i, runs init (default [] (segs !! i)) (own i (plain h)) /\ (Boom i ∈ h -> in_a_call (own i (plain h))).
Proof.
  intros T R p segs init h x E. apply fold_cut in E. destruct E as [E _ _ Bo _ _]. split; [done|]. intros i.
  split; [by eapply C79_fold_one_segment_in_turn|]. intros Hi. apply Bo in Hi as (_ & _ & _ & w & Hw & Ew).
  destruct (finv_exec p segs init _ _ E) as (got & taken & I). destruct (fi_some _ _ _ _ _ _ _ I i w Hw) as (l & _ & Si). by eapply sits_in_a_call.
Qed.
Print Assumptions C82_fold_one_segment_in_turn.

(** A panic in a goroutine is the last thing that happens, whatever the others are doing *)
Theorem C82_fold_panic_is_last :
  forall (T R : Type) p (segs : list (list T)) (init : R) h x i, exec (fold_step p segs init) (finit, Up) h x -> Boom i ∈ h ->
  last h = Some (Boom i) /\ forall e y, ~ fold_step p segs init x e y.
Proof.
  intros T R p segs init h x i E Hi. apply fold_cut in E. destruct E as [E _ _ Bo _ _]. apply Bo in Hi as (D & L & _). split; [done|].
  destruct x as [x st]. cbn in D. subst st. intros e y. apply down_stuck.
Qed.
Print Assumptions C82_fold_panic_is_last.

(** A value is returned only if [p] goroutines have been through their segments,
    every call answered, and the caller's calls of the combiner were answered *)
Theorem C82_fold_value :
  forall (T R : Type) p (segs : list (list T)) (init : R) h x v, exec (fold_step p segs init) (finit, Up) h x -> Ev (Return v) ∈ h ->
  Throws ∉ h /\
  exists got : list (nat * R), NoDup got.*1 /\ length got = p /\
    (forall i r, (i, r) ∈ got -> exists l, segs !! i = Some l /\ completes init l (own i (plain h)) r) /\
    combines init got.*2 (by_caller (plain h)) v.
Proof.
  intros T R p segs init h x v E Hv. apply fold_cut in E. destruct E as [E _ _ _ _ Th]. apply plain_in in Hv. split; [|by eapply C79_fold_value].
  intros Ht. apply Th in Ht as (n & a & r & M). destruct (finv_exec p segs init _ _ E) as (got & taken & I). apply (fi_ret _ _ _ _ _ _ _ I) in Hv. congruence.
Qed.
Print Assumptions C82_fold_value.

(** With as many segments as the parallelism says nothing has panicked when
    FoldWith returns, and nothing can panic afterwards *)
Theorem C82_fold_returns_last :
  forall (T R : Type) p (segs : list (list T)) (init : R) h x v, length segs = p ->
  exec (fold_step p segs init) (finit, Up) h x -> Ev (Return v) ∈ h ->
  (forall i l, segs !! i = Some l -> exists r, completes init l (own i (plain h)) r) /\
  Throws ∉ h /\ (forall i, Boom i ∉ h) /\ last h = Some (Ev (Return v)) /\ forall e y, ~ fold_step p segs init x e y.
Proof.
  intros T R p segs init h x v L E Hv. destruct (C82_fold_value _ _ _ _ _ _ _ _ E Hv) as [Nt _].
  assert (Q : forall h x, exec (fold_step p segs init) (finit, Up) h x -> Ev (Return v) ∈ h ->
    (forall i w, fws x.1 !! i = Some w -> w = WDone) /\ fm x.1 = FReturned v /\ forall e y, ~ fold_step p segs init x e y).
  { clear -L. intros h x E Hv. destruct (C82_fold_value _ _ _ _ _ _ _ _ E Hv) as [Nt _]. apply fold_cut in E as C. destruct C as [C _ Le _ _ _]. apply plain_in in Hv.
    destruct (finv_exec p segs init _ _ C) as (got & taken & I). pose proof (proj1 (fi_ret _ _ _ _ _ _ _ I _) Hv) as M.
    destruct (all_done _ _ _ _ _ _ _ _ I M L) as (D & _). splits; [done|done|]. intros e y St. destruct x as [x st]. cbn in *.
    inversion St as [? o ? St1|? Ca|? o ? St1 K|? i ? In1 Nd]; subst.
    - eapply final_no_step; [exact D|by exists v|exact St1].
    - destruct Ca as (_ & n & a & r & M'). congruence.
    - by destruct (Le eq_refl).
    - destruct In1 as (_ & w & Hw & Ew). apply D in Hw. by subst w. }
  destruct (Q _ _ E Hv) as (D & M & F). apply fold_cut in E as C. destruct C as [C _ _ Bo _ _].
  assert (NB : forall i, Boom i ∉ h). { intros i Hi. apply Bo in Hi as (_ & _ & _ & w & Hw & Ew). apply D in Hw. by subst w. }
  splits; [|done|done| |done].
  - intros i l Hl. apply plain_in in Hv. destruct (C79_fold_returns_last _ _ _ _ _ _ _ _ L C Hv) as ((got & Pm & G & _) & _).
    assert (i ∈ got.*1) as Hi. { rewrite Pm. apply elem_of_seq. apply lookup_lt_Some in Hl. lia. }
    apply elem_of_list_fmap in Hi as ([j r] & -> & Hj). exists r. destruct (G _ _ Hj) as (l' & Hl' & Co). cbn in *. rewrite Hl in Hl'. by injection Hl' as <-.
  - remember (finit, Up) as x0 eqn:E0. clear C Bo D M F. destruct E as [c|c c1 h c2 E St|c c1 h e c2 E St]; subst c.
    + by apply elem_of_nil in Hv.
    + destruct (Q _ _ E Hv) as (_ & _ & F). by destruct (F _ _ St).
    + rewrite last_snoc. apply elem_of_app in Hv as [Hv|Hv%elem_of_list_singleton]; [|by rewrite Hv]. destruct (Q _ _ E Hv) as (_ & _ & F). by destruct (F _ _ St).
Qed.
Print Assumptions C82_fold_returns_last.

(** A panic of the combiner reaches the caller instead of a value; the results
    before it have been combined *)
Theorem C82_fold_combiner_panics :
  forall (T R : Type) p (segs : list (list T)) (init : R) h x, exec (fold_step p segs init) (finit, Up) h x -> Throws ∈ h ->
  (forall v, Ev (Return v) ∉ h) /\
  exists got i r es a, NoDup (got ++ [(i, r)]).*1 /\ length got < p /\
    (forall j b, (j, b) ∈ got ++ [(i, r)] -> exists l, segs !! j = Some l /\ completes init l (own j (plain h)) b) /\
    combines init got.*2 es a /\ by_caller (plain h) = es ++ [Comb a r].
Proof.
  intros T R p segs init h x E Ht. split; [intros v Hv; by destruct (C82_fold_value _ _ _ _ _ _ _ _ E Hv) as [? _]|].
  apply fold_cut in E. destruct E as [E _ _ _ _ Th]. apply Th in Ht as (n & a & r & M). destruct (finv_exec p segs init _ _ E) as (got & taken & I).
  pose proof (fi_main _ _ _ _ _ _ _ I) as Mn. rewrite M in Mn. cbn in Mn. destruct Mn as (ts & es & -> & Eb & Ln & C & Lt).
  pose proof (fi_buf _ _ _ _ _ _ _ I) as B. rewrite <- app_assoc in B. cbn in B.
  pose proof (got_length _ _ _ _ _ _ _ I) as Lg. rewrite app_length in Lg. cbn in Lg.
  destruct (lookup_lt_is_Some_2 got n ltac:(lia)) as [[i r'] Hn].
  assert (Et : got.*2 !! n = Some r) by (rewrite B, lookup_app_r by lia; by replace (n - length ts) with 0 by lia).
  rewrite list_lookup_fmap, Hn in Et. cbn in Et. injection Et as ->.
  assert (Eg : take (n + 1) got = take n got ++ [(i, r)]) by (rewrite Nat.add_1_r; by apply take_S_r).
  exists (take n got), i, r, es, a. splits; [| | | |done].
  - rewrite <- Eg, fmap_take. pose proof (fi_nodup _ _ _ _ _ _ _ I) as N. rewrite <- (take_drop (n + 1) got.*1) in N. by apply NoDup_app in N as (? & _).
  - rewrite take_length. lia.
  - intros j b Hj. rewrite <- Eg in Hj. destruct (fi_got _ _ _ _ _ _ _ I j b) as [_ ?]; [|done]. rewrite <- (take_drop (n + 1) got). apply elem_of_app. by left.
  - assert ((take n got).*2 = ts) as ->; [|done]. rewrite fmap_take, B. by rewrite take_app_alt by done.
Qed.
Print Assumptions C82_fold_combiner_panics.

(** As long as the process runs, before the return and after a panic of the
    combiner, every goroutine that is not through can go on by itself, and one
    that runs a callback can end the process, whatever the others and the caller
    are doing *)
Theorem C82_fold_nobody_is_held_up :
  forall (T R : Type) p (segs : list (list T)) (init : R) h x i w, length segs = p ->
  exec (fold_step p segs init) (finit, Up) h x -> (forall j, Boom j ∉ h) -> fws x.1 !! i = Some w -> w <> WDone ->
  (exists e w' y, fold_step p segs init x e y /\ fws y.1 = <[i := w']> (fws x.1) /\ fm y.1 = fm x.1) /\
  (in_a_call (own i (plain h)) -> exists y, fold_step p segs init x (Some (Boom i)) y).
Proof.
  intros T R p segs init h x i w L E NB Hi N. apply fold_cut in E. destruct E as [E _ _ _ Dn _].
  assert (Nd : x.2 <> Down) by (intros D; destruct (Dn D) as [j Hj]; by destruct (NB j)).
  destruct (finv_exec p segs init _ _ E) as (got & taken & I). pose proof (f_not_dead _ _ _ _ _ L E) as D. split.
  - destruct (f_goes_on _ _ _ _ _ _ _ _ _ L I D Hi N) as (e & w' & y & St & Ey & Em). exists (option_map Ev e), w', (y, x.2).
    split; [|done]. destruct x as [x []]; cbn in *; [by apply ps_go|by apply ps_left|done].
  - intros Ca. exists (x.1, Down). destruct x as [x st]. apply ps_boom; [|done]. split; [done|]. exists w. split; [done|].
    destruct (fi_some _ _ _ _ _ _ _ I i w Hi) as (l & _ & Si). by eapply in_a_call_sits.
Qed.
Print Assumptions C82_fold_nobody_is_held_up.

(** If the callbacks all end or panic, every execution ends: with FoldWith
    returned, or the process ended, or the combiner's panic in the caller and all
    the goroutines through *)
Theorem C82_fold_ends :
  forall (T R : Type) p (segs : list (list T)) (init : R), 1 <= p -> length segs = p ->
  (exists bound, forall n x, nsteps (fun a b => exists e, fold_step p segs init a e b) n (finit, Up) x -> n <= bound) /\
  forall h x, exec (fold_step p segs init) (finit, Up) h x ->
    (exists e y, fold_step p segs init x e y) \/ (exists v, last h = Some (Ev (Return v))) \/ (exists i, last h = Some (Boom i)) \/
    (Throws ∈ h /\ forall i l, segs !! i = Some l -> exists r, completes init l (own i (plain h)) r).
Proof.
  intros T R p segs init P L. split; [eapply p_bound; intros x e y; apply fmu_step|]. intros h x E. apply fold_cut in E as C. destruct C as [C Cu Cl Bo Dn Th].
  destruct x as [x []]; cbn in *.
  - destruct (C79_fold_ends T R p segs init P L) as [_ Q]. destruct (Q _ _ C) as [(e & y & St)|(v & Lv)].
    + left. exists (option_map Ev e), (y, Up). by apply ps_go.
    + right; left. exists v. apply last_Some in Lv as (h0 & Lv). assert (Ev (Return v) ∈ h) as Hv. { apply plain_in. rewrite Lv. apply elem_of_app. right. by apply elem_of_list_singleton. }
      by eapply C82_fold_returns_last.
  - destruct (finv_exec p segs init _ _ C) as (got & taken & I). pose proof (f_not_dead _ _ _ _ _ L C) as D.
    destruct (Cl eq_refl) as [Ht _]. destruct (Th Ht) as (n & a & r & M).
    destruct (decide (Forall (fun w => Is_true (match w with WDone => true | _ => false end)) (fws x))) as [F|F].
    + right; right; right. split; [done|]. intros i l Hl. pose proof (fi_len _ _ _ _ _ _ _ I) as Ln. rewrite M in Ln. cbn in Ln.
      destruct (lookup_lt_is_Some_2 (fws x) i) as [w Hw]; [rewrite Ln; by eapply lookup_lt_Some|]. pose proof (Forall_lookup_1 _ _ _ _ F Hw) as W. destruct w; try done.
      destruct (fi_some _ _ _ _ _ _ _ I _ _ Hw) as (l' & Hl' & Co). rewrite Hl in Hl'. by injection Hl' as <-.
    + left. apply not_Forall_Exists in F; [|apply _]. apply Exists_exists in F as (w & Hw & N). apply elem_of_list_lookup in Hw as [i Hi].
      assert (w <> WDone) as N' by (intros ->; by apply N). destruct (f_goes_on _ _ _ _ _ _ _ _ _ L I D Hi N') as (e & w' & y & St & Ey & Em).
      exists (option_map Ev e), (y, Left). by apply ps_left.
  - right; right; left. destruct (Dn eq_refl) as [i Hi]. exists i. by apply Bo in Hi as (_ & ? & _).
Qed.
Print Assumptions C82_fold_ends.

(** with more segments than the parallelism says FoldWith can return while a
    callback runs, and that callback's panic end the process afterwards *)
Theorem C82_fold_returns_last_refuted :
  ~ (forall (segs : list (list Z)) p h x i v, 1 <= p -> p <= length segs -> exec (fold_step p segs 0%Z) (finit, Up) h x ->
       Ev (Return v) ∈ h -> Boom i ∉ h).
Proof.
  intros F.
  destruct (sched (fold_do 1 [[1%Z]; [2%Z]] 0%Z)
    [PGo FMain; PGo FMain; PGo FMain; PGo (FGo 0 Go1); PGo (FGo 0 Go1); PGo (FGo 0 Go1); PGo (FGo 0 (Ans 1%Z)); PGo (FGo 0 Go1); PGo (FGo 0 Go1); PGo (FSend 0);
     PGo (FGo 1 Go1); PGo (FGo 1 Go1); PGo (FGo 1 Go1); PGo FMain; PGo (FAns 1%Z); PGo FMain; PBoom 1]
    (finit, Up) []) as [[h x]|] eqn:E; [|by vm_compute in E].
  assert (Ex : exec (fold_step 1 [[1%Z]; [2%Z]] 0%Z) (finit, Up) h x) by (eapply sched_exec; [apply fold_do_step|apply exec_nil|exact E]).
  vm_compute in E. injection E as <- <-.
  apply (F [[1%Z]; [2%Z]] 1 _ _ 1 1%Z ltac:(done) ltac:(cbn; lia) Ex); apply elem_of_list_In; cbn; tauto.
Qed.
Print Assumptions C82_fold_returns_last_refuted.

(** and a panic of the combiner can leave a goroutine blocked for ever in its send *)
Theorem C82_fold_nobody_is_held_up_refuted :
  ~ (forall (segs : list (list Z)) p h x i w, 1 <= p -> p <= length segs -> exec (fold_step p segs 0%Z) (finit, Up) h x ->
       fws x.1 !! i = Some w -> w <> WDone -> exists e y, fold_step p segs 0%Z x e y).
Proof.
  intros F.
  destruct (sched (fold_do 1 [[] : list Z; []; []] 0%Z)
    [PGo FMain; PGo FMain; PGo FMain; PGo FMain; PGo (FGo 0 Go1); PGo (FGo 0 Go1); PGo (FSend 0); PGo FMain; PThrow;
     PGo (FGo 1 Go1); PGo (FGo 1 Go1); PGo (FSend 1); PGo (FGo 2 Go1); PGo (FGo 2 Go1)]
    (finit, Up) []) as [[h x]|] eqn:E; [|by vm_compute in E].
  assert (Ex : exec (fold_step 1 [[]; []; []] 0%Z) (finit, Up) h x) by (eapply sched_exec; [apply fold_do_step|apply exec_nil|exact E]).
  vm_compute in E. injection E as <- <-.
  destruct (F [[]; []; []] 1 _ _ 2 _ ltac:(done) ltac:(cbn; lia) Ex eq_refl ltac:(done)) as (e & y & St).
  inversion St as [|? Ca|x1 o y1 St1 K|x1 i st1 In1 Nd]; subst.
  - inversion St1; subst; cbn [fm fws fbuf] in *; try done.
    + destruct i as [|[|[|i]]]; cbn in *; try done; match goal with A : Some _ = Some ?w, B : wstep ?w _ _ |- _ => injection A as <-; inversion B end.
    + cbn in *. lia.
  - destruct In1 as (_ & w & Hw & Ew). destruct i as [|[|[|i]]]; cbn in *; try done; injection Hw as <-; done.
Qed.
Print Assumptions C82_fold_nobody_is_held_up_refuted.

(** ** Collect, any number of segments *)
Theorem C82_collect_one_segment_in_turn :
  forall (T : Type) (segs : list (list T)) h x, exec (collect_step segs) (cinit, Up) h x ->
  exec (cstep segs) cinit (plain h) x.1 /\
  (forall i, runs tt (default [] (segs !! i)) (cown i (plain h))) /\
  forall i, Boom i ∈ h -> in_a_call (cown i (plain h)) /\ last h = Some (Boom i) /\ forall e y, ~ collect_step segs x e y.
Proof.
  intros T segs h x E. apply collect_cut in E. destruct E as [E _ _ Bo _ _]. splits; [done|intros i; by eapply C79_collect_one_segment_in_turn|].
  intros i Hi. apply Bo in Hi as (D & Lh & w & Hw & Ew). splits; [|done|].
  - pose proof (cinv_exec segs _ _ E) as I. destruct (ci_some _ _ _ I i w Hw) as (l & _ & Si). by eapply sits_in_a_call.
  - destruct x as [x st]. cbn in D. subst st. intros e y. apply down_stuck.
Qed.
Print Assumptions C82_collect_one_segment_in_turn.

Theorem C82_collect_returns_last :
  forall (T : Type) (segs : list (list T)) h x, exec (collect_step segs) (cinit, Up) h x -> Ev CReturn ∈ h ->
  (forall i l, segs !! i = Some l -> completes tt l (cown i (plain h)) tt) /\
  (forall i, Boom i ∉ h) /\ last h = Some (Ev CReturn) /\ forall e y, ~ collect_step segs x e y.
Proof.
  intros T segs h x E Hv.
  assert (Q : forall h x, exec (collect_step segs) (cinit, Up) h x -> Ev CReturn ∈ h ->
    (forall i w, cws x.1 !! i = Some w -> w = WDone) /\ cm x.1 = CReturned /\ forall e y, ~ collect_step segs x e y).
  { clear. intros h x E Hv. apply collect_cut in E as C. destruct C as [C _ Le _ _ Th]. apply plain_in in Hv.
    pose proof (cinv_exec segs _ _ C) as I. pose proof (proj1 (ci_ret _ _ _ I) Hv) as M. pose proof (c_all_done _ _ _ I M) as D. splits; [done|done|].
    intros e y St. destruct x as [x st]. cbn in *. inversion St as [? o ? St1|? Ca|? o ? St1 K|? i ? In1 Nd]; subst.
    - by eapply c_no_step.
    - done.
    - by destruct (Le eq_refl) as [? _]; apply Th.
    - destruct In1 as (w & Hw & Ew). apply D in Hw. by subst w. }
  destruct (Q _ _ E Hv) as (D & M & F). apply collect_cut in E as C. destruct C as [C _ _ Bo _ _]. splits; [| | |done].
  - intros i l Hl. apply plain_in in Hv. by apply (C79_collect_returns_last _ _ _ _ C Hv).
  - intros i Hi. apply Bo in Hi as (_ & _ & w & Hw & Ew). apply D in Hw. by subst w.
  - remember (cinit, Up) as x0 eqn:E0. clear C Bo D M F. destruct E as [c|c c1 h c2 E St|c c1 h e c2 E St]; subst c.
    + by apply elem_of_nil in Hv.
    + destruct (Q _ _ E Hv) as (_ & _ & F). by destruct (F _ _ St).
    + rewrite last_snoc. apply elem_of_app in Hv as [Hv|Hv%elem_of_list_singleton]; [|by rewrite Hv]. destruct (Q _ _ E Hv) as (_ & _ & F). by destruct (F _ _ St).
Qed.
Print Assumptions C82_collect_returns_last.

(** executions end, returned or with the process ended; until then every goroutine
    that is not through can go on, and one that runs a callback can end the process *)
Theorem C82_collect_ends :
  forall (T : Type) (segs : list (list T)),
  (exists bound, forall n x, nsteps (fun a b => exists e, collect_step segs a e b) n (cinit, Up) x -> n <= bound) /\
  forall h x, exec (collect_step segs) (cinit, Up) h x -> Throws ∉ h /\
    ((exists i, last h = Some (Boom i)) \/
     (((exists e y, collect_step segs x e y) \/ last h = Some (Ev CReturn)) /\
      forall i w, cws x.1 !! i = Some w -> w <> WDone ->
        (exists e w' y, collect_step segs x e y /\ cws y.1 = <[i := w']> (cws x.1) /\ cm y.1 = cm x.1) /\
        (in_a_call (cown i (plain h)) -> exists y, collect_step segs x (Some (Boom i)) y))).
Proof.
  intros T segs. split; [eapply p_bound; intros x e y; apply cmu_step|]. intros h x E. apply collect_cut in E as C. destruct C as [C _ Cl Bo Dn Th].
  split; [done|]. destruct x as [x []]; cbn in *.
  - right. destruct (proj2 (C79_collect_ends T segs) _ _ C) as (Q & _). split.
    + destruct Q as [(e & y & St)|Lv].
      * left. exists (option_map Ev e), (y, Up). by apply ps_go.
      * right. apply last_Some in Lv as (h0 & Lv). assert (Ev CReturn ∈ h) as Hv. { apply plain_in. rewrite Lv. apply elem_of_app. right. by apply elem_of_list_singleton. }
        by eapply C82_collect_returns_last.
    + intros i w Hi N. split.
      * destruct (c_goes_on segs _ _ _ Hi N) as (e & w' & y & St & Ey & Em). exists (option_map Ev e), w', (y, Up). split; [by apply ps_go|done].
      * intros Ca. exists (x, Down). apply ps_boom; [|done]. exists w. split; [done|]. pose proof (cinv_exec segs _ _ C) as I.
        destruct (ci_some _ _ _ I i w Hi) as (l & _ & Si). by eapply in_a_call_sits.
  - destruct (Cl eq_refl) as [Ht _]. by destruct (Th Ht).
  - left. destruct (Dn eq_refl) as [i Hi]. exists i. by apply Bo in Hi as (_ & ? & _).
Qed.
Print Assumptions C82_collect_ends.

(** ** TryFold *)
Theorem C82_tryfold_one_segment_in_turn :
  forall (T : Type) (zero : T) p (segs : list (list T)) init h x, exec (tryfold_step zero p segs init) (tinit, Up) h x ->
  exec (tstep zero p segs init) tinit (plain h) x.1 /\
  (forall i, truns i init (default [] (segs !! i)) (town i (plain h))) /\
  forall i, Boom i ∈ h -> t_in_a_call i (town i (plain h)) /\ last h = Some (Boom i) /\ forall e y, ~ tryfold_step zero p segs init x e y.
Proof.
  intros T zero p segs init h x E. apply tryfold_cut in E. destruct E as [E _ _ Bo _ _]. splits; [done|intros i; by eapply C79_tryfold_one_segment_in_turn|].
  intros i Hi. apply Bo in Hi as (D & Lh & w & Hw & Ew). splits; [|done|].
  - destruct (tinv_exec zero p segs init _ _ E) as (got & taken & I). destruct (ti_some _ _ _ _ _ _ _ I i w Hw) as (l & _ & Si). by eapply tsits_in_a_call.
  - destruct x as [x st]. cbn in D. subst st. intros e y. apply down_stuck.
Qed.
Print Assumptions C82_tryfold_one_segment_in_turn.

(** true: no panic in the caller, and nothing has panicked in the [p] segments
    whose results were folded; with [p] segments nothing can panic afterwards *)
Theorem C82_tryfold_true :
  forall (T : Type) (zero : T) p (segs : list (list T)) init h x v, exec (tryfold_step zero p segs init) (tinit, Up) h x -> Ev (TReturn v true) ∈ h ->
  Throws ∉ h /\
  (exists got : list (nat * T), NoDup got.*1 /\ length got = p /\
    (forall i r, (i, r) ∈ got -> exists l, segs !! i = Some l /\ tcompletes i init l (town i (plain h)) r) /\
    tfolds init got.*2 (tby_caller (plain h)) v) /\
  (length segs = p -> (forall i, Boom i ∉ h) /\ last h = Some (Ev (TReturn v true)) /\ forall e y, ~ tryfold_step zero p segs init x e y).
Proof.
  intros T zero p segs init h x v.
  assert (Th0 : forall h x, exec (tryfold_step zero p segs init) (tinit, Up) h x -> Ev (TReturn v true) ∈ h -> tm x.1 = TReturned v true /\ Throws ∉ h).
  { clear. intros h x E Hv. apply tryfold_cut in E. destruct E as [E _ _ _ _ Th]. apply plain_in in Hv.
    destruct (tinv_exec zero p segs init _ _ E) as (got & taken & I). apply (ti_ret _ _ _ _ _ _ _ I) in Hv. split; [done|]. intros Ht. apply Th in Ht as (n & a & r & M). congruence. }
  intros E Hv. splits; [by apply (Th0 _ _ E Hv)| |].
  - apply tryfold_cut in E. apply plain_in in Hv. destruct E as [E _ _ _ _ _]. by apply (C79_tryfold_true _ _ _ _ _ _ _ _ E Hv).
  - intros L.
    assert (Q : forall h x, exec (tryfold_step zero p segs init) (tinit, Up) h x -> Ev (TReturn v true) ∈ h ->
      (forall i w, tws x.1 !! i = Some w -> w = TDone) /\ forall e y, ~ tryfold_step zero p segs init x e y).
    { clear -L Th0. intros h x E Hv. destruct (Th0 _ _ E Hv) as [M Nt]. apply tryfold_cut in E as C. destruct C as [C _ Le _ _ _]. apply plain_in in Hv.
      destruct (tinv_exec zero p segs init _ _ C) as (got & taken & I). destruct (t_all_done _ _ _ _ _ _ _ _ I M L) as (D & _). split; [done|].
      intros e y St. destruct x as [x st]. cbn in *. inversion St as [? o ? St1|? Ca|? o ? St1 K|? i ? In1 Nd]; subst.
      - eapply t_no_step; [exact D|by exists v, true|exact St1].
      - destruct Ca as (n & a & r & M'). congruence.
      - by destruct (Le eq_refl).
      - destruct In1 as (w & Hw & Ew). apply D in Hw. by subst w. }
    destruct (Q _ _ E Hv) as [D F]. splits; [| |done].
    + intros i Hi. apply tryfold_cut in E. destruct E as [_ _ _ Bo _ _]. apply Bo in Hi as (_ & _ & w & Hw & Ew). apply D in Hw. by subst w.
    + remember (tinit, Up) as x0 eqn:E0. clear D F. destruct E as [c|c c1 h c2 E St|c c1 h e c2 E St]; subst c.
      * by apply elem_of_nil in Hv.
      * destruct (Q _ _ E Hv) as (_ & F). by destruct (F _ _ St).
      * rewrite last_snoc. apply elem_of_app in Hv as [Hv|Hv%elem_of_list_singleton]; [|by rewrite Hv]. destruct (Q _ _ E Hv) as (_ & F). by destruct (F _ _ St).
Qed.
Print Assumptions C82_tryfold_true.

(** false: some call of f refused, and no panic has come before; afterwards each
    goroutine begins at most one more pull and one more call of f *)
Theorem C82_tryfold_false :
  forall (T : Type) (zero : T) p (segs : list (list T)) init h x v, exec (tryfold_step zero p segs init) (tinit, Up) h x -> last h = Some (Ev (TReturn v false)) ->
  Throws ∉ h /\ (forall i, Boom i ∉ h) /\
  ((exists i b, Ev (TRet i b false) ∈ h) /\ v = default zero (last (received (plain h))) \/ Ev (TFolded v false) ∈ h) /\
  forall h' y, exec (tryfold_step zero p segs init) x h' y -> forall i, count (begins_call i) (plain h') <= 1 /\ count (begins_pull i) (plain h') <= 1.
Proof.
  intros T zero p segs init h x v E Hl.
  assert (Hv : Ev (TReturn v false) ∈ h). { apply last_Some in Hl as [h0 ->]. apply elem_of_app. right. by apply elem_of_list_singleton. }
  apply tryfold_cut in E as C. destruct C as [C Cu Cl Bo Dn Th]. pose proof Hv as Hv'. apply plain_in in Hv'.
  destruct (tinv_exec zero p segs init _ _ C) as (got & taken & I). pose proof (proj1 (ti_ret _ _ _ _ _ _ _ I _ _) Hv') as M.
  assert (Lp : last (plain h) = Some (TReturn v false)). { apply last_Some in Hl as [h0 ->]. rewrite plain_app. cbn. apply last_snoc. }
  destruct (C79_tryfold_false _ _ _ _ _ _ _ _ C Lp) as [A B]. splits.
  - intros Ht. apply Th in Ht as (n & a & r & M'). congruence.
  - intros i Hi. apply Bo in Hi as (_ & Lh & _). congruence.
  - destruct A as [[(i & b & Hr) Ev1]|Hf]; [left; split; [|done]; exists i, b; by apply plain_in|right; by apply plain_in].
  - intros h' y E' i.
    assert (Q : exec (tstep zero p segs init) x.1 (plain h') y.1).
    { clear -E'. induction E' as [c|c c1 h c2 E IH St|c c1 h e c2 E IH St]; [constructor|..].
      - destruct c1 as [c1 st1], c2 as [c2 st2]. inversion St as [? o ? St1|? Ca|? o ? St1 K|? i ? In1 Nd]; subst; destruct o; try done; by eapply exec_silent.
      - rewrite plain_app. destruct c1 as [c1 st1], c2 as [c2 st2]. inversion St as [? o ? St1|? Ca|? o ? St1 K|? i ? In1 Nd]; subst; cbn; rewrite ?app_nil_r; try done; destruct o as [o|]; try done; match goal with A : _ = Some _ |- _ => injection A as <- end; cbn; by eapply exec_event. }
    by apply B with (y := y.1).
Qed.
Print Assumptions C82_tryfold_false.

(** a panic of f in the caller: no answer is returned, and unless some goroutine is
    refused the context is never cancelled: the others keep pulling and calling to
    the end of their segments *)
Theorem C82_tryfold_caller_panics :
  forall (T : Type) (zero : T) p (segs : list (list T)) init h x, exec (tryfold_step zero p segs init) (tinit, Up) h x -> Throws ∈ h ->
  (forall v ok, Ev (TReturn v ok) ∉ h) /\ (exists a r, last (tby_caller (plain h)) = Some (TFold a r)) /\
  (length segs = p -> (forall i b, Ev (TRet i b false) ∉ h) -> (forall i, Boom i ∉ h) ->
     (exists e y, tryfold_step zero p segs init x e y) \/ forall i l, segs !! i = Some l -> exists r, tcompletes i init l (town i (plain h)) r).
Proof.
  intros T zero p segs init h x E Ht. apply tryfold_cut in E. destruct E as [E Cu _ _ Dn Th]. destruct (Th Ht) as (n & a & r & M).
  destruct (tinv_exec zero p segs init _ _ E) as (got & taken & I). splits.
  - intros v ok Hv. apply plain_in in Hv. apply (ti_ret _ _ _ _ _ _ _ I) in Hv. congruence.
  - pose proof (ti_main _ _ _ _ _ _ _ I) as Mn. rewrite M in Mn. cbn in Mn. destruct Mn as (ts & es & _ & -> & _). exists a, r. apply last_snoc.
  - intros L Nr NB.
    assert (Cn : tcanc x.1 = false).
    { destruct (tcanc x.1) eqn:Cn; [|done]. destruct (ti_canc _ _ _ _ _ _ _ I Cn) as [(i & b & Hr)|(v & M' & _)]; [|congruence]. apply plain_in in Hr. by destruct (Nr i b). }
    destruct (decide (Forall (fun w => Is_true (match w with TDone => true | _ => false end)) (tws x.1))) as [F|F].
    + right. intros i l Hl. pose proof (ti_len _ _ _ _ _ _ _ I) as Ln. rewrite M in Ln. cbn in Ln.
      destruct (lookup_lt_is_Some_2 (tws x.1) i) as [w Hw]; [rewrite Ln; by eapply lookup_lt_Some|]. pose proof (Forall_lookup_1 _ _ _ _ F Hw) as W. destruct w; try done.
      destruct (ti_done _ _ _ _ _ _ _ I _ Hw) as [Hg|?]; [|congruence]. apply elem_of_list_fmap in Hg as ([j b] & -> & Hg). cbn in *.
      destruct (ti_got _ _ _ _ _ _ _ I _ _ Hg) as (_ & l' & Hl' & Co). exists b. rewrite Hl in Hl'. by injection Hl' as <-.
    + left. apply not_Forall_Exists in F; [|apply _]. apply Exists_exists in F as (w & Hw & N). apply elem_of_list_lookup in Hw as [i Hi].
      assert (w <> TDone) as N' by (intros ->; by apply N).
      assert (Lg : length got < length segs).
      { assert (Ni : i ∉ got.*1). { intros Hg. apply elem_of_list_fmap in Hg as ([j b] & -> & Hg). destruct (ti_got _ _ _ _ _ _ _ I _ _ Hg) as (D & _). cbn in Hi. congruence. }
        assert (Ln : S (length got.*1) <= length segs); [|rewrite fmap_length in Ln; lia].
        change (length (i :: got.*1) <= length segs). rewrite <- (seq_length (length segs) 0). apply submseteq_length, NoDup_submseteq.
        - constructor; [done|]. apply (ti_nodup _ _ _ _ _ _ _ I).
        - intros j [->|Hj]%elem_of_cons; apply elem_of_seq; split; try lia.
          + pose proof (ti_len _ _ _ _ _ _ _ I) as Ln. rewrite M in Ln. cbn in Ln. cbn. rewrite <- Ln. by eapply lookup_lt_Some.
          + cbn. by eapply tinv_lt. }
      pose proof (tgot_length _ _ _ _ _ _ _ I) as Lb.
      destruct (t_goes_on zero p segs init _ _ _ Hi N') as (e & w' & y & St & Ey & Em); [intros b _; lia|].
      destruct x as [x []]; cbn in *.
      * by destruct (Cu eq_refl _ Ht).
      * exists (option_map Ev e), (y, Left). by apply ps_left.
      * destruct (Dn eq_refl) as [j Hj]. by destruct (NB j).
Qed.
Print Assumptions C82_tryfold_caller_panics.

(** with at least [p] segments every execution in which the callbacks end or panic
    ends, with an answer or a panic *)
Theorem C82_tryfold_ends :
  forall (T : Type) (zero : T) p (segs : list (list T)) init, 1 <= p -> p <= length segs ->
  (exists bound, forall n x, nsteps (fun a b => exists e, tryfold_step zero p segs init a e b) n (tinit, Up) x -> n <= bound) /\
  forall h x, exec (tryfold_step zero p segs init) (tinit, Up) h x ->
    (exists e y, tryfold_step zero p segs init x e y) \/ (exists v ok, Ev (TReturn v ok) ∈ h) \/ Throws ∈ h \/ exists i, last h = Some (Boom i).
Proof.
  intros T zero p segs init P L. split; [eapply p_bound; intros x e y; apply tmeas_step|]. intros h x E. apply tryfold_cut in E as C. destruct C as [C Cu Cl Bo Dn Th].
  destruct x as [x []]; cbn in *.
  - destruct (C79_tryfold_ends T zero p segs init P L) as [_ Q]. destruct (Q _ _ C) as [(e & y & St)|(v & ok & Hv)].
    + left. exists (option_map Ev e), (y, Up). by apply ps_go.
    + right; left. exists v, ok. by apply plain_in.
  - right; right; left. by apply Cl.
  - right; right; right. destruct (Dn eq_refl) as [i Hi]. exists i. by apply Bo in Hi as (_ & ? & _).
Qed.
Print Assumptions C82_tryfold_ends.

(** a panic can end the process after TryFold has returned false *)
Theorem C82_tryfold_false_then_panic :
  exists h x i, exec (tryfold_step 0%Z 2 [[1]; [2]]%Z 0%Z) (tinit, Up) (h ++ [Boom i]) x /\ last h = Some (Ev (TReturn 0%Z false)).
Proof.
  destruct (sched (tryfold_do 0%Z 2 [[1]; [2]]%Z 0%Z)
    [PGo TMain; PGo TMain; PGo TMain; PGo (TGo 0); PGo (TGo 0); PGo (TGo 0); PGo (TGo 0); PGo (TGo 1); PGo (TGo 1); PGo (TGo 1); PGo (TGo 1); PGo (TAns 1 5%Z false); PGo (TGo 1);
     PGo TCanc; PBoom 0]
    (tinit, Up) []) as [[h x]|] eqn:E; [|by vm_compute in E].
  assert (Ex : exec (tryfold_step 0%Z 2 [[1]; [2]]%Z 0%Z) (tinit, Up) h x) by (eapply sched_exec; [apply tryfold_do_step|apply exec_nil|exact E]).
  vm_compute in E. injection E as <- <-.
  match type of Ex with exec _ _ ?h _ => let n := eval vm_compute in (length h - 1) in exists (take n h) end. eexists _, 0. split; [exact Ex|done].
Qed.
Print Assumptions C82_tryfold_false_then_panic.

(** ** The hypotheses are met *)
(** FoldWith: goroutine 0 is in f, for ever; goroutine 1 panics in it *)
Example bp_fold_boom : exists h x, exec (fold_step 2 [[1]; [2; 3]]%Z 0%Z) (finit, Up) h x /\ Boom 1 ∈ h /\
  own 0 (plain h) = [Pull; Pulled (Some 1%Z); Call 0%Z 1%Z] /\ length [[1]; [2; 3]]%Z = 2 /\
  own 1 (plain h) = [Pull; Pulled (Some 2%Z); Call 0%Z 2%Z; Ret 2%Z; Pull; Pulled (Some 3%Z); Call 2%Z 3%Z].
Proof.
  destruct (sched (fold_do 2 [[1]; [2; 3]]%Z 0%Z)
    [PGo FMain; PGo FMain; PGo (FGo 0 Go1); PGo FMain; PGo (FGo 0 Go1); PGo (FGo 0 Go1); PGo (FGo 1 Go1); PGo (FGo 1 Go1); PGo (FGo 1 Go1); PGo (FGo 1 (Ans 2%Z));
     PGo (FGo 1 Go1); PGo (FGo 1 Go1); PGo (FGo 1 Go1); PBoom 1]
    (finit, Up) []) as [[h x]|] eqn:E; [|by vm_compute in E].
  exists h, x. split; [eapply sched_exec; [apply fold_do_step|apply exec_nil|exact E]|]. vm_compute in E. injection E as <- <-. split; [|done].
  apply elem_of_list_In. cbn. tauto.
Qed.
(** the combiner panics on the second result, goroutine 0 having gone on meanwhile *)
Example bp_fold_throws : exists h x, exec (fold_step 2 [[1]; [2]]%Z 0%Z) (finit, Up) h x /\ Throws ∈ h /\
  by_caller (plain h) = [Comb 0 2; Combined 2; Comb 2 1]%Z.
Proof.
  destruct (sched (fold_do 2 [[1]; [2]]%Z 0%Z)
    [PGo FMain; PGo FMain; PGo FMain; PGo (FGo 1 Go1); PGo (FGo 1 Go1); PGo (FGo 1 Go1); PGo (FGo 1 (Ans 2%Z)); PGo (FGo 1 Go1); PGo (FGo 1 Go1); PGo (FSend 1);
     PGo FMain; PGo (FGo 0 Go1); PGo (FAns 2%Z); PGo (FGo 0 Go1); PGo (FGo 0 Go1); PGo (FGo 0 (Ans 1%Z)); PGo (FGo 0 Go1); PGo (FGo 0 Go1); PGo (FSend 0); PGo FMain; PThrow]
    (finit, Up) []) as [[h x]|] eqn:E; [|by vm_compute in E].
  exists h, x. split; [eapply sched_exec; [apply fold_do_step|apply exec_nil|exact E]|]. vm_compute in E. injection E as <- <-. split; [|done].
  apply elem_of_list_In. cbn. tauto.
Qed.
(** and on the first, while goroutine 0 is in f; goroutine 0 then ends the process *)
Example bp_fold_throws_boom : exists h x, exec (fold_step 2 [[1]; [2]]%Z 0%Z) (finit, Up) h x /\ Throws ∈ h /\ last h = Some (Boom 0).
Proof.
  destruct (sched (fold_do 2 [[1]; [2]]%Z 0%Z)
    [PGo FMain; PGo FMain; PGo FMain; PGo (FGo 1 Go1); PGo (FGo 1 Go1); PGo (FGo 1 Go1); PGo (FGo 1 (Ans 2%Z)); PGo (FGo 1 Go1); PGo (FGo 1 Go1); PGo (FSend 1);
     PGo FMain; PThrow; PGo (FGo 0 Go1); PGo (FGo 0 Go1); PGo (FGo 0 Go1); PBoom 0]
    (finit, Up) []) as [[h x]|] eqn:E; [|by vm_compute in E].
  exists h, x. split; [eapply sched_exec; [apply fold_do_step|apply exec_nil|exact E]|]. vm_compute in E. injection E as <- <-. split; [|done].
  apply elem_of_list_In. cbn. tauto.
Qed.
Example bp_fold_returns : exists h x, exec (fold_step 1 [[1]]%Z 0%Z) (finit, Up) h x /\ Ev (Return 1%Z) ∈ h /\ length [[1]]%Z = 1.
Proof.
  destruct (sched (fold_do 1 [[1]]%Z 0%Z)
    [PGo FMain; PGo FMain; PGo (FGo 0 Go1); PGo (FGo 0 Go1); PGo (FGo 0 Go1); PGo (FGo 0 (Ans 1%Z)); PGo (FGo 0 Go1); PGo (FGo 0 Go1); PGo (FSend 0);
     PGo FMain; PGo (FAns 1%Z); PGo FMain]
    (finit, Up) []) as [[h x]|] eqn:E; [|by vm_compute in E].
  exists h, x. split; [eapply sched_exec; [apply fold_do_step|apply exec_nil|exact E]|]. vm_compute in E. injection E as <- <-. split; [|done].
  apply elem_of_list_In. cbn. tauto.
Qed.
Example bp_collect : exists h x, exec (collect_step [[1]; [2]]%Z) (cinit, Up) h x /\ Ev CReturn ∈ h.
Proof.
  destruct (sched (collect_do [[1]; [2]]%Z)
    (PGo <$> [CMain; CMain; CMain; CGo1 0 Go1; CGo1 1 Go1; CGo1 0 Go1; CGo1 1 Go1; CGo1 0 Go1; CGo1 1 Go1; CGo1 1 (Ans tt); CGo1 0 (Ans tt);
     CGo1 0 Go1; CGo1 1 Go1; CGo1 0 Go1; CGo1 1 Go1; CEnd 1; CEnd 0; CMain])
    (cinit, Up) []) as [[h x]|] eqn:E; [|by vm_compute in E].
  exists h, x. split; [eapply sched_exec; [apply collect_do_step|apply exec_nil|exact E]|]. vm_compute in E. injection E as <- <-.
  apply elem_of_list_In. cbn. tauto.
Qed.
Example bp_collect_boom : exists h x, exec (collect_step [[1]; [2]]%Z) (cinit, Up) h x /\ last h = Some (Boom 1) /\ cown 0 (plain h) = [Pull; Pulled (Some 1%Z); Call tt 1%Z].
Proof.
  destruct (sched (collect_do [[1]; [2]]%Z)
    [PGo CMain; PGo CMain; PGo CMain; PGo (CGo1 0 Go1); PGo (CGo1 1 Go1); PGo (CGo1 0 Go1); PGo (CGo1 0 Go1); PBoom 1]
    (cinit, Up) []) as [[h x]|] eqn:E; [|by vm_compute in E].
  exists h, x. split; [eapply sched_exec; [apply collect_do_step|apply exec_nil|exact E]|]. vm_compute in E. injection E as <- <-. done.
Qed.
(** TryFold: f panics in the caller while goroutine 1 is in f *)
Example bp_tryfold_throws : exists h x, exec (tryfold_step 0%Z 2 [[1]; [2]]%Z 0%Z) (tinit, Up) h x /\ Throws ∈ h /\
  length [[1]; [2]]%Z = 2 /\ last (town 1 (plain h)) = Some (TCall 1 0 2)%Z.
Proof.
  destruct (sched (tryfold_do 0%Z 2 [[1]; [2]]%Z 0%Z)
    [PGo TMain; PGo TMain; PGo TMain; PGo (TGo 0); PGo (TGo 0); PGo (TGo 0); PGo (TGo 0); PGo (TAns 0 1%Z true); PGo (TGo 0); PGo (TGo 0); PGo (TGo 0);
     PGo TMain; PGo (TGo 1); PThrow; PGo (TGo 1); PGo (TGo 1); PGo (TGo 1)]
    (tinit, Up) []) as [[h x]|] eqn:E; [|by vm_compute in E].
  exists h, x. split; [eapply sched_exec; [apply tryfold_do_step|apply exec_nil|exact E]|]. vm_compute in E. injection E as <- <-. split; [|done].
  apply elem_of_list_In. cbn. tauto.
Qed.
Example bp_tryfold_true : exists h x, exec (tryfold_step 0%Z 1 [[4]]%Z 0%Z) (tinit, Up) h x /\ last h = Some (Ev (TReturn 4%Z true)).
Proof.
  destruct (sched (tryfold_do 0%Z 1 [[4]]%Z 0%Z) (PGo <$> [TMain; TMain; TGo 0; TGo 0; TGo 0; TGo 0; TAns 0 4%Z true; TGo 0; TGo 0; TGo 0; TMain; TAnsM 4%Z true; TMain])
    (tinit, Up) []) as [[h x]|] eqn:E; [|by vm_compute in E].
  exists h, x. split; [eapply sched_exec; [apply tryfold_do_step|apply exec_nil|exact E]|]. vm_compute in E. injection E as <- <-. done.
Qed.
