(** Property theorems for parallel folds whose callbacks take time (C79). *)
From Verif Require Import Base Lin_Spec Busy_Model Busy_Spec Busy_Proofs Busy_Proofs2 Busy_Proofs3 Busy_Proofs4.

(** ** FoldWith *)
(** Each goroutine pulls and calls in turn, one thing at a time, in the order of
    its segment, the first call getting the initial value and every other the
    answer of the one before, whatever the callbacks answer and however long
    they take *)
Theorem C79_fold_one_segment_in_turn :
  forall (T R : Type) p (segs : list (list T)) (init : R) h x, exec (fstep p segs init) finit h x ->
  forall i, runs init (default [] (segs !! i)) (own i h).
Proof.
  intros T R p segs init h x E i. destruct (finv_exec p segs init _ _ E) as (got & taken & I).
  destruct (fws x !! i) as [w|] eqn:Hi; [|rewrite (fi_none _ _ _ _ _ _ _ I i Hi); constructor].
  destruct (fi_some _ _ _ _ _ _ _ I i w Hi) as (l & -> & S). cbn. by eapply sits_runs.
Qed.
Print Assumptions C79_fold_one_segment_in_turn.

(** A value returned by FoldWith comes from [p] goroutines that are through: the
    caller has combined their results, one after the other *)
Theorem C79_fold_value :
  forall (T R : Type) p (segs : list (list T)) (init : R) h x v, exec (fstep p segs init) finit h x -> Return v ∈ h ->
  exists got : list (nat * R), NoDup got.*1 /\ length got = p /\
    (forall i r, (i, r) ∈ got -> exists l, segs !! i = Some l /\ completes init l (own i h) r) /\
    combines init got.*2 (by_caller h) v.
Proof.
  intros T R p segs init h x v E Hv. destruct (finv_exec p segs init _ _ E) as (got & taken & I).
  apply (fi_ret _ _ _ _ _ _ _ I) in Hv. pose proof (fi_main _ _ _ _ _ _ _ I) as M. rewrite Hv in M. destruct M as [L C].
  pose proof (got_length _ _ _ _ _ _ _ I) as Lg. exists (take p got). splits.
  - rewrite fmap_take. pose proof (fi_nodup _ _ _ _ _ _ _ I) as N. rewrite <- (take_drop p got.*1) in N. by apply NoDup_app in N as (? & _).
  - rewrite take_length. lia.
  - intros i r Hi. destruct (fi_got _ _ _ _ _ _ _ I i r) as [_ ?]; [|done]. rewrite <- (take_drop p got). apply elem_of_app. by left.
  - assert ((take p got).*2 = taken) as ->; [|done]. rewrite fmap_take, (fi_buf _ _ _ _ _ _ _ I). rewrite take_app_alt by done. done.
Qed.
Print Assumptions C79_fold_value.

(** With as many segments as the parallelism says the return is the last event:
    every goroutine is through, so a callback that does not end keeps FoldWith
    from returning, and no callback runs afterwards *)
Theorem C79_fold_returns_last :
  forall (T R : Type) p (segs : list (list T)) (init : R) h x v, length segs = p ->
  exec (fstep p segs init) finit h x -> Return v ∈ h ->
  (exists got : list (nat * R), got.*1 ≡ₚ seq 0 p /\
    (forall i r, (i, r) ∈ got -> exists l, segs !! i = Some l /\ completes init l (own i h) r) /\
    combines init got.*2 (by_caller h) v) /\
  last h = Some (Return v) /\ forall e y, ~ fstep p segs init x e y.
Proof.
  intros T R p segs init h x v L E Hv.
  assert (Fin : forall h x, exec (fstep p segs init) finit h x -> Return v ∈ h -> forall e y, ~ fstep p segs init x e y).
  { intros h' x' E' Hv'. destruct (finv_exec p segs init _ _ E') as (got & taken & I). pose proof (proj1 (fi_ret _ _ _ _ _ _ _ I _) Hv') as M.
    destruct (all_done _ _ _ _ _ _ _ _ I M L) as (D & _). intros e y. apply final_no_step; [done|by exists v]. }
  splits; [| |by eapply Fin].
  - destruct (finv_exec p segs init _ _ E) as (got & taken & I). pose proof (proj1 (fi_ret _ _ _ _ _ _ _ I _) Hv) as M.
    destruct (all_done _ _ _ _ _ _ _ _ I M L) as (D & _ & Pm & C). exists got. splits; [done| |done]. intros i r Hi. by destruct (fi_got _ _ _ _ _ _ _ I i r Hi).
  - remember finit as x0 eqn:E0. destruct E as [c|c c1 h c2 E St|c c1 h e c2 E St]; subst c.
    + by apply elem_of_nil in Hv.
    + by destruct (Fin _ _ E Hv _ _ St).
    + rewrite last_snoc. apply elem_of_app in Hv as [Hv|Hv%elem_of_list_singleton]; [by destruct (Fin _ _ E Hv _ _ St)|by rewrite Hv].
Qed.
Print Assumptions C79_fold_returns_last.

(** A callback that takes long, or for ever, holds up its own goroutine only:
    every goroutine that is not through can go on by itself *)
Theorem C79_fold_nobody_is_held_up :
  forall (T R : Type) p (segs : list (list T)) (init : R) h x i w, length segs = p ->
  exec (fstep p segs init) finit h x -> fws x !! i = Some w -> w <> WDone ->
  exists e w' y, fstep p segs init x e y /\ fws y = <[i := w']> (fws x) /\ fm y = fm x.
Proof.
  intros T R p segs init h x i w L E Hi N. destruct (finv_exec p segs init _ _ E) as (got & taken & I). eapply f_goes_on; try done. by eapply f_not_dead.
Qed.
Print Assumptions C79_fold_nobody_is_held_up.

(** If the callbacks all end, so does every execution, with FoldWith returned:
    executions are bounded, and one that cannot go on has returned *)
Theorem C79_fold_ends :
  forall (T R : Type) p (segs : list (list T)) (init : R), 1 <= p -> length segs = p ->
  (exists bound, forall n x, nsteps (fun a b => exists e, fstep p segs init a e b) n finit x -> n <= bound) /\
  forall h x, exec (fstep p segs init) finit h x -> (exists e y, fstep p segs init x e y) \/ exists v, last h = Some (Return v).
Proof.
  intros T R p segs init P L. split; [apply f_bound|]. intros h x E. destruct (f_progress p segs init _ _ P L E) as [[a M]|?]; [right|by left].
  exists a. destruct (finv_exec p segs init _ _ E) as (got & taken & I). apply (fi_ret _ _ _ _ _ _ _ I) in M. by eapply C79_fold_returns_last.
Qed.
Print Assumptions C79_fold_ends.

(** The callbacks have to be safe to run at the same time, on the one initial
    value: all the goroutines can be inside their first call at once, each with
    [init] itself (not a copy) as accumulator *)
Theorem C79_fold_calls_overlap :
  forall (T R : Type) p (segs : list (list T)) (init : R), Forall (fun l => l <> []) segs ->
  exists h x, exec (fstep p segs init) finit h x /\
    forall i y l, segs !! i = Some (y :: l) -> own i h = [Pull; Pulled (Some y); Call init y].
Proof.
  intros T R p segs init Ne.
  assert (A : forall k, k <= length segs -> exec (fstep p segs init) finit [] (FState (FSpawn k) ((fun l => WAt l init) <$> take k segs) [] false false)).
  { induction k as [|k IH]; intros L; [constructor|]. destruct (lookup_lt_is_Some_2 segs k ltac:(lia)) as [l Hl].
    eapply exec_silent; [apply IH; lia|]. rewrite (take_S_r _ _ _ Hl), fmap_app. cbn [fmap list_fmap]. rewrite <- Nat.add_1_r. by apply f_spawn. }
  specialize (A (length segs) ltac:(done)). rewrite firstn_all in A.
  assert (B : forall k, k <= length segs -> exists h ws, exec (fstep p segs init) finit h (FState (FSpawn (length segs)) ws [] false false) /\
     (forall i y l, segs !! i = Some (y :: l) -> i < k -> own i h = [Pull; Pulled (Some y); Call init y]) /\
     (forall i l, segs !! i = Some l -> k <= i -> own i h = [] /\ ws !! i = Some (WAt l init))).
  { induction k as [|k IH]; intros L.
    - exists [], ((fun l => WAt l init) <$> segs). split; [done|]. split; [intros; lia|]. intros i l Hl _. split; [done|]. by rewrite list_lookup_fmap, Hl.
    - destruct IH as (h & ws & E & P1 & P2); [lia|]. destruct (lookup_lt_is_Some_2 segs k ltac:(lia)) as [[|y l] Hl].
      { rewrite Forall_lookup in Ne. by destruct (Ne _ _ Hl). }
      destruct (P2 _ _ Hl ltac:(lia)) as [O W]. pose proof (lookup_lt_Some _ _ _ W) as Lw.
      exists (((h ++ [Go k Pull]) ++ [Go k (Pulled (Some y))]) ++ [Go k (Call init y)]), (<[k := WBusy y l init]> (<[k := WHave y l init]> (<[k := WIn (y :: l) init]> ws))).
      split.
      { eapply exec_event; [eapply exec_event; [eapply exec_event; [exact E|]|]|].
        - eapply f_work; [exact W|constructor].
        - eapply f_work; [apply list_lookup_insert; done|constructor].
        - eapply f_work; [apply list_lookup_insert; by rewrite insert_length|constructor]. }
      unfold own in *. split; intros i.
      + intros y' l' Hi Li. rewrite !omap_app. cbn. destruct (decide (k = i)) as [<-|N]; [|rewrite !app_nil_r; apply (P1 i y' l'); [done|lia]].
        rewrite O. rewrite Hl in Hi. by injection Hi as -> ->.
      + intros l' Hi Li. rewrite !omap_app. cbn. destruct (decide (k = i)) as [<-|N]; [lia|]. rewrite !app_nil_r, !list_lookup_insert_ne by done. apply P2; [done|lia]. }
  destruct (B (length segs) ltac:(done)) as (h & ws & E & P1 & _). eexists h, _. split; [exact E|]. intros i y l Hi. apply (P1 i y l); [done|]. by eapply lookup_lt_Some.
Qed.
Print Assumptions C79_fold_calls_overlap.

(** With more segments than the parallelism (C12, C13: when it does not divide
    the length) FoldWith can return while callbacks run, and they go on after it *)
Theorem C79_fold_returns_last_refuted :
  ~ (forall (segs : list (list Z)) p h x v, 1 <= p -> p <= length segs -> exec (fstep p segs 0%Z) finit h x -> Return v ∈ h ->
       Forall (fun w => ~ executing w) (fws x)).
Proof.
  intros F.
  destruct (sched (fdo 1 [[1%Z]; [2%Z]] 0%Z)
    [FMain; FMain; FMain; FGo 0 Go1; FGo 0 Go1; FGo 0 Go1; FGo 0 (Ans 1%Z); FGo 0 Go1; FGo 0 Go1; FSend 0; FMain; FAns 1%Z; FMain; FGo 1 Go1]
    finit []) as [[h x]|] eqn:E; [|by vm_compute in E].
  assert (Ex : exec (fstep 1 [[1%Z]; [2%Z]] 0%Z) finit h x) by (eapply sched_exec; [apply fdo_step|apply exec_nil|exact E]).
  vm_compute in E. injection E as <- <-.
  specialize (F [[1%Z]; [2%Z]] 1 _ _ 1%Z ltac:(done) ltac:(cbn; lia) Ex). cbn [fws] in F. apply Forall_cons in F as [_ F]; [apply Forall_cons in F as [F _]; by apply F|].
  apply elem_of_list_In. cbn. tauto.
Qed.
Print Assumptions C79_fold_returns_last_refuted.

(** ** Collect, any number of segments *)
Theorem C79_collect_one_segment_in_turn :
  forall (T : Type) (segs : list (list T)) h x, exec (cstep segs) cinit h x ->
  forall i, runs tt (default [] (segs !! i)) (cown i h).
Proof.
  intros T segs h x E i. pose proof (cinv_exec segs _ _ E) as I.
  destruct (cws x !! i) as [w|] eqn:Hi; [|rewrite (ci_none _ _ _ I i Hi); constructor].
  destruct (ci_some _ _ _ I i w Hi) as (l & -> & S). cbn. by eapply sits_runs.
Qed.
Print Assumptions C79_collect_one_segment_in_turn.

Theorem C79_collect_returns_last :
  forall (T : Type) (segs : list (list T)) h x, exec (cstep segs) cinit h x -> CReturn ∈ h ->
  (forall i l, segs !! i = Some l -> completes tt l (cown i h) tt) /\
  last h = Some CReturn /\ forall e y, ~ cstep segs x e y.
Proof.
  intros T segs h x E Hv.
  assert (Fin : forall h x, exec (cstep segs) cinit h x -> CReturn ∈ h -> forall e y, ~ cstep segs x e y).
  { intros h' x' E' Hv'. pose proof (cinv_exec segs _ _ E') as I. pose proof (proj1 (ci_ret _ _ _ I) Hv') as M.
    intros e y. apply c_no_step; [by eapply c_all_done|done]. }
  splits; [| |by eapply Fin].
  - pose proof (cinv_exec segs _ _ E) as I. pose proof (proj1 (ci_ret _ _ _ I) Hv) as M. intros i l Hl.
    pose proof (ci_len _ _ _ I) as Ln. rewrite M in Ln. cbn in Ln. pose proof (lookup_lt_Some _ _ _ Hl) as Ll.
    destruct (lookup_lt_is_Some_2 (cws x) i ltac:(lia)) as [w Hw]. pose proof (c_all_done _ _ _ I M _ _ Hw) as ->.
    destruct (ci_some _ _ _ I _ _ Hw) as (l' & E1 & [] & C). congruence.
  - remember cinit as x0 eqn:E0. destruct E as [c|c c1 h c2 E St|c c1 h e c2 E St]; subst c.
    + by apply elem_of_nil in Hv.
    + by destruct (Fin _ _ E Hv _ _ St).
    + rewrite last_snoc. apply elem_of_app in Hv as [Hv|Hv%elem_of_list_singleton]; [by destruct (Fin _ _ E Hv _ _ St)|by rewrite Hv].
Qed.
Print Assumptions C79_collect_returns_last.

Theorem C79_collect_ends :
  forall (T : Type) (segs : list (list T)),
  (exists bound, forall n x, nsteps (fun a b => exists e, cstep segs a e b) n cinit x -> n <= bound) /\
  forall h x, exec (cstep segs) cinit h x ->
    ((exists e y, cstep segs x e y) \/ last h = Some CReturn) /\
    forall i w, cws x !! i = Some w -> w <> WDone -> exists e w' y, cstep segs x e y /\ cws y = <[i := w']> (cws x) /\ cm y = cm x.
Proof.
  intros T segs. split; [apply c_bound|]. intros h x E. split; [|intros i w Hi N; by eapply c_goes_on].
  destruct (c_progress segs _ _ E) as [M|?]; [right|by left]. pose proof (cinv_exec segs _ _ E) as I. apply (ci_ret _ _ _ I) in M. by eapply C79_collect_returns_last.
Qed.
Print Assumptions C79_collect_ends.

(** ** TryFold *)
Theorem C79_tryfold_one_segment_in_turn :
  forall (T : Type) (zero : T) p (segs : list (list T)) init h x, exec (tstep zero p segs init) tinit h x ->
  forall i, truns i init (default [] (segs !! i)) (town i h).
Proof.
  intros T zero p segs init h x E i. destruct (tinv_exec zero p segs init _ _ E) as (got & taken & I).
  destruct (tws x !! i) as [w|] eqn:Hi; [|rewrite (ti_none _ _ _ _ _ _ _ I i Hi); constructor].
  destruct (ti_some _ _ _ _ _ _ _ I i w Hi) as (l & -> & S). cbn. by eapply tsits_runs.
Qed.
Print Assumptions C79_tryfold_one_segment_in_turn.

(** true with a value: from [p] goroutines that are through, folded by the caller
    without a refusal.  With [p] segments nothing happens afterwards. *)
Theorem C79_tryfold_true :
  forall (T : Type) (zero : T) p (segs : list (list T)) init h x v, exec (tstep zero p segs init) tinit h x -> TReturn v true ∈ h ->
  (exists got : list (nat * T), NoDup got.*1 /\ length got = p /\
    (forall i r, (i, r) ∈ got -> exists l, segs !! i = Some l /\ tcompletes i init l (town i h) r) /\
    tfolds init got.*2 (tby_caller h) v) /\
  (length segs = p -> last h = Some (TReturn v true) /\ forall e y, ~ tstep zero p segs init x e y).
Proof.
  intros T zero p segs init h x v E Hv. split.
  - destruct (tinv_exec zero p segs init _ _ E) as (got & taken & I).
    apply (ti_ret _ _ _ _ _ _ _ I) in Hv. pose proof (ti_main _ _ _ _ _ _ _ I) as M. rewrite Hv in M. destruct M as [L C].
    pose proof (tgot_length _ _ _ _ _ _ _ I) as Lg. exists (take p got). splits.
    + rewrite fmap_take. pose proof (ti_nodup _ _ _ _ _ _ _ I) as N. rewrite <- (take_drop p got.*1) in N. by apply NoDup_app in N as (? & _).
    + rewrite take_length. lia.
    + intros i r Hi. destruct (ti_got _ _ _ _ _ _ _ I i r) as [_ ?]; [|done]. rewrite <- (take_drop p got). apply elem_of_app. by left.
    + assert ((take p got).*2 = taken) as ->; [|done]. rewrite fmap_take, (ti_buf _ _ _ _ _ _ _ I). rewrite take_app_alt by done. done.
  - intros L.
    assert (Fin : forall h x, exec (tstep zero p segs init) tinit h x -> TReturn v true ∈ h -> forall e y, ~ tstep zero p segs init x e y).
    { intros h' x' E' Hv'. destruct (tinv_exec zero p segs init _ _ E') as (got & taken & I). pose proof (proj1 (ti_ret _ _ _ _ _ _ _ I _ _) Hv') as M.
      destruct (t_all_done _ _ _ _ _ _ _ _ I M L) as (D & _). intros e y. apply t_no_step; [done|by exists v, true]. }
    split; [|by eapply Fin]. remember tinit as x0 eqn:E0. destruct E as [c|c c1 h c2 E St|c c1 h e c2 E St]; subst c.
    + by apply elem_of_nil in Hv.
    + by destruct (Fin _ _ E Hv _ _ St).
    + rewrite last_snoc. apply elem_of_app in Hv as [Hv|Hv%elem_of_list_singleton]; [by destruct (Fin _ _ E Hv _ _ St)|by rewrite Hv].
Qed.
Print Assumptions C79_tryfold_true.

(** false: some call of f, by a goroutine or by the caller, refused; the value is
    the answer of the refusing call if the caller made it, otherwise the result
    received last (the zero value if none).  Goroutines may still be running, and
    after the return each begins at most one more pull and at most one more call
    of f *)
Theorem C79_tryfold_false :
  forall (T : Type) (zero : T) p (segs : list (list T)) init h x v, exec (tstep zero p segs init) tinit h x -> last h = Some (TReturn v false) ->
  ((exists i b, TRet i b false ∈ h) /\ v = default zero (last (received h)) \/ TFolded v false ∈ h) /\
  forall h' y, exec (tstep zero p segs init) x h' y -> forall i, count (begins_call i) h' <= 1 /\ count (begins_pull i) h' <= 1.
Proof.
  intros T zero p segs init h x v E Hl. apply last_Some in Hl as [h0 ->].
  assert (Hv : TReturn v false ∈ h0 ++ [TReturn v false]) by (apply elem_of_app; right; by apply elem_of_list_singleton).
  destruct (tinv_exec zero p segs init _ _ E) as (got & taken & I). apply (ti_ret _ _ _ _ _ _ _ I) in Hv. pose proof (ti_false _ _ _ _ _ _ _ I _ Hv) as C. split.
  - by apply (answers zero p segs init _ _ E v Hv).
  - intros h' y E' i. destruct (given_up zero p segs init i _ _ _ _ _ Hv C E') as (_ & _ & A & B). unfold more_calls, more_pulls in A, B.
    destruct (tws x !! i) as [[]|]; lia.
Qed.
Print Assumptions C79_tryfold_false.

(** A refusal by a goroutine gets through whatever the others are doing: as soon as
    the caller waits for results, cancel and return are possible without a step of
    any other goroutine, so callbacks that do not end do not hold TryFold up *)
Theorem C79_tryfold_gives_up :
  forall (T : Type) (zero : T) p (segs : list (list T)) init h x i b, exec (tstep zero p segs init) tinit h x -> TRet i b false ∈ h ->
  forall n a v, tm x = TRecv n a v -> n <> p ->
  exists y, exec (tstep zero p segs init) x [TReturn v false] y /\ forall j, j <> i -> tws y !! j = tws x !! j.
Proof.
  intros T zero p segs init h x i b E Hr n a v M N.
  assert (R : tws x !! i = Some TNo \/ tcanc x = true).
  { clear M N. remember tinit as x0. induction E as [c|c c1 h c2 E IH St|c c1 h e c2 E IH St]; subst.
    - by apply elem_of_nil in Hr.
    - specialize (IH eq_refl Hr). inversion St; subst; cbn [tws tcanc] in *; try (by auto).
      all: destruct IH as [IH|IH]; [|by auto].
      + left. by apply lookup_app_l_Some.
      + destruct (decide (i = i0)) as [<-|Ne]; [congruence|left; by rewrite list_lookup_insert_ne].
      + destruct (decide (i = i0)) as [<-|Ne]; [congruence|left; by rewrite list_lookup_insert_ne].
    - apply elem_of_app in Hr as [Hr|<-%elem_of_list_singleton].
      + specialize (IH eq_refl Hr). inversion St; subst; cbn [tws tcanc] in *; try (by auto).
        all: destruct IH as [IH|IH]; [|by auto].
        all: destruct (decide (i = i0)) as [<-|Ne]; [congruence|left; by rewrite list_lookup_insert_ne].
      + left. inversion St; subst; cbn [tws]. rewrite list_lookup_insert; [done|by eapply lookup_lt_Some]. }
  destruct x as [m ws bf cn]; cbn [tm tws tcanc] in *. subst m. destruct cn.
  - exists (TState (TReturned v false) ws bf true). split; [|done]. eapply (exec_event _ _ _ []); [apply exec_nil|by apply t_cancelled].
  - destruct R as [R|?]; [|done]. exists (TState (TReturned v false) (<[i := TDone]> ws) bf true). split.
    { eapply (exec_event _ _ _ []); [eapply exec_silent; [apply exec_nil|by apply (t_cancel _ _ _ _ _ _ _ _ i)]|by apply t_cancelled]. }
    intros j Nj. cbn. by rewrite list_lookup_insert_ne.
Qed.
Print Assumptions C79_tryfold_gives_up.

Theorem C79_tryfold_ends :
  forall (T : Type) (zero : T) p (segs : list (list T)) init, 1 <= p -> p <= length segs ->
  (exists bound, forall n x, nsteps (fun a b => exists e, tstep zero p segs init a e b) n tinit x -> n <= bound) /\
  forall h x, exec (tstep zero p segs init) tinit h x -> (exists e y, tstep zero p segs init x e y) \/ exists v ok, TReturn v ok ∈ h.
Proof.
  intros T zero p segs init P L. split; [apply t_bound|]. intros h x E. destruct (t_progress zero p segs init _ _ P L E) as [(a & ok & M)|?]; [right|by left].
  exists a, ok. destruct (tinv_exec zero p segs init _ _ E) as (got & taken & I). by apply (ti_ret _ _ _ _ _ _ _ I) in M.
Qed.
Print Assumptions C79_tryfold_ends.

(** ** The hypotheses are met *)
(** a run of FoldWith with two segments in which both goroutines are in f at once
    and the second segment's result comes first *)
Example busy_fold : exists h x, exec (fstep 2 [[1; 2]; [3]]%Z 0%Z) finit h x /\ last h = Some (Return 6%Z) /\ length [[1; 2]; [3]]%Z = 2 /\
  by_caller h = [Comb 0 3; Combined 3; Comb 3 3; Combined 6]%Z.
Proof.
  destruct (sched (fdo 2 [[1; 2]; [3]]%Z 0%Z)
    [FMain; FMain; FMain; FGo 0 Go1; FGo 1 Go1; FGo 0 Go1; FGo 1 Go1; FGo 0 Go1; FGo 1 Go1; FGo 1 (Ans 3%Z); FGo 1 Go1; FGo 1 Go1; FSend 1;
     FMain; FAns 3%Z; FGo 0 (Ans 1%Z); FGo 0 Go1; FGo 0 Go1; FGo 0 Go1; FGo 0 (Ans 3%Z); FGo 0 Go1; FGo 0 Go1; FSend 0; FMain; FAns 6%Z; FMain]
    finit []) as [[h x]|] eqn:E; [|by vm_compute in E].
  exists h, x. split; [eapply sched_exec; [apply fdo_step|apply exec_nil|exact E]|]. vm_compute in E. injection E as <- <-. done.
Qed.

(** more segments than parallelism: after the return of FoldWith a goroutine ends
    the process, in the callback's time *)
Example busy_fold_crash : exists h x, exec (fstep 1 [[1]; [2]]%Z 0%Z) finit h x /\
  exists h1 h2, h = h1 ++ Return 1%Z :: h2 ++ [Go 1 (Call 0 2)%Z; Go 1 (Ret 2%Z); Go 1 Pull; Go 1 (Pulled None); Crash 1].
Proof.
  destruct (sched (fdo 1 [[1]; [2]]%Z 0%Z)
    [FMain; FMain; FMain; FGo 0 Go1; FGo 0 Go1; FGo 0 Go1; FGo 0 (Ans 1%Z); FGo 0 Go1; FGo 0 Go1; FSend 0; FMain; FAns 1%Z; FMain;
     FGo 1 Go1; FGo 1 Go1; FGo 1 Go1; FGo 1 (Ans 2%Z); FGo 1 Go1; FGo 1 Go1; FSend 1]
    finit []) as [[h x]|] eqn:E; [|by vm_compute in E].
  exists h, x. split; [eapply sched_exec; [apply fdo_step|apply exec_nil|exact E]|]. vm_compute in E. injection E as <- <-.
  by exists (take 8 [Go 0 Pull; Go 0 (Pulled (Some 1)); Go 0 (Call 0 1); Go 0 (Ret 1); Go 0 Pull; Go 0 (Pulled None); Comb 0 1; Combined 1]%Z), [Go 1 Pull; Go 1 (Pulled (Some 2%Z))].
Qed.

(** Collect over two segments, the callbacks overlapping *)
Example busy_collect : exists h x, exec (cstep [[1]; [2]]%Z) cinit h x /\ last h = Some CReturn /\ cown 0 h = [Pull; Pulled (Some 1%Z); Call tt 1%Z; Ret tt; Pull; Pulled None].
Proof.
  destruct (sched (cdo [[1]; [2]]%Z)
    [CMain; CMain; CMain; CGo1 0 Go1; CGo1 1 Go1; CGo1 0 Go1; CGo1 1 Go1; CGo1 0 Go1; CGo1 1 Go1; CGo1 1 (Ans tt); CGo1 0 (Ans tt);
     CGo1 0 Go1; CGo1 1 Go1; CGo1 0 Go1; CGo1 1 Go1; CEnd 1; CEnd 0; CMain]
    cinit []) as [[h x]|] eqn:E; [|by vm_compute in E].
  exists h, x. split; [eapply sched_exec; [apply cdo_step|apply exec_nil|exact E]|]. vm_compute in E. injection E as <- <-. done.
Qed.

(** TryFold: goroutine 1 refuses its element while goroutine 0 is past its look at
    the context; false is returned, and f is called on another element after that *)
Example busy_tryfold : exists h h' x y, exec (tstep 0%Z 2 [[1; 5]; [2]]%Z 0%Z) tinit h x /\ last h = Some (TReturn 0%Z false) /\
  exec (tstep 0%Z 2 [[1; 5]; [2]]%Z 0%Z) x h' y /\ count (begins_call 0) h' = 1 /\ count (begins_pull 0) h' = 1.
Proof.
  destruct (sched (tdo 0%Z 2 [[1; 5]; [2]]%Z 0%Z)
    [TMain; TMain; TMain; TGo 0; TGo 1; TGo 0; TGo 1; TGo 0; TGo 1; TGo 1; TAns 1 7%Z false; TGo 1; TCanc]
    tinit []) as [[h x]|] eqn:E; [|by vm_compute in E].
  destruct (sched (tdo 0%Z 2 [[1; 5]; [2]]%Z 0%Z) [TGo 0; TAns 0 1%Z true; TGo 0; TGo 0; TGo 0] x []) as [[h' y]|] eqn:E'.
  2: { vm_compute in E. injection E as <- <-. by vm_compute in E'. }
  exists h, h', x, y. split; [eapply sched_exec; [apply tdo_step|apply exec_nil|exact E]|].
  assert (Ex : exec (tstep 0%Z 2 [[1; 5]; [2]]%Z 0%Z) x h' y) by (eapply sched_exec; [apply tdo_step|apply exec_nil|exact E']).
  vm_compute in E. injection E as <- <-. vm_compute in E'. injection E' as <- <-. done.
Qed.

(** TryFold that returns true *)
Example busy_tryfold_true : exists h x, exec (tstep 0%Z 1 [[4]]%Z 0%Z) tinit h x /\ last h = Some (TReturn 4%Z true).
Proof.
  destruct (sched (tdo 0%Z 1 [[4]]%Z 0%Z) [TMain; TMain; TGo 0; TGo 0; TGo 0; TGo 0; TAns 0 4%Z true; TGo 0; TGo 0; TGo 0; TMain; TAnsM 4%Z true; TMain]
    tinit []) as [[h x]|] eqn:E; [|by vm_compute in E].
  exists h, x. split; [eapply sched_exec; [apply tdo_step|apply exec_nil|exact E]|]. vm_compute in E. injection E as <- <-. done.
Qed.
