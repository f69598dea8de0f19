(** C81: a delay queue made with a nil comparator. *)
From Verif Require Import Base PQ_Model PQ_Spec PQ_Proofs DelayQueue_Model DelayQueue_Spec DelayQueue_Proofs DelayQueue_Proofs2 DelayQueue_Proofs3 DQPanic_Model DQPanic_Spec DQPanic_Proofs DQPanic_Props NilDQ_Model NilDQ_Spec.

Lemma nstep_pstep {T} zero expi dummy (x : sys T) l y : nstep zero expi dummy x l y -> pstep zero expi dummy x l y.
Proof. intros H. destruct H as [x l y H _|x t v d H]; [by apply ps_plain|by eapply ps_comp]. Qed.
Lemma nruns_preached {T} zero expi dummy size (x : sys T) :
  nreached zero expi dummy size everything x -> preached zero expi dummy size (exp_fine anything) x.
Proof.
  intros (q0 & E & H). exists q0. split; [done|]. eapply rtc_subrel; [|exact H]. intros a b (l & _ & S). exists l.
  split; [by destruct S|by apply nstep_pstep].
Qed.

(** no Push gets past the comparison, and it comes there having added its element *)
Definition calm {T} (x : sys T) : Prop :=
  forall t, pcs x t <> PuSend /\ pcs x t <> PuCas /\ (forall v, has_pushed (pcs x t) v -> Pushed v ∈ log x).
Lemma calm_upd {T} (x x' : sys T) t p : calm x -> pcs x' = pcs x -> (exists l, log x' = log x ++ l) ->
  p <> PuSend -> p <> PuCas -> (forall v, has_pushed p v -> Pushed v ∈ log x') -> calm (set_pc t p x').
Proof.
  intros C E (l & El) H1 H2 H3 u. cbn. rewrite E. destruct (decide (u = t)) as [->|N].
  - rewrite fn_lookup_insert. done.
  - rewrite fn_lookup_insert_ne by done. destruct (C u) as (A & B & D). split; [done|]. split; [done|]. intros v Hv.
    rewrite El. apply elem_of_app. left. by apply D.
Qed.
Lemma calm_step {T} zero expi dummy (x : sys T) l y : nstep zero expi dummy x l y -> calm x -> calm y.
Proof.
  intros H C. destruct H as [x l y H N|x t v d H].
  2:{ apply (calm_upd x x); try done. by exists []; rewrite app_nil_r. }
  destruct H as [x t c Hpc|x t p y H|x t u Hs Hr|x t Hc|x n].
  - assert (G : calm (set_pc t (start_pc c) x)).
    { apply (calm_upd x x); try done; [by exists []; rewrite app_nil_r|by destruct c..]. }
    exact G.
  - inversion H; subst; cbn [pcs log] in *.
    5:{ exfalso. match goal with E : ?P t = PuComp _ _ |- _ => specialize (N _ _ _ E); cbn in N; rewrite fn_lookup_insert in N; by repeat case_match end. }
    5:{ exfalso. by destruct (C t) as (_ & B & _). }
    all: match goal with |- calm (set_pc ?t ?p ?x') => eapply (calm_upd _ x' t p C) end; cbn [pcs log]; try done;
      try (by exists []; rewrite app_nil_r); try (by eexists); try (by repeat case_match).
    + intros w ->. apply elem_of_app. right. by left.
    + destruct ok; [|done]. intros w ->. destruct (C t) as (_ & _ & D). cbn in D. apply D.
      match goal with E : _ t = PuPeek _ |- _ => by rewrite E end.
    + intros w ->. destruct (C t) as (_ & _ & D). cbn in D. apply D.
      match goal with E : _ t = PuUnlock _ _ |- _ => by rewrite E end.
  - exfalso. by destruct (C t).
  - exact C.
  - exact C.
Qed.
Lemma calm_runs {T} zero expi dummy ok (x y : sys T) : nruns zero expi dummy ok x y -> calm x -> calm y.
Proof. induction 1 as [|x y z (l & _ & H) _ IH]; [done|]. intros C. apply IH. by eapply calm_step. Qed.
Lemma calm_reached {T} zero expi dummy size ok (x : sys T) : nreached zero expi dummy size ok x -> calm x.
Proof. intros (q0 & E & H). eapply calm_runs; [exact H|]. by intros t. Qed.

(** C81, delay queue: nothing is delivered early, lost or duplicated (as in C77) *)
Theorem C81_delay_queue_without_comparator_is_safe {T} zero expi dummy size (x : sys T) :
  nreached zero expi dummy size everything x ->
  (forall t v reading rest, Taken t v reading rest ∈ log x ->
     (expi v <= reading)%Z /\ (forall w, w ∈ rest -> (expi v <= expi w)%Z)) /\
  pushed (log x) ≡ₚ queued x ++ taken (log x) /\
  (forall t, taken_by t (log x) = settled_by t (log x) ++ in_hand (pcs x t)) /\
  (forall t, pcs x t <> Crashed).
Proof. intros H. by apply (C77_panicking_comparators_lose_nothing zero expi dummy size x), nruns_preached. Qed.
Print Assumptions C81_delay_queue_without_comparator_is_safe.

(** C81, delay queue: a Push ends in a panic and in no other way, and when it does its
    element has been added *)
Theorem C81_delay_queue_pushes_always_panic {T} zero expi dummy size (x : sys T) l y t :
  nreached zero expi dummy size everything x -> nstep zero expi dummy x l y ->
  (pushing (pcs x t) -> ~ pushing (pcs y t) -> l = CompPanics t) /\
  (l = CompPanics t -> exists v, Pushed v ∈ log x /\ log y = log x /\ queued y = queued x /\ pcs y t = Idle /\ exists d, pcs x t = PuComp v d).
Proof.
  intros HR HS. pose proof (calm_reached _ _ _ _ _ _ HR) as C. split.
  - intros Hpu N. assert (G : l = CompPanics t \/ pcs y t = Crashed); [|destruct G as [->|G]; [done|exfalso]].
    2:{ refine (proj2 (proj2 (proj2 (C81_delay_queue_without_comparator_is_safe zero expi dummy size y _))) t G).
        destruct HR as (q0 & E & HR). exists q0. split; [done|]. eapply rtc_r; [exact HR|]. by exists l. }
    destruct HS as [x l y H K|x u v d H].
    2:{ left. cbn in N. destruct (decide (u = t)) as [->|]; [done|]. by rewrite fn_lookup_insert_ne in N. }
    right. destruct H as [x u c Hpc|x u p y H|x u w Hs Hr|x u Hc|x n].
    + cbn in N. destruct (decide (t = u)) as [->|]; [by rewrite Hpc in Hpu|]. by rewrite fn_lookup_insert_ne in N.
    + destruct (decide (t = u)) as [->|D].
      2:{ exfalso. apply N. cbn. rewrite fn_lookup_insert_ne by done. by inversion H; subst. }
      assert (B : pcs x u <> PuCas) by apply C.
      inversion H; subst; cbn [pcs set_pc] in *;
        match goal with E : ?f u = _ |- _ => rewrite E in Hpu end; try done;
        rewrite fn_lookup_insert in *; try (by destruct N).
      * destruct ok; [by destruct N|done].
      * match goal with E : ?P u = PuComp _ _ |- _ => specialize (K _ _ _ E); cbn in K; rewrite fn_lookup_insert in K; by repeat case_match end.
    + by destruct (C u).
    + done.
    + done.
  - intros ->. inversion HS as [|? ? v d Hp]; subst. exists v. splits; try done.
    + destruct (C t) as (_ & _ & D). apply D. by rewrite Hp.
    + cbn. by rewrite fn_lookup_insert.
    + by exists d.
Qed.
Print Assumptions C81_delay_queue_pushes_always_panic.

(** C81, delay queue: nobody who sleeps is ever woken by a Push; a sleeper moves only
    when its timer has run out or its context is cancelled, so a Pop that found
    the queue empty sleeps for ever *)
Theorem C81_delay_queue_wakes_nobody {T} zero expi dummy size (x : sys T) t w :
  nreached zero expi dummy size everything x -> pcs x t = PoWait w ->
  (forall l y, nstep zero expi dummy x l y ->
     pcs y t = PoWait w \/ (exists dl, w = Some dl /\ (dl <= now x)%Z) \/ ctxs x t = Some true) /\
  (ctxs x t = None -> w = None -> forall y, nruns zero expi dummy everything x y -> pcs y t = PoWait None).
Proof.
  intros HR Hw.
  assert (One : forall (x : sys T) w l y, calm x -> pcs x t = PoWait w -> nstep zero expi dummy x l y ->
    (pcs y t = PoWait w /\ (ctxs x t = None -> ctxs y t = None)) \/ (exists dl, w = Some dl /\ (dl <= now x)%Z) \/ ctxs x t = Some true).
  { clear. intros x w l y C Hw HS. destruct HS as [x l y H K|x u v d H].
    2:{ left. cbn. destruct (decide (u = t)) as [->|]; [by rewrite H in Hw|]. by rewrite fn_lookup_insert_ne. }
    destruct H as [x u c Hpc|x u p y H|x u z Hs Hr|x u Hc|x n].
    - left. cbn. destruct (decide (u = t)) as [->|]; [by rewrite Hpc in Hw|]. by rewrite !fn_lookup_insert_ne.
    - destruct (decide (u = t)) as [->|D].
      + inversion H; subst; cbn [pcs ctxs now] in *;
          match goal with E : ?f t = _ |- _ => rewrite E in Hw end; try done; simplify_eq; eauto.
      + left. cbn. rewrite fn_lookup_insert_ne by done. by inversion H; subst.
    - by destruct (C u).
    - left. cbn. split; [done|]. intros E. rewrite fn_lookup_insert_ne; [done|]. intros ->. congruence.
    - left. done. }
  pose proof (calm_reached _ _ _ _ _ _ HR) as C. split.
  - intros l y HS. destruct (One _ _ _ _ C Hw HS) as [[A _]|[A|A]]; auto.
  - intros Hc -> y Hy. clear HR. revert C Hw Hc. induction Hy as [x|x z y (l & _ & HS) _ IH]; [done|]. intros C Hw Hc.
    destruct (One _ _ _ _ C Hw HS) as [[A B]|[(? & ? & ?)|A]]; [|done|congruence].
    apply IH; [by eapply calm_step|done|auto].
Qed.
Print Assumptions C81_delay_queue_wakes_nobody.

Local Definition q4 : queue (Z * Z) := match start_q 0%Z 4 with Ok q => q | _ => Queue [] 0 end.
Local Ltac clean := cbv [set_pc set_ctx set_now q holder sleeping now ctxs pcs log start start_pc start_ctx].
Local Ltac kept := intros ? ? ?; clean; cbv [insert fn_insert]; repeat case_match; done.
Local Tactic Notation "pcall" constr(t) constr(c) :=
  eapply rtc_l; [exists (Plain (LCall t c)); split; [done|apply ns_plain; [apply s_call; reflexivity|kept]]|]; clean.
Local Tactic Notation "pclock" constr(n) := eapply rtc_l; [exists (Plain LEnv); split; [done|apply ns_plain; [apply (s_clock _ _ _ _ n)|kept]]|]; clean.
Local Tactic Notation "pgo" constr(u) uconstr(c) :=
  eapply rtc_l; [exists (Plain LRun); split; [done|]; apply ns_plain; [eapply (s_run _ _ _ _ u); eapply c; first [reflexivity|discriminate|lia]|kept]|]; clean.
(** the hypotheses are met: a Pop sleeps on the empty queue, then an expired element
    is pushed (that Push panics): the element is there and the Pop sleeps for ever *)
Example C81_delay_queue_sleeper :
  exists x, nreached 0%Z id Zcomp 4 everything x /\ pcs x 0 = PoWait None /\ ctxs x 0 = None /\ queued x = [5%Z] /\ now x = 10%Z /\ pcs x 1 = Idle.
Proof.
  eexists. split; [exists q4; split; [reflexivity|]|].
  - clean. pclock 10%Z. pcall 0 (@CPop Z). pgo 0 t_po_lock. pgo 0 t_po_peek. pgo 0 t_po_unlock. pgo 0 t_po_store.
    pcall 1 (CPush 5%Z). pgo 1 t_pu_lock. pgo 1 t_pu_push. pgo 1 t_pu_peek. pgo 1 t_pu_unlock.
    eapply rtc_l; [exists (CompPanics 1); split; [done|by eapply ns_comp]|]; clean. apply rtc_refl.
  - by splits.
Qed.
