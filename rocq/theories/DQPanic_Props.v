(** C77: a delay queue whose callbacks panic. *)
From Verif Require Import Base PQ_Model PQ_Spec PQ_Proofs DelayQueue_Model DelayQueue_Spec DelayQueue_Proofs DelayQueue_Proofs2 DelayQueue_Proofs3 DQPanic_Model DQPanic_Spec DQPanic_Proofs.

(** Comparators that panic, at any calls: still nothing is delivered early or
    out of order (C31), nothing lost or duplicated, and nothing dereferences nil
    (C32). *)
Theorem C77_panicking_comparators_lose_nothing {T} zero expi comp size (x : sys T) :
  preached zero expi comp size (exp_fine anything) x ->
  (forall t v reading rest, Taken t v reading rest ∈ log x ->
     (expi v <= reading)%Z /\ (forall w, w ∈ rest -> (expi v <= expi w)%Z)) /\
  pushed (log x) ≡ₚ queued x ++ taken (log x) /\
  (forall t, taken_by t (log x) = settled_by t (log x) ++ in_hand (pcs x t)) /\
  (forall t, pcs x t <> Crashed).
Proof.
  intros (q0 & E & H). assert (I : Inv zero expi x) by (eapply pruns_inv; [exact H|done|by eapply start_inv]).
  split; [apply (i_early _ _ _ I)|]. split; [apply (i_perm _ _ _ I)|]. split; [apply (i_hand _ _ _ I)|].
  intros t Ht. pose proof (i_pc _ _ _ I t) as Hp. by rewrite Ht in Hp.
Qed.
Print Assumptions C77_panicking_comparators_lose_nothing.

(** the mutex is not affected either: whoever holds it can go on *)
Theorem C77_panicking_comparators_leave_the_lock {T} zero expi comp size (x : sys T) t :
  preached zero expi comp size (exp_fine anything) x -> holder x = Some t ->
  exists p y, tstep zero expi comp t x p y.
Proof.
  intros (q0 & E & H) Hh. assert (I : Inv zero expi x) by (eapply pruns_inv; [exact H|done|by eapply start_inv]).
  apply holder_runs; [done|]. by apply (i_mutex _ _ _ I).
Qed.
Print Assumptions C77_panicking_comparators_leave_the_lock.

(** one consumer: the handshake of C33 still works *)
Theorem C77_handshake_with_panicking_comparators {T} zero expi comp size c (x : sys T) :
  preached zero expi comp size (exp_fine (one_consumer c)) x ->
  (pcs x c = PoRecv -> exists! t, pcs x t = PuSend) /\
  (forall t, pcs x t = PuSend ->
     (exists y, step zero expi comp x LRun y /\ pcs y t = Idle) \/
     (exists y z, step zero expi comp x LRun y /\ step zero expi comp y LRun z /\ pcs z t = Idle)).
Proof.
  intros (q0 & E & H).
  assert (I : HS c x). { eapply pruns_hs; [exact H|by eapply start_inv|apply start_hs]. }
  split.
  - intros Hr. pose proof (h_ok _ _ I) as Ho. rewrite Hr in Ho. apply Ho.
  - intros t Ht. by eapply sender_served.
Qed.
Print Assumptions C77_handshake_with_panicking_comparators.

(** Expiration panics in a Push by goroutine t.  Whatever happens afterwards,
    with calls of any kind by any goroutines, that one included: the mutex stays
    locked, the queue keeps what it held, nothing is pushed, taken or polled any
    more, and every goroutine that waits for the mutex waits for ever. *)
Theorem C77_panicking_expiration_locks_the_queue_for_ever {T} zero expi comp size (x x' : sys T) t :
  preached zero expi comp size (exp_fine anything) x -> pstep zero expi comp x (ExpPanics t) x' ->
  forall y, pruns zero expi comp everything x' y ->
    holder y = Some t /\ queued y = queued x /\
    (exists l, log y = log x ++ l /\ Forall outside l) /\
    (forall u, wants_lock (pcs x' u) -> pcs y u = pcs x' u).
Proof.
  intros (q0 & E & H) HS y Hy. assert (I : Inv zero expi x) by (eapply pruns_inv; [exact H|done|by eapply start_inv]).
  inversion HS as [|? ? v Hv|]; subst.
  assert (Hh : holder x = Some t) by (apply (i_mutex _ _ _ I); by rewrite Hv).
  assert (J : locked t (q x) (log x) (pcs (set_pc t Idle x)) (set_pc t Idle x)).
  { unfold locked. cbn [set_pc holder q pcs log]. splits; try done.
    - intros u. destruct (decide (u = t)) as [->|Hu]; [by rewrite fn_lookup_insert|]. rewrite fn_lookup_insert_ne by done.
      destruct (in_cs (pcs x u)) eqn:Eu; [|done]. apply (i_mutex _ _ _ I) in Eu. congruence.
    - exists []. by rewrite app_nil_r. }
  destruct (locked_runs _ _ _ _ _ _ _ _ _ _ Hy J) as (A1 & A2 & _ & A4 & A5). splits; try done.
  unfold queued. by rewrite A2.
Qed.
Print Assumptions C77_panicking_expiration_locks_the_queue_for_ever.

(** such a call does not return: the goroutines waiting are those calls, and a
    call made later comes to wait too (Len alone takes no lock) *)
Theorem C77_later_calls_wait_for_ever {T} zero expi comp size (x x' y : sys T) t u c :
  preached zero expi comp size (exp_fine anything) x -> pstep zero expi comp x (ExpPanics t) x' ->
  pruns zero expi comp everything x' y -> pcs y u = Idle -> c <> CLen ->
  forall z, pruns zero expi comp everything (set_ctx u (start_ctx c) (set_pc u (start_pc c) y)) z -> pcs z u = start_pc c.
Proof.
  intros (q0 & E & H) HS Hy Hu Hc z Hz. assert (I : Inv zero expi x) by (eapply pruns_inv; [exact H|done|by eapply start_inv]).
  inversion HS as [|? ? v Hv|]; subst.
  assert (Hh : holder x = Some t) by (apply (i_mutex _ _ _ I); by rewrite Hv).
  assert (J : locked t (q x) (log x) (fun _ => Idle) (set_pc t Idle x)).
  { unfold locked. cbn [set_pc holder q pcs log]. splits; try done.
    - intros w. destruct (decide (w = t)) as [->|Hw]; [by rewrite fn_lookup_insert|]. rewrite fn_lookup_insert_ne by done.
      destruct (in_cs (pcs x w)) eqn:Eu; [|done]. apply (i_mutex _ _ _ I) in Eu. congruence.
    - exists []. by rewrite app_nil_r. }
  destruct (locked_runs _ _ _ _ _ _ _ _ _ _ Hy J) as (A1 & A2 & A3 & A4 & _).
  set (y' := set_ctx u (start_ctx c) (set_pc u (start_pc c) y)) in *.
  assert (J2 : locked t (q x) (log x) (fun w => if decide (w = u) then start_pc c else Idle) y').
  { unfold locked. subst y'. cbn [set_ctx set_pc holder q pcs log]. splits; try done.
    - intros w. destruct (decide (w = u)) as [->|Hw]; [rewrite fn_lookup_insert; by destruct c|]. by rewrite fn_lookup_insert_ne.
    - intros w Hw. destruct (decide (w = u)) as [->|]; [by rewrite fn_lookup_insert|done]. }
  destruct (locked_runs _ _ _ _ _ _ _ _ _ _ Hz J2) as (_ & _ & _ & _ & A5). specialize (A5 u). rewrite decide_True in A5 by done.
  apply A5. by destruct c.
Qed.
Print Assumptions C77_later_calls_wait_for_ever.

(** concrete executions: integers that are their own expiration *)
Local Definition q4 : queue (Z * Z) := match start_q 0%Z 4 with Ok q => q | _ => Queue [] 0 end.
Local Ltac clean := cbv [set_pc set_ctx set_now q holder sleeping now ctxs pcs log start start_pc start_ctx].
Local Tactic Notation "pcall" constr(t) constr(c) :=
  eapply rtc_l; [exists (Plain (LCall t c)); split; [done|apply ps_plain, s_call; reflexivity]|]; clean.
Local Tactic Notation "pclock" constr(n) := eapply rtc_l; [exists (Plain LEnv); split; [done|apply ps_plain, (s_clock _ _ _ _ n)]|]; clean.
Local Tactic Notation "pgo" constr(u) uconstr(c) :=
  eapply rtc_l; [exists (Plain LRun); split; [done|]; apply ps_plain; eapply (s_run _ _ _ _ u); eapply c; first [reflexivity|discriminate|lia]|]; clean.

(** The consumer sleeps on the empty queue.  An element that has expired is
    pushed and the comparator of that Push panics: the element is in the queue,
    the consumer is not woken, neither then nor by any Push of a later element. *)
Theorem C77_panicking_comparator_loses_the_wakeup_refuted :
  exists x, preached 0%Z id Zcomp 4 (exp_fine (one_consumer 0)) x /\ pcs x 0 = PoWait None /\ queued x = [5%Z] /\ now x = 10%Z /\
    sleeping x = true /\ (forall t, t <> 0 -> pcs x t = Idle) /\
    forall y, runs 0%Z id Zcomp (pushes_only (fun v => 5 < v)%Z) x y -> pcs y 0 = PoWait None /\ 5%Z ∈ queued y.
Proof.
  assert (exists x, preached 0%Z id Zcomp 4 (exp_fine (one_consumer 0)) x /\ lost 0 5 x /\ pcs x 0 = PoWait None /\ queued x = [5%Z] /\ now x = 10%Z
    /\ sleeping x = true /\ (forall t, t <> 0 -> pcs x t = Idle))
    as (x & Hx & Hl & H1 & H2 & H3 & H4 & H5).
  { eexists. split; [exists q4; split; [reflexivity|]|].
    - clean. pclock 10%Z. pcall 0 (@CPop Z). pgo 0 t_po_lock. pgo 0 t_po_peek. pgo 0 t_po_unlock. pgo 0 t_po_store.
      pcall 1 (CPush 5%Z). pgo 1 t_pu_lock. pgo 1 t_pu_push. pgo 1 t_pu_peek. pgo 1 t_pu_unlock.
      eapply rtc_l; [exists (CompPanics 1); split; [done|by eapply ps_comp]|]; clean. apply rtc_refl.
    - split; [split; [done|split; [done|split]]|].
      + split; vm_compute; [constructor|]. intros w Hw. inversion Hw as [|? ? ? Hw']; subst; [done|inversion Hw'].
      + intros [|[|t]] Ht; done.
      + split; [done|]. split; [by vm_compute|]. split; [done|]. split; [done|]. intros [|[|t]] Ht; done. }
  exists x. do 6 (split; [done|]). intros y Hy.
  destruct (lost_runs 0 5 x y Hy) as (Hw & _ & [He _] & _); [|done|done].
  destruct Hx as (q0 & E & H). eapply pruns_inv; [exact H|done|by eapply start_inv].
Qed.
Print Assumptions C77_panicking_comparator_loses_the_wakeup_refuted.

(** the hypotheses of the theorems on Expiration are met: one element queued, a
    consumer waiting for the mutex, a Push in Expiration *)
Example C77_expiration_panics :
  exists x x', preached 0%Z id Zcomp 4 (exp_fine anything) x /\ pstep 0%Z id Zcomp x (ExpPanics 1) x' /\
    queued x = [5%Z] /\ pcs x' 0 = PoLock /\ wants_lock (pcs x' 0) /\ pcs x' 1 = Idle.
Proof.
  eexists _, _. split; [exists q4; split; [reflexivity|]|].
  - clean. pcall 1 (CPush 5%Z). pgo 1 t_pu_lock. pgo 1 t_pu_push. pgo 1 t_pu_peek. pgo 1 t_pu_unlock. pgo 1 t_pu_comp. pgo 1 t_pu_cas.
    pcall 0 (@CPop Z). pcall 1 (CPush 7%Z). pgo 1 t_pu_lock. apply rtc_refl.
  - split; [by eapply ps_exp|]. split; [by vm_compute|]. done.
Qed.
