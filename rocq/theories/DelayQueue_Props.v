(** Properties C31-C34 of collections/delayqueue. *)
From Verif Require Import Base PQ_Model PQ_Spec PQ_Proofs DelayQueue_Model DelayQueue_Spec DelayQueue_Proofs DelayQueue_Proofs2 DelayQueue_Proofs3 DelayQueue_Proofs4.

(** [zero]: Go's zero value; [expi]: Expiration(); [comp]: the comparator given to
    NewDelayQueue (used by Push only to decide whether to signal).
    [reached size ok x]: x is reachable from NewDelayQueue(comp, size) by calls satisfying [ok]. *)
Definition reached {T} (zero : T) (expi : T -> Z) (comp : T -> T -> Z) (size : Z) (ok : label T -> Prop) (x : sys T) : Prop :=
  exists q0, start_q zero size = Ok q0 /\ runs zero expi comp ok (start q0) x.

Lemma reached_inv {T} zero expi comp size ok (x : sys T) : reached zero expi comp size ok x -> Inv zero expi x.
Proof. intros (q0 & E & H). eapply runs_inv; [exact H|]. by eapply start_inv. Qed.

(** C31: whoever removes an element read a clock at or after its expiration,
    and nothing left behind expires strictly earlier *)
Theorem C31_never_early {T} zero expi comp size (x : sys T) :
  reached zero expi comp size anything x ->
  forall t v reading rest, Taken t v reading rest ∈ log x ->
    (expi v <= reading)%Z /\ (forall w, w ∈ rest -> (expi v <= expi w)%Z).
Proof. intros H. apply (i_early _ _ _ (reached_inv _ _ _ _ _ _ H)). Qed.

(** C31: the reading and the rest recorded in the log are the real ones: the
    clock reading was made by this Pop under the lock, with this head *)
Theorem C31_reading_is_real {T} zero expi comp t (x : sys T) p y :
  tstep zero expi comp t x p y ->
  (forall d rd, p = PoPop d rd -> rd = now x /\ holder x = holder y /\ q y = q x) /\
  (forall v rd rest, log y = log x ++ [Taken t v rd rest] -> rest = queued y /\ exists d, pcs x t = PoPop d rd /\ v = d.1).
Proof.
  intros H. split.
  - intros d rd ->. inversion H; subst; simpl in *; repeat case_match; simplify_eq; done.
  - intros v rd rest. inversion H; subst; simpl; intros E;
      try (by apply (f_equal length) in E; rewrite app_length in E; simpl in E; lia);
      apply app_inv_head in E; simplify_eq. split; [done|]. by eexists.
Qed.

(** C31: a Pop called while the lock is free and the earliest element has
    expired, if not disturbed, returns an earliest element *)
Theorem C31_pop_delivers {T} zero expi comp size (x : sys T) t :
  reached zero expi comp size anything x -> holder x = None -> pcs x t = Idle ->
  (exists e, e ∈ queued x /\ (expi e <= now x)%Z) ->
  exists y v, runs zero expi comp (just_pop t) x y /\ pcs y t = Idle /\ earliest expi v (queued x) /\
    queued x ≡ₚ v :: queued y /\ log y = log x ++ [Taken t v (now x) (queued y); Returned t v].
Proof. intros H. apply pop_solo. by eapply reached_inv. Qed.

(** C31: if instead nothing has expired it sleeps, for ever if the queue is empty
    and otherwise until the earliest expiration; if the clock then reaches it and
    nothing else happened, the Pop returns an earliest element *)
Theorem C31_pop_sleeps_until_expiration {T} zero expi comp size (x : sys T) t :
  reached zero expi comp size anything x -> holder x = None -> pcs x t = Idle ->
  (forall e, e ∈ queued x -> (now x < expi e)%Z) ->
  exists y w, runs zero expi comp (just_pop t) x y /\ pcs y t = PoWait w /\ queued y = queued x /\ log y = log x /\ now y = now x /\
  match w with
  | None => queued x = []
  | Some dl => (exists e, earliest expi e (queued x) /\ dl = expi e) /\
      forall n, (dl <= n)%Z -> exists z v, runs zero expi comp (just_pop t) (set_now n y) z /\ pcs z t = Idle /\
        earliest expi v (queued x) /\ queued x ≡ₚ v :: queued z /\ log z = log x ++ [Taken t v n (queued z); Returned t v]
  end.
Proof.
  intros H Hh Hi Hno. assert (I : Inv zero expi x) by (by eapply reached_inv).
  destruct (pop_sleeps zero expi comp x t I Hh Hi Hno) as (y & w & R & Hp & Hhy & Hs & Hc & Hq & HL & Hn & Hw).
  exists y, w. splits; try done. destruct w as [dl|]; [|done]. split; [done|]. intros n Hdl. rewrite <- Hq, <- HL.
  destruct Hw as (v & [Hv _] & ->). rewrite <- Hq in Hv.
  apply (sleeper_wakes zero expi comp y t (expi v) n); try done; [by eapply runs_inv|by rewrite Hc|by exists v].
Qed.
Print Assumptions C31_pop_sleeps_until_expiration.

(** C32: conservation.  Everything pushed is queued or was taken, exactly once;
    what goroutine t took it returned or dropped, in order, except the one it
    may still hold; nothing dereferences nil. *)
Theorem C32_conserved {T} zero expi comp size (x : sys T) :
  reached zero expi comp size anything x ->
  pushed (log x) ≡ₚ queued x ++ taken (log x) /\
  (forall t, taken_by t (log x) = settled_by t (log x) ++ in_hand (pcs x t)) /\
  (forall t, pcs x t <> Crashed).
Proof.
  intros H%reached_inv. split; [apply H|]. split; [apply H|]. intros t E. pose proof (i_pc _ _ _ H t) as Hp. by rewrite E in Hp.
Qed.

(** C32: without PopWithCtx nothing is dropped *)
Theorem C32_pop_drops_nothing {T} zero expi comp size (x : sys T) :
  reached zero expi comp size no_ctx x -> dropped (log x) = [].
Proof. intros (q0 & E & H). by apply (runs_noctx _ _ _ _ _ H). Qed.

(** C32: an element is dropped only by a call whose context is cancelled, and
    such a call returns no element *)
Theorem C32_dropped_iff_cancelled {T} zero expi comp (x : sys T) l y :
  step zero expi comp x l y ->
  (forall t v, log y = log x ++ [Dropped t v] -> ctxs x t = Some true) /\
  (forall t v, log y = log x ++ [Returned t v] -> ctxs x t <> Some true).
Proof.
  intros H. assert (N : forall e : ev T, log x <> log x ++ [e]).
  { intros e E. apply (f_equal length) in E. rewrite app_length in E. simpl in E. lia. }
  inversion H as [? ? ? ?|? t p y' Ht| | |]; subst; try (by split; intros ? ? E; simpl in E; exfalso; eapply N).
  inversion Ht; subst; simpl in *; split; intros u0 w0 E0; try (by exfalso; eapply N); apply app_inv_head in E0; simplify_eq; done.
Qed.

(** C33: every call goes on unless it waits at one of the places listed in
    [waits]; in particular whoever holds the mutex or an element never waits *)
Theorem C33_calls_wait_only_there {T} zero expi comp size (x : sys T) :
  reached zero expi comp size anything x ->
  forall t, pcs x t = Idle \/ (exists p y, tstep zero expi comp t x p y) \/ waits zero expi comp x t.
Proof. intros H t. apply runs_or_waits. by eapply reached_inv. Qed.

(** C33: one consumer.  When it waits for a promised signal exactly one pusher is
    about to send it, and every pusher about to signal is served within two steps *)
Theorem C33_handshake {T} zero expi comp size c (x : sys T) :
  reached zero expi comp size (one_consumer c) x ->
  (pcs x c = PoRecv -> exists! t, pcs x t = PuSend) /\
  (forall t, pcs x t = PuSend ->
     (exists y, step zero expi comp x LRun y /\ pcs y t = Idle) \/
     (exists y z, step zero expi comp x LRun y /\ step zero expi comp y LRun z /\ pcs z t = Idle)).
Proof.
  intros (q0 & E & H).
  assert (I : HS c x). { eapply runs_hs; [exact H|by eapply start_inv|apply start_hs]. }
  split.
  - intros Hr. pose proof (h_ok _ _ I) as Ho. rewrite Hr in Ho. apply Ho.
  - intros t Ht. by eapply sender_served.
Qed.

(** concrete executions: elements are integers, their own expiration *)
Notation Zreached := (reached 0%Z id Zcomp 4).
Notation Zruns := (runs 0%Z id Zcomp).
Notation Zrest := (pushes_only (T:=Z)).
Definition q0 : queue (Z * Z) := match start_q 0%Z 4 with Ok q => q | _ => Queue [] 0 end.

Ltac clean := cbv [set_pc set_ctx set_now q holder sleeping now ctxs pcs log start start_pc start_ctx].
Tactic Notation "call" constr(t) constr(c) :=
  eapply rtc_l; [exists (LCall t c); split; [done|apply s_call; reflexivity]|]; clean.
Tactic Notation "clock" constr(n) := eapply rtc_l; [exists LEnv; split; [done|apply (s_clock _ _ _ _ n)]|]; clean.
Tactic Notation "go" constr(u) uconstr(c) :=
  eapply rtc_l; [exists LRun; split; [done|]; eapply (s_run _ _ _ _ u); eapply c; first [reflexivity|discriminate|lia]|]; clean.

(** one Push of v by goroutine t, up to the point where it decides to signal *)
Tactic Notation "push" constr(t) constr(v) :=
  call t (CPush v); go t t_pu_lock; go t t_pu_push; go t t_pu_peek; go t t_pu_unlock; go t t_pu_comp.

(** C33: the lost wake-up.  One consumer, one push of an element that has already
    expired; the consumer waits for ever, whatever is pushed after it and
    whatever the clock does. *)
Theorem C33_lost_wakeup_refuted :
  exists x, Zreached (one_consumer 0) x /\ pcs x 0 = PoWait None /\ queued x = [5%Z] /\ now x = 10%Z /\
    forall y, Zruns (pushes_only (fun v => 5 < v)%Z) x y -> pcs y 0 = PoWait None /\ 5%Z ∈ queued y.
Proof.
  assert (exists x, Zreached (one_consumer 0) x /\ lost 0 5 x /\ pcs x 0 = PoWait None /\ queued x = [5%Z] /\ now x = 10%Z)
    as (x & Hx & Hl & H1 & H2 & H3).
  { eexists. split; [exists q0; split; [reflexivity|]|].
    - clean. clock 10%Z. call 0 (@CPop Z). go 0 t_po_lock. go 0 t_po_peek. go 0 t_po_unlock.
      push 1 5%Z. go 1 t_pu_cas. go 0 t_po_store. apply rtc_refl.
    - split; [|by vm_compute]. split; [done|]. split; [done|]. split.
      + split; vm_compute; [constructor|]. intros w Hw. inversion Hw as [|? ? ? Hw']; subst; [done|inversion Hw'].
      + intros [|[|t]] Ht; done. }
  exists x. split; [done|]. split; [done|]. split; [done|]. split; [done|]. intros y Hy.
  destruct (lost_runs 0 5 x y Hy) as (Hw & _ & [He _] & _); [by eapply reached_inv|done|done].
Qed.

(** C33: two consumers wait for the same element; both timers fire; one consumer
    takes it, the other blocks for ever in the receive of line 182, even though
    another element is queued and has expired *)
Theorem C33_two_consumers_refuted :
  exists x, Zreached no_ctx x /\ pcs x 1 = PoRecv /\ queued x = [6%Z] /\ now x = 10%Z /\
    (forall t, t <> 1 -> pcs x t = Idle) /\ holder x = None /\
    forall y, Zruns no_pops x y -> pcs y 1 = PoRecv.
Proof.
  assert (exists x, Zreached no_ctx x /\ stuck_recv 1 x /\ queued x = [6%Z] /\ now x = 10%Z /\
    (forall t, t <> 1 -> pcs x t = Idle) /\ holder x = None) as (x & Hx & Hs & H1 & H2 & H3 & H4).
  { eexists. split; [exists q0; split; [reflexivity|]|].
    - clean. push 2 5%Z. go 2 t_pu_cas. push 2 6%Z.
      call 0 (@CPop Z). go 0 t_po_lock. go 0 t_po_peek. go 0 t_po_clock. go 0 t_po_unlock. go 0 t_po_store.
      call 1 (@CPop Z). go 1 t_po_lock. go 1 t_po_peek. go 1 t_po_clock. go 1 t_po_unlock. go 1 t_po_store.
      clock 10%Z.
      eapply rtc_l; [exists LRun; split; [done|]; eapply s_run with (t := 0); eapply t_po_timer; [reflexivity|vm_compute; done]|]; clean.
      eapply rtc_l; [exists LRun; split; [done|]; eapply s_run with (t := 1); eapply t_po_timer; [reflexivity|vm_compute; done]|]; clean.
      go 0 t_po_swap. go 1 t_po_swap. go 0 t_po_lock. go 0 t_po_peek. go 0 t_po_clock. go 0 t_po_pop. go 0 t_po_unlock. go 0 t_po_ret.
      apply rtc_refl.
    - split; [split; [done|split; [done|split; intros [|[|[|t]]]; done]]|].
      split; [by vm_compute|]. split; [done|]. split; [|done]. intros [|[|[|t]]]; done. }
  exists x. split; [done|]. split; [apply Hs|]. do 4 (split; [done|]). intros y Hy. by apply (stuck_recv_runs _ _ _ 1 x y Hy).
Qed.

(** C33: PopWithCtx gives up while a pusher is about to signal it: that Push does
    not return unless somebody else starts a Pop *)
Theorem C33_cancel_blocks_push_refuted :
  exists x, Zreached anything x /\ pcs x 1 = PuSend /\ (forall t, t <> 1 -> pcs x t = Idle) /\
    forall y, Zruns no_pops x y -> pcs y 1 = PuSend.
Proof.
  assert (exists x, Zreached anything x /\ stuck_send 1 x /\ (forall t, t <> 1 -> pcs x t = Idle)) as (x & Hx & Hs & H1).
  { eexists. split; [exists q0; split; [reflexivity|]|].
    - clean. call 0 (@CPopCtx Z false). go 0 t_po_lock. go 0 t_po_peek. go 0 t_po_unlock. go 0 t_po_store.
      push 1 5%Z. go 1 t_pu_cas.
      eapply rtc_l; [exists LEnv; split; [done|apply (s_cancel _ _ _ _ 0); reflexivity]|]; clean.
      eapply rtc_l; [exists LRun; split; [done|]; eapply s_run with (t := 0); eapply t_po_done; [reflexivity|vm_compute; done]|]; clean.
      go 0 t_po_exit. apply rtc_refl.
    - split; [split; [done|intros [|[|t]]; done]|]. intros [|[|t]]; done. }
  exists x. split; [done|]. split; [apply Hs|]. split; [done|]. intros y Hy. by apply (stuck_send_runs _ _ _ 1 x y Hy).
Qed.

(** C32: PopWithCtx takes the element out and then drops it: it is neither queued nor returned to anybody *)
Theorem C32_ctx_loses_element_refuted :
  exists x, Zreached anything x /\ pushed (log x) = [5%Z] /\ queued x = [] /\ (forall t, pcs x t = Idle) /\
    log x = [Pushed 5%Z; Taken 0 5%Z 10%Z []; Dropped 0 5%Z].
Proof.
  eexists. split; [exists q0; split; [reflexivity|]|].
  - clean. clock 10%Z. push 1 5%Z. go 1 t_pu_cas. call 0 (@CPopCtx Z false). go 0 t_po_lock. go 0 t_po_peek. go 0 t_po_clock. go 0 t_po_pop.
    eapply rtc_l; [exists LEnv; split; [done|apply (s_cancel _ _ _ _ 0); reflexivity]|]; clean.
    go 0 t_po_unlock.
    eapply rtc_l; [exists LRun; split; [done|]; eapply s_run with (t := 0); eapply t_po_drop; [reflexivity|vm_compute; done]|]; clean.
    go 0 t_po_exit. apply rtc_refl.
  - split; [by vm_compute|]. split; [by vm_compute|]. split; [intros [|[|t]]; done|]. by vm_compute.
Qed.

(** C34: Poll.  It always gets an answer; the answer depends on the head only, and
    for a head that has not expired it is (zero, true) *)
Theorem C34_poll_result {T} zero expi comp size (x : sys T) t :
  reached zero expi comp size anything x -> pcs x t = PlRead ->
  exists v ok, step zero expi comp x LRun (set_pc t (PlUnlock v ok) x) /\
    (forall p y, tstep zero expi comp t x p y -> p = PlUnlock v ok /\ y = x) /\
    ((queued x = [] /\ v = zero /\ ok = false) \/
     (exists e, earliest expi e (queued x) /\ (expi e <= now x)%Z /\ v = e /\ ok = true) \/
     (exists e, earliest expi e (queued x) /\ (now x < expi e)%Z /\ v = zero /\ ok = true)).
Proof.
  intros I%reached_inv Hpc. destruct (poll_read_spec _ _ comp x I) as (v & ok & E & H). exists v, ok.
  split; [|split; [|done]].
  - destruct x as [Q h s n c P L]. eapply s_run. by apply t_pl_read.
  - intros p y Hs. inversion Hs; subst; simpl in *; try congruence. split; congruence.
Qed.

(** C34: Poll removes nothing and tells what it read *)
Theorem C34_poll_removes_nothing {T} zero expi comp (x : sys T) t p y :
  tstep zero expi comp t x p y ->
  (pcs x t = PlLock \/ pcs x t = PlRead \/ exists v ok, pcs x t = PlUnlock v ok) ->
  q y = q x /\ (forall v ok, pcs x t = PlUnlock v ok -> p = Idle /\ log y = log x ++ [Polled t v ok]).
Proof.
  intros H Hpc. inversion H; subst; simpl in *; destruct Hpc as [Hpc|[Hpc|(? & ? & Hpc)]]; try congruence;
    (split; [done|]); intros ? ? E; try congruence. split; congruence.
Qed.

(** *** non-vacuity *)

(** C34: Len never waits, changes nothing and returns the number of queued elements *)
Theorem C34_len {T} zero expi comp size (x : sys T) t :
  reached zero expi comp size anything x -> pcs x t = LnRead ->
  (exists p y, tstep zero expi comp t x p y)
  /\ forall p y, tstep zero expi comp t x p y ->
       p = Idle /\ q y = q x /\ sleeping y = sleeping x /\ holder y = holder x
       /\ log y = log x ++ [Counted t (Z.of_nat (length (queued x)))].
Proof.
  intros H E. split.
  - destruct x as [Q h s n c P L]. cbn in E. eexists _, _. by eapply t_ln_read.
  - intros p y Ht. pose proof (i_q _ _ _ (reached_inv _ _ _ _ _ _ H)) as Hq. inversion Ht; subst; cbn in *; try congruence.
    splits; try done. unfold q_len, queued. cbn [q]. do 4 f_equal. rewrite fmap_length, take_length. destruct Hq as [Hq1 Hq2].
    cbn in *. lia.
Qed.

(** C31, C32, C34: a run in which 7 and 5 are pushed at time 6; Poll sees 5 twice,
    Pop returns 5, Poll then answers (0, true) because 7 has not expired *)
Example C31_example :
  exists x, Zreached anything x /\ queued x = [7%Z] /\
    log x = [Pushed 7%Z; Pushed 5%Z; Polled 3 5%Z true; Taken 0 5%Z 6%Z [7%Z]; Returned 0 5%Z; Polled 3 0%Z true] /\
    (forall t, pcs x t = Idle).
Proof.
  eexists. split; [exists q0; split; [reflexivity|]|].
  - clean. clock 6%Z. push 1 7%Z. go 1 t_pu_cas. push 1 5%Z. go 1 t_pu_cas.
    call 3 (@CPoll Z). go 3 t_pl_lock. go 3 t_pl_read. go 3 t_pl_unlock.
    call 0 (@CPop Z). go 0 t_po_lock. go 0 t_po_peek. go 0 t_po_clock. go 0 t_po_pop. go 0 t_po_unlock. go 0 t_po_ret.
    call 3 (@CPoll Z). go 3 t_pl_lock. go 3 t_pl_read. go 3 t_pl_unlock. apply rtc_refl.
  - split; [by vm_compute|]. split; [by vm_compute|]. intros [|[|[|[|t]]]]; done.
Qed.

(** C33: the promised-signal states are reachable with one consumer *)
Example C33_example :
  exists x, Zreached (one_consumer 0) x /\ pcs x 0 = PoRecv /\ pcs x 1 = PuSend.
Proof.
  eexists. split; [exists q0; split; [reflexivity|]|].
  - clean. push 1 7%Z. go 1 t_pu_cas.
    call 0 (@CPop Z). go 0 t_po_lock. go 0 t_po_peek. go 0 t_po_clock. go 0 t_po_unlock. go 0 t_po_store.
    push 1 5%Z. go 1 t_pu_cas. clock 10%Z.
    eapply rtc_l; [exists LRun; split; [done|]; eapply s_run with (t := 0); eapply t_po_timer; [reflexivity|vm_compute; done]|]; clean.
    go 0 t_po_swap. apply rtc_refl.
  - done.
Qed.

Print Assumptions C31_never_early.
Print Assumptions C31_reading_is_real.
Print Assumptions C31_pop_delivers.
Print Assumptions C32_conserved.
Print Assumptions C32_pop_drops_nothing.
Print Assumptions C32_ctx_loses_element_refuted.
Print Assumptions C33_handshake.
Print Assumptions C33_lost_wakeup_refuted.
Print Assumptions C33_two_consumers_refuted.
Print Assumptions C33_cancel_blocks_push_refuted.
Print Assumptions C34_poll_result.
Print Assumptions C34_poll_removes_nothing.
Print Assumptions C34_len.
Print Assumptions C32_dropped_iff_cancelled.
Print Assumptions C33_calls_wait_only_there.
