From Verif Require Import Base PQ_Model PQ_Spec PQ_Proofs DelayQueue_Model DelayQueue_Spec DelayQueue_Proofs.

Section dq.
  Context {T : Type} (zero : T) (expi : T -> Z) (comp : T -> T -> Z).
  Notation tstep := (tstep zero expi comp).
  Notation Inv := (Inv zero expi).
  Notation dn := (dnil zero).
  Notation DC := (@dcomp T).

  Lemma peek_total Q : q_inv DC Q -> exists d ok, q_peek dn Q = Ok (d, ok).
  Proof.
    intros Hq. destruct (decide (q_bag Q = [])) as [Hb|Hb].
    - rewrite (q_peek_empty _ DC) by done. eauto.
    - destruct (q_peek_ok dn DC dcomp_ok _ Hq Hb) as (d & E & _). eauto.
  Qed.
  (** who holds the mutex is never held up *)
  Lemma holder_runs x t : Inv x -> in_cs (pcs x t) = true -> exists p y, tstep t x p y.
  Proof.
    intros I Hc. pose proof (i_q _ _ _ I) as Hq. pose proof (i_pc _ _ _ I t) as Hok. pose proof (i_mutex _ _ _ I t) as Hm.
    destruct x as [Q h s n c P L]; cbn [q holder sleeping now ctxs pcs log] in *.
    destruct (P t) as [|v|v|v|v d|v d| | | | |d|d rd|item delta|delta|w| | |d| | | |v ok| |] eqn:Hpc; try done.
    - destruct (q_push_ok dn DC dcomp_ok Q (v, expi v) Hq) as (Q1 & E & _). eexists _, _. by eapply t_pu_push.
    - destruct (peek_total Q Hq) as (d & ok & E). eexists _, _. by eapply t_pu_peek.
    - eexists _, _. by eapply t_pu_unlock.
    - destruct (peek_total Q Hq) as (d & ok & E). eexists _, _. by eapply t_po_peek.
    - eexists _, _. by eapply t_po_clock.
    - destruct Hok as [Hpk _]. destruct (decide (q_bag Q = [])) as [Hb|Hb].
      { rewrite (q_peek_empty _ DC) in Hpk by done. done. }
      destruct (q_pop_ok dn DC dcomp_ok _ Hq Hb) as (d' & Q' & E & _). eexists _, _. by eapply t_po_pop.
    - eexists _, _. by eapply t_po_unlock.
    - destruct (peek_total Q Hq) as (d & ok & E).
      assert (exists v ok, poll_read zero Q n = Ok (v, ok)) as (v & ok' & Er).
      { unfold poll_read. rewrite E. cbn [rbind]. destruct ok; [case_decide|]; eauto. }
      eexists _, _. by eapply t_pl_read.
    - eexists _, _. by eapply t_pl_unlock.
  Qed.

  Lemma runs_or_waits x t : Inv x -> pcs x t = Idle \/ (exists p y, tstep t x p y) \/ waits zero expi comp x t.
  Proof.
    intros I. destruct (in_cs (pcs x t)) eqn:Hc; [right; left; by apply holder_runs|].
    assert (Hlock : (exists v, pcs x t = PuLock v) \/ pcs x t = PoLock \/ pcs x t = PlLock ->
      (exists p y, tstep t x p y) \/ waits zero expi comp x t).
    { intros Hl. destruct (holder x) as [u|] eqn:Hh.
      - right. right. right. right. split; [done|]. exists u. apply (i_mutex _ _ _ I u) in Hh as Hu.
        splits; [intros ->; congruence|done|by apply holder_runs].
      - left. destruct x as [Q h s n c P L]; simpl in *. subst h. destruct Hl as [[v Hl]|[Hl|Hl]]; eexists _, _; [by eapply t_pu_lock|by eapply t_po_lock|by eapply t_pl_lock]. }
    pose proof (i_pc _ _ _ I t) as Hok. unfold waits in *. destruct x as [Q h s n c P L]; cbn [q holder sleeping now ctxs pcs log] in *.
    destruct (P t) as [|v|v|v|v d|v d| | | | |d|d rd|item delta|delta|w| | |d| | | |v ok| |] eqn:Hpc; try done; try (by left); right; try (apply Hlock; by eauto); clear Hlock.
    - left. eexists _, _. by eapply t_pu_comp.
    - left. eexists _, _. by eapply t_pu_cas.
    - tauto.
    - left. eexists _, _. by eapply t_po_store.
    - destruct (decide (c t = Some true)) as [Hct|Hct]; [left; eexists _, _; by eapply t_po_done|]. destruct w as [dl|].
      + destruct (decide (dl <= n)%Z) as [Hd|Hd]; [left; eexists _, _; by eapply t_po_timer|]. right. left. exists (Some dl). splits; [done|done|]. intros ? [= <-]. lia.
      + right. left. by exists None.
    - left. eexists _, _. by eapply t_po_swap.
    - tauto.
    - left. destruct (decide (c t = Some true)); eexists _, _; [by eapply t_po_drop|by eapply t_po_ret].
    - left. eexists _, _. by eapply t_po_exit.
    - left. eexists _, _. by eapply t_ln_read.
  Qed.
End dq.
