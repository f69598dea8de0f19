(** The wake-up protocol and solo runs of the delay queue. *)
From Verif Require Import Base PQ_Model PQ_Spec PQ_Proofs DelayQueue_Model DelayQueue_Spec DelayQueue_Proofs.

Section dq.
  Context {T : Type} (zero : T) (expi : T -> Z) (comp : T -> T -> Z).
  Notation dn := (dnil zero).
  Notation DC := (@dcomp T).
  Notation tstep := (tstep zero expi comp).
  Notation step := (step zero expi comp).
  Notation runs := (runs zero expi comp).

  (** goroutine is inside Pop / PopWithCtx *)
  Definition popping (p : pc T) : bool :=
    match p with
    | PoLock | PoPeek | PoClock _ | PoPop _ _ | PoUnlock _ _ | PoStore _ | PoWait _ | PoSwap | PoRecv | PoRet _ | PoExit => true
    | _ => false
    end.
  Definition hs_ok (x : sys T) (p : pc T) : Prop :=
    match p with
    | PoWait _ | PoSwap => (sleeping x = true /\ forall t, pcs x t <> PuSend) \/
                           (sleeping x = false /\ exists! t, pcs x t = PuSend)
    | PoRecv => sleeping x = false /\ exists! t, pcs x t = PuSend
    | _ => sleeping x = false /\ forall t, pcs x t <> PuSend
    end.
  Record HS (c : nat) (x : sys T) : Prop := {
    h_only : forall t, t <> c -> popping (pcs x t) = false;
    h_ctx : forall t, ctxs x t = None;
    h_ok : hs_ok x (pcs x c) }.

  Definition kind (p : pc T) : nat :=
    match p with PoWait _ | PoSwap => 1 | PoRecv => 2 | _ => 0 end.

  Lemma hs_kind x p p' : kind p = kind p' -> hs_ok x p -> hs_ok x p'.
  Proof. destruct p, p'; simpl; done. Qed.

  Lemma send_insert (P : nat -> pc T) t p u : P t <> PuSend -> p <> PuSend ->
    (<[t:=p]> P : nat -> pc T) u = PuSend <-> P u = PuSend.
  Proof.
    intros H1 H2. destruct (decide (u = t)) as [->|].
    - rewrite fn_lookup_insert. done.
    - by rewrite fn_lookup_insert_ne.
  Qed.

  Lemma send_insert' (P : nat -> pc T) t p u :
    (<[t:=p]> P : nat -> pc T) u = PuSend -> P t <> PuSend -> p <> PuSend -> P u = PuSend.
  Proof. intros H H1 H2. by apply (send_insert P t p). Qed.

  (** a step that neither touches [sleeping] nor the senders *)
  Lemma hs_keep x y p0 : sleeping y = sleeping x ->
    (forall u, pcs y u = PuSend <-> pcs x u = PuSend) -> hs_ok x p0 -> hs_ok y p0.
  Proof.
    intros Es Ep. assert (Hn : (forall u, pcs x u <> PuSend) -> forall u, pcs y u <> PuSend).
    { intros H u Hu. apply Ep in Hu. by apply (H u). }
    assert (He : (exists! u, pcs x u = PuSend) -> exists! u, pcs y u = PuSend).
    { intros (u & Hu & Hq). exists u. split; [by apply Ep|]. intros u' Hu'. apply Hq. by apply Ep. }
    unfold hs_ok. rewrite Es. destruct p0; naive_solver.
  Qed.

  Lemma hs_only_set c x t p : HS c x -> (t <> c -> popping p = false) ->
    forall u, u <> c -> popping ((<[t:=p]> (pcs x) : nat -> pc T) u) = false.
  Proof.
    intros I Hp u Hu. destruct (decide (u = t)) as [->|].
    - rewrite fn_lookup_insert. by apply Hp.
    - rewrite fn_lookup_insert_ne by done. by apply (h_only _ _ I).
  Qed.

  Lemma hs_plain c x t p y : HS c x -> pcs x t <> PuSend -> p <> PuSend ->
    kind p = kind (pcs x t) -> (popping p = true -> popping (pcs x t) = true) ->
    ctxs y = ctxs x -> sleeping y = sleeping x -> pcs y = pcs x -> HS c (set_pc t p y).
  Proof.
    intros I H1 H2 Hk Hp Ec Es Ep. split; simpl; rewrite ?Ep.
    - apply hs_only_set; [done|]. intros Hne. pose proof (h_only _ _ I t Hne) as E.
      destruct (popping p); [|done]. by rewrite Hp in E.
    - rewrite Ec. apply I.
    - apply (hs_kind _ (pcs x c)).
      { destruct (decide (c = t)) as [->|]; [by rewrite fn_lookup_insert|by rewrite fn_lookup_insert_ne]. }
      apply (hs_keep x); [done| |apply I]. simpl. rewrite Ep. intros u. by apply send_insert.
  Qed.

  Lemma pop_is_consumer c x t : HS c x -> popping (pcs x t) = true -> t = c.
  Proof. intros I H. destruct (decide (t = c)); [done|]. by rewrite (h_only _ _ I) in H. Qed.

  Lemma tstep_hs c t x p y : tstep t x p y -> Inv zero expi x -> HS c x -> HS c (set_pc t p y).
  Proof.
    intros H II I. pose proof (h_ctx _ _ I t) as Hcx. pose proof (pop_is_consumer c x t I) as Hcons.
    pose proof (h_ok _ _ I) as Ho. pose proof (i_pc _ _ _ II t) as Hok.
    inversion H as
      [v ?????? Hpc|v b ? Q' ?????? Hpc Hpush|v d ok ??????? Hpc Hpeek|v d ??????? Hpc|v d ??????? Hpc|??????? Hpc
      |?????? Hpc|d ok ??????? Hpc Hpeek|d ??????? Hpc|d rd r ? Q' ?????? Hpc Hpop|item delta ??????? Hpc|delta ??????? Hpc
      |dl ??????? Hpc|??????? Hpc|w ??????? Hpc Hcn|d ??????? Hpc|d ??????? Hpc Hcn|??????? Hpc
      |?????? Hpc|v ok ??????? Hpc Hread|v ok ??????? Hpc|??????? Hpc]; subst; clear H; cbn [pcs ctxs] in *;
      try (rewrite Hcn in Hcx; discriminate Hcx);
      try (apply (hs_plain _ _ _ _ _ I); simpl; rewrite ?Hpc; repeat case_match; done);
      rewrite Hpc in Hcons.
    - (* CAS *)
      assert (Hne : t <> c \/ s = false).
      { destruct (decide (t = c)) as [->|]; [right|by left]. rewrite Hpc in Ho. by destruct Ho. }
      assert (Hs : s = true -> kind (P c) = 1 /\ forall u, P u <> PuSend).
      { intros ->. destruct (P c); simpl in Ho; naive_solver. }
      destruct s.
      + destruct Hs as [Hk Hs]; [done|]. destruct Hne as [Hne|]; [|done].
        split; simpl.
        * apply (hs_only_set _ _ _ _ I). done.
        * apply I.
        * rewrite fn_lookup_insert_ne by done. apply (hs_kind _ PoSwap); [done|]. right. split; [done|].
          exists t. simpl. split; [by rewrite fn_lookup_insert|]. intros u Hu.
          destruct (decide (u = t)) as [->|]; [done|]. rewrite fn_lookup_insert_ne in Hu by done. by apply Hs in Hu.
      + apply (hs_plain _ _ _ _ _ I); simpl; rewrite ?Hpc; done.
    - (* sleeping := 1 *)
      specialize (Hcons eq_refl) as ->. rewrite Hpc in Ho. destruct Ho as [_ Ho]. simpl in Ho.
      assert (Hu : forall p, p <> PuSend -> forall u, (<[c:=p]> P : nat -> pc T) u <> PuSend).
      { intros p' Hp' u. destruct (decide (u = c)) as [->|]; [by rewrite fn_lookup_insert|by rewrite fn_lookup_insert_ne]. }
      split; simpl.
      + apply (hs_only_set _ _ _ _ I). done.
      + apply I.
      + rewrite fn_lookup_insert. repeat case_decide; simpl; try (left; split; [done|]; apply Hu; by repeat case_decide).
        exfalso. simpl in Hok. rewrite Hpc in Hok. simpl in Hok. lia.
    - (* swap *)
      specialize (Hcons eq_refl) as ->. rewrite Hpc in Ho. simpl in Ho.
      split; simpl.
      + apply (hs_only_set _ _ _ _ I). done.
      + apply I.
      + rewrite fn_lookup_insert. destruct Ho as [[-> Ho]|[-> Ho]]; simpl; (split; [done|]).
        * intros u Hu. simpl in Hu. apply send_insert' in Hu; [by apply (Ho u)|by rewrite Hpc|done].
        * destruct Ho as (u & Hu & Hq). exists u. split; [by apply send_insert; [simpl; rewrite Hpc| |]|].
          intros u' Hu'. apply Hq. simpl in Hu'. apply send_insert' in Hu'; [done|by rewrite Hpc|done].
    - (* leaving through exit *)
      specialize (Hcons eq_refl) as ->. rewrite Hpc in Ho. simpl in Ho. destruct Ho as [-> Ho].
      split; simpl.
      + apply (hs_only_set _ _ _ _ I). done.
      + apply I.
      + rewrite fn_lookup_insert. split; [done|]. intros u Hu. simpl in Hu. apply send_insert' in Hu; [by apply (Ho u)|by rewrite Hpc|done].
  Qed.

  Lemma step_hs c x l y : step x l y -> one_consumer c l -> Inv zero expi x -> HS c x -> HS c y.
  Proof.
    intros H Hl II I. destruct H as [x t k Hpc|x t p y H|x t u Hs Hr|x t Hc|x n]; simpl in *.
    - assert (HS c (set_pc t (start_pc k) x)) as I'.
      { split; simpl.
        - apply hs_only_set; [done|]. destruct k; simpl; naive_solver.
        - apply I.
        - apply (hs_kind _ (pcs x c)).
          { destruct (decide (c = t)) as [->|]; [rewrite fn_lookup_insert, Hpc; by destruct k|by rewrite fn_lookup_insert_ne]. }
          apply (hs_keep x); [done| |apply I]. simpl. intros u. apply send_insert; [by rewrite Hpc|by destruct k]. }
      split; try apply I'. intros u. simpl. destruct (decide (u = t)) as [->|].
      + rewrite fn_lookup_insert. by destruct k.
      + rewrite fn_lookup_insert_ne by done. apply I.
    - by eapply tstep_hs.
    - assert (u = c) as -> by (apply (pop_is_consumer c x); [done|]; destruct Hr as [[w ->]| ->]; done).
      assert (t <> c) as Hne by (intros ->; rewrite Hs in Hr; destruct Hr as [[? Hr]|Hr]; discriminate Hr).
      assert (Huq : sleeping x = false /\ exists! t', pcs x t' = PuSend).
      { pose proof (h_ok _ _ I) as Ho. destruct Hr as [[w Hr]|Hr]; rewrite Hr in Ho; simpl in Ho; [|done].
        destruct Ho as [[_ Ho]|Ho]; [by apply Ho in Hs|done]. }
      destruct Huq as (Hsl & t' & Ht' & Hq). assert (t' = t) as -> by (by apply Hq).
      split; simpl.
      + intros v Hv. rewrite fn_lookup_insert_ne by done. by apply (hs_only_set c).
      + apply I.
      + rewrite fn_lookup_insert. split; [done|]. intros v. simpl.
        destruct (decide (v = c)) as [->|]; [by rewrite fn_lookup_insert|]. rewrite fn_lookup_insert_ne by done.
        destruct (decide (v = t)) as [->|]; [by rewrite fn_lookup_insert|]. rewrite fn_lookup_insert_ne by done.
        intros Hv. apply Hq in Hv. congruence.
    - rewrite (h_ctx _ _ I) in Hc. done.
    - destruct I. by split.
  Qed.

  Lemma runs_hs c x y : runs (one_consumer c) x y -> Inv zero expi x -> HS c x -> HS c y.
  Proof.
    induction 1 as [|x y z (l & Hl & H) _ IH]; [done|]. intros II I. apply IH; [by eapply step_inv|by eapply step_hs].
  Qed.
  Lemma start_hs c q0 : HS c (start q0).
  Proof. split; simpl; done. Qed.

  (** a pusher that is about to signal gets rid of its signal within two steps *)
  Lemma sender_served c x t : HS c x -> pcs x t = PuSend ->
    (exists y, step x LRun y /\ pcs y t = Idle) \/
    (exists y z, step x LRun y /\ step y LRun z /\ pcs z t = Idle).
  Proof.
    intros I Ht. pose proof (h_ok _ _ I) as Ho.
    assert (Hne : t <> c). { intros ->. rewrite Ht in Ho. destruct Ho as [_ Ho]. by apply Ho in Ht. }
    assert (Hw : forall x', pcs x' t = PuSend -> (exists w, pcs x' c = PoWait w) \/ pcs x' c = PoRecv ->
      exists y, step x' LRun y /\ pcs y t = Idle).
    { intros x' Hs Hr. eexists. split; [by eapply (s_wake _ _ _ x' t c)|]. simpl.
      rewrite fn_lookup_insert_ne by done. by rewrite fn_lookup_insert. }
    destruct (pcs x c) eqn:E; simpl in Ho; try (destruct Ho as [_ Ho]; by apply Ho in Ht).
    - left. apply Hw; [done|]. rewrite E. left. by eexists.
    - right. destruct Ho as [[_ Ho]|[Hs _]]; [by apply Ho in Ht|].
      destruct x as [Q h s n cx P L]. simpl in *. subst s.
      assert (H1 : step (Sys Q h false n cx P L) LRun (set_pc c PoRecv (Sys Q h false n cx P L))).
      { eapply s_run. by apply (t_po_swap _ _ _ c Q h false). }
      destruct (Hw (set_pc c PoRecv (Sys Q h false n cx P L))) as (z & Hz & Hz').
      + simpl. by rewrite fn_lookup_insert_ne.
      + simpl. rewrite fn_lookup_insert. by right.
      + eexists _, z. done.
    - left. apply Hw; [done|]. by right.
  Qed.

  (** *** a Pop that finds an expired element and is not disturbed *)
  Lemma pop_solo x t : Inv zero expi x -> holder x = None -> pcs x t = Idle ->
    (exists e, e ∈ queued x /\ (expi e <= now x)%Z) ->
    exists y v, runs (just_pop t) x y /\ pcs y t = Idle /\ earliest expi v (queued x) /\
      queued x ≡ₚ v :: queued y /\ log y = log x ++ [Taken t v (now x) (queued y); Returned t v].
  Proof.
    intros I Hh Hidle (e & He & Hle).
    pose proof (i_q _ _ _ I) as Hq. pose proof (i_exp _ _ _ I) as Hexp.
    unfold queued in He. apply elem_of_list_fmap in He as (de & -> & Hde).
    assert (Hne : q_bag (q x) <> []). { unfold q_bag. intros E. rewrite E in Hde. set_solver. }
    destruct (q_peek_ok dn DC dcomp_ok _ Hq Hne) as (d & Epk & H0 & Hin & Hl).
    destruct (q_pop_ok dn DC dcomp_ok _ Hq Hne) as (d' & Q' & Epop & Hq' & Hs & H0' & Hp & Hl').
    rewrite H0 in H0'. injection H0' as <-.
    assert (Hd : (d.2 <= now x)%Z).
    { pose proof (Hl de Hde) as H. apply dcomp_le in H. rewrite (Hexp de Hde) in H. lia. }
    destruct x as [Q h s n cx P L]. simpl in *. subst h.
    eexists _, d.1. split.
    - eapply rtc_l; [exists (LCall t CPop); split; [done|by apply s_call]|].
      cbv [set_pc set_ctx set_now q holder sleeping now ctxs pcs log start_pc start_ctx].
      eapply rtc_l; [exists LRun; split; [done|]; eapply s_run; apply t_po_lock; apply fn_lookup_insert|].
      cbv [set_pc set_ctx set_now q holder sleeping now ctxs pcs log].
      eapply rtc_l; [exists LRun; split; [done|]; eapply s_run; eapply t_po_peek; [apply fn_lookup_insert|exact Epk]|].
      cbv [set_pc set_ctx set_now q holder sleeping now ctxs pcs log].
      eapply rtc_l; [exists LRun; split; [done|]; eapply s_run; eapply t_po_clock; apply fn_lookup_insert|].
      rewrite decide_False by lia. cbv [set_pc set_ctx set_now q holder sleeping now ctxs pcs log].
      eapply rtc_l; [exists LRun; split; [done|]; eapply s_run; eapply t_po_pop; [apply fn_lookup_insert|exact Epop]|].
      cbv [set_pc set_ctx set_now q holder sleeping now ctxs pcs log].
      eapply rtc_l; [exists LRun; split; [done|]; eapply s_run; eapply t_po_unlock; apply fn_lookup_insert|].
      cbv [set_pc set_ctx set_now q holder sleeping now ctxs pcs log].
      eapply rtc_l; [exists LRun; split; [done|]; eapply s_run; eapply t_po_ret; [apply fn_lookup_insert|]|].
      { by rewrite fn_lookup_insert. }
      apply rtc_refl.
    - cbv [set_pc set_ctx set_now q holder sleeping now ctxs pcs log queued].
      rewrite fn_lookup_insert. split; [done|]. fold (q_bag Q) (q_bag Q'). split; [split|split].
      + apply elem_of_list_fmap. by exists d.
      + intros w (dw & -> & Hw)%elem_of_list_fmap. rewrite <- (Hexp d Hin), <- (Hexp dw Hw). apply dcomp_le. by apply Hl.
      + rewrite Hp. done.
      + by rewrite <- app_assoc.
  Qed.

  (** *** Poll *)
  Lemma poll_read_spec x : Inv zero expi x ->
    exists v ok, poll_read zero (q x) (now x) = Ok (v, ok) /\
      ((queued x = [] /\ v = zero /\ ok = false) \/
       (exists e, earliest expi e (queued x) /\ (expi e <= now x)%Z /\ v = e /\ ok = true) \/
       (exists e, earliest expi e (queued x) /\ (now x < expi e)%Z /\ v = zero /\ ok = true)).
  Proof.
    intros I. pose proof (i_q _ _ _ I) as Hq. pose proof (i_exp _ _ _ I) as Hexp.
    unfold poll_read. destruct (decide (q_bag (q x) = [])) as [Hb|Hb].
    - rewrite (q_peek_empty _ DC) by done. exists zero, false. split; [done|]. left. unfold queued. fold (q_bag (q x)). by rewrite Hb.
    - destruct (q_peek_ok dn DC dcomp_ok _ Hq Hb) as (d & Epk & H0 & Hin & Hl). rewrite Epk. cbn [rbind].
      assert (He : earliest expi d.1 (queued x)).
      { split; [apply elem_of_list_fmap; by exists d|].
        intros w (dw & -> & Hw)%elem_of_list_fmap. rewrite <- (Hexp d Hin), <- (Hexp dw Hw). apply dcomp_le. by apply Hl. }
      pose proof (Hexp d Hin) as Hd.
      case_decide; eexists _, true; (split; [done|]); right.
      + right. exists d.1. split; [done|]. split; [lia|done].
      + left. exists d.1. split; [done|]. split; [lia|done].
  Qed.

  (** *** stuck states *)
  Definition stuck_recv (c : nat) (x : sys T) : Prop :=
    pcs x c = PoRecv /\ sleeping x = false /\ (forall t, pcs x t <> PuSend) /\
    (forall t, t <> c -> popping (pcs x t) = false).
  Lemma stuck_recv_step c x l y : step x l y -> no_pops l -> stuck_recv c x -> stuck_recv c y.
  Proof.
    intros H Hl (Hr & Hs & Hns & Hp). destruct H as [x t k Hpc|x t p y H|x t u Hsd Hu|x t Hc|x n]; simpl in *.
    - assert (Hne : t <> c) by (intros ->; by rewrite Hr in Hpc).
      unfold stuck_recv. simpl. split; [by rewrite fn_lookup_insert_ne|]. split; [done|]. split.
      + intros u. destruct (decide (u = t)) as [->|]; [rewrite fn_lookup_insert; by destruct k|by rewrite fn_lookup_insert_ne].
      + intros u Hu. destruct (decide (u = t)) as [->|]; [rewrite fn_lookup_insert; by destruct k|rewrite fn_lookup_insert_ne by done; by apply Hp].
    - assert (Hne : t <> c).
      { intros ->. inversion H; subst; simpl in *; congruence. }
      pose proof (Hp t Hne) as Hpt.
      assert (Hgoal : sleeping y = false /\ p <> PuSend /\ popping p = false /\ pcs y = pcs x).
      { inversion H; subst; simpl in *;
          match goal with E : _ t = _ |- _ => rewrite E in Hpt; try discriminate Hpt end; repeat case_match; done. }
      destruct Hgoal as (Hs' & Hp1 & Hp2 & Ep). unfold stuck_recv. simpl. rewrite Ep.
      split; [by rewrite fn_lookup_insert_ne|]. split; [done|]. split.
      + intros u. destruct (decide (u = t)) as [->|]; [by rewrite fn_lookup_insert|by rewrite fn_lookup_insert_ne].
      + intros u Hu. destruct (decide (u = t)) as [->|]; [by rewrite fn_lookup_insert|rewrite fn_lookup_insert_ne by done; by apply Hp].
    - by apply Hns in Hsd.
    - done.
    - done.
  Qed.
  Lemma stuck_recv_runs c x y : runs no_pops x y -> stuck_recv c x -> stuck_recv c y.
  Proof. induction 1 as [|x y z (l & Hl & H) _ IH]; [done|]. intros I. apply IH. by eapply stuck_recv_step. Qed.

  Definition stuck_send (c : nat) (x : sys T) : Prop :=
    pcs x c = PuSend /\ (forall t, popping (pcs x t) = false).
  Lemma stuck_send_step c x l y : step x l y -> no_pops l -> stuck_send c x -> stuck_send c y.
  Proof.
    intros H Hl (Hr & Hp). destruct H as [x t k Hpc|x t p y H|x t u Hsd Hu|x t Hc|x n]; simpl in *.
    - assert (Hne : t <> c) by (intros ->; by rewrite Hr in Hpc).
      split; simpl; [by rewrite fn_lookup_insert_ne|].
      intros u. destruct (decide (u = t)) as [->|]; [rewrite fn_lookup_insert; by destruct k|rewrite fn_lookup_insert_ne by done; by apply Hp].
    - assert (Hne : t <> c).
      { intros ->. inversion H; subst; simpl in *; congruence. }
      pose proof (Hp t) as Hpt.
      assert (Hgoal : popping p = false /\ pcs y = pcs x).
      { inversion H; subst; simpl in *;
          match goal with E : _ t = _ |- _ => rewrite E in Hpt; try discriminate Hpt end; repeat case_match; done. }
      destruct Hgoal as (Hp2 & Ep). split; simpl; rewrite Ep.
      + by rewrite fn_lookup_insert_ne.
      + intros u. destruct (decide (u = t)) as [->|]; [by rewrite fn_lookup_insert|rewrite fn_lookup_insert_ne by done; by apply Hp].
    - pose proof (Hp u) as Hpu. by destruct Hu as [[w Hu]|Hu]; rewrite Hu in Hpu.
    - done.
    - done.
  Qed.
  Lemma stuck_send_runs c x y : runs no_pops x y -> stuck_send c x -> stuck_send c y.
  Proof. induction 1 as [|x y z (l & Hl & H) _ IH]; [done|]. intros I. apply IH. by eapply stuck_send_step. Qed.
End dq.

(** *** the lost wake-up, for integers that are their own expiration *)
Section lost.
  Notation dn := (dnil 0%Z).
  Definition lost_pc (e : Z) (p : pc Z) : Prop :=
    match p with
    | PuLock v | PuPush v | PuPeek v => (e < v)%Z
    | PuUnlock v d | PuComp v d => (e < v)%Z /\ d.1 = e
    | PuCas | PuSend => False
    | _ => popping p = false
    end.
  Definition lost (c : nat) (e : Z) (x : sys Z) : Prop :=
    pcs x c = PoWait None /\ ctxs x c = None /\ earliest id e (queued x) /\
    (forall t, t <> c -> lost_pc e (pcs x t)).

  Lemma lost_step c e x l y : step 0%Z id Zcomp x l y -> pushes_only (fun v => e < v)%Z l ->
    Inv 0%Z id x -> lost c e x -> lost c e y.
  Proof.
    intros H Hl I (Hw & Hcx & He & Hp). destruct H as [x t k Hpc|x t p y H|x t u Hsd Hu|x t Hc|x n]; simpl in *.
    - assert (Hne : t <> c) by (intros ->; by rewrite Hw in Hpc).
      split; simpl; [by rewrite fn_lookup_insert_ne|]. split; [by rewrite fn_lookup_insert_ne|]. split; [done|].
      intros u Hu. destruct (decide (u = t)) as [->|]; [rewrite fn_lookup_insert; by destruct k|rewrite fn_lookup_insert_ne by done; by apply Hp].
    - assert (Hne : t <> c).
      { intros ->. inversion H; subst; simpl in *; congruence. }
      pose proof (Hp t Hne) as Hpt.
      assert (Hgoal : lost_pc e p /\ pcs y = pcs x /\ ctxs y = ctxs x /\ earliest id e (queued y)).
      { inversion H; subst; simpl in *;
          match goal with E : _ t = _ |- _ => rewrite E in Hpt; simpl in Hpt; try discriminate Hpt; try done end.
        - (* push *)
          pose proof (i_q _ _ _ I) as Hq. simpl in Hq.
          destruct (q_push_ok dn dcomp dcomp_ok Q (v, v) Hq) as (Q1 & E1 & Hq1 & Hs1 & Hp1).
          match goal with E : q_push _ _ _ = _ |- _ => simpl in E; rewrite E1 in E; injection E as <- <- end.
          do 3 (split; [done|]). destruct He as [He1 He2].
          split.
          + unfold queued. simpl. fold (q_bag Q1). rewrite Hp1. right. done.
          + intros w Hw'. unfold queued in Hw'. simpl in Hw'. fold (q_bag Q1) in Hw'. rewrite Hp1 in Hw'.
            apply elem_of_cons in Hw' as [->|Hw']; [simpl; unfold id; lia|by apply He2].
        - (* peek *)
          pose proof (i_q _ _ _ I) as Hq. pose proof (i_exp _ _ _ I) as Hexp. simpl in Hq, Hexp.
          destruct He as [He1 He2]. unfold queued in He1. simpl in He1. fold (q_bag Q) in He1.
          assert (Hne' : q_bag Q <> []) by (intros E'; rewrite E' in He1; set_solver).
          destruct (q_peek_ok dn dcomp dcomp_ok Q Hq Hne') as (d1 & E1 & _ & Hin & Hl1).
          match goal with E : q_peek _ _ = _ |- _ => rewrite E1 in E; injection E as <- <- end.
          split; [|by repeat split]. split; [done|].
          assert (e <= d1.1)%Z by (apply He2; apply elem_of_list_fmap; by exists d1).
          apply elem_of_list_fmap in He1 as (de & -> & Hde).
          pose proof (Hl1 de Hde) as Hle. apply dcomp_le in Hle. rewrite (Hexp d1 Hin), (Hexp de Hde) in Hle. unfold id in Hle. lia.
        - (* compare *)
          destruct Hpt as [Hpt Hd]. rewrite decide_False; [done|]. unfold Zcomp. repeat case_match; lia. }
      destruct Hgoal as (H1 & E1 & E2 & H2). split; simpl; [by rewrite E1, fn_lookup_insert_ne|]. split; [by rewrite E2|]. split; [done|].
      rewrite E1. intros u Hu. destruct (decide (u = t)) as [->|]; [by rewrite fn_lookup_insert|rewrite fn_lookup_insert_ne by done; by apply Hp].
    - destruct (decide (t = c)) as [->|]; [congruence|]. pose proof (Hp t) as Hpt. rewrite Hsd in Hpt. naive_solver.
    - assert (t <> c) by congruence. split; [done|]. split; [simpl; by rewrite fn_lookup_insert_ne|]. done.
    - done.
  Qed.
  Lemma lost_runs c e x y : runs 0%Z id Zcomp (pushes_only (fun v => e < v)%Z) x y ->
    Inv 0%Z id x -> lost c e x -> lost c e y.
  Proof.
    induction 1 as [|x y z (l & Hl & H) _ IH]; [done|]. intros I J. apply IH; [by eapply step_inv|by eapply lost_step].
  Qed.
End lost.
