From Verif Require Import Base PQ_Model PQ_Spec PQ_Proofs DelayQueue_Model DelayQueue_Spec DelayQueue_Proofs.

(** A Pop that finds nothing expired sleeps until the earliest expiration. *)
Section dq.
  Context {T : Type} (zero : T) (expi : T -> Z) (comp : T -> T -> Z).
  Notation runs := (runs zero expi comp).
  Notation Inv := (Inv zero expi).
  Notation dn := (dnil zero).
  Notation DC := (@dcomp T).
  Local Ltac go := cbv [set_pc set_ctx set_now q holder sleeping now ctxs pcs log start_pc start_ctx].
  Local Ltac mv1 := eapply rtc_l; [exists LRun; split; [done|]; eapply s_run|go].

  Lemma lock_takes x t : Inv x -> holder x = None -> pcs x t = PoLock -> ctxs x t <> Some true ->
    (exists e, e ∈ queued x /\ (expi e <= now x)%Z) ->
    exists y v, runs (just_pop t) x y /\ pcs y t = Idle /\ earliest expi v (queued x) /\
      queued x ≡ₚ v :: queued y /\ log y = log x ++ [Taken t v (now x) (queued y); Returned t v].
  Proof.
    intros I Hh Hpc Hctx (e & He & Hle).
    pose proof (i_q _ _ _ I) as Hq. pose proof (i_exp _ _ _ I) as Hexp.
    unfold queued in He. apply elem_of_list_fmap in He as (de & -> & Hde).
    assert (Hne : q_bag (q x) <> []). { unfold q_bag. intros E. rewrite E in Hde. set_solver. }
    destruct (q_peek_ok dn DC dcomp_ok _ Hq Hne) as (d & Epk & H0 & Hin & Hl).
    destruct (q_pop_ok dn DC dcomp_ok _ Hq Hne) as (d' & Q' & Epop & Hq' & Hs & H0' & Hp & Hl').
    rewrite H0 in H0'. injection H0' as <-.
    assert (Hd : (d.2 <= now x)%Z).
    { pose proof (Hl de Hde) as H. apply dcomp_le in H. rewrite (Hexp de Hde) in H. lia. }
    destruct x as [Q h s n cx P L]. simpl in *. subst h.
    eexists _, d.1. split.
    - mv1. { by apply t_po_lock. }
      mv1. { eapply t_po_peek; [apply fn_lookup_insert|exact Epk]. }
      mv1. { eapply t_po_clock; apply fn_lookup_insert. }
      rewrite decide_False by lia.
      mv1. { eapply t_po_pop; [apply fn_lookup_insert|exact Epop]. }
      mv1. { eapply t_po_unlock; apply fn_lookup_insert. }
      mv1. { eapply t_po_ret; [apply fn_lookup_insert|done]. }
      apply rtc_refl.
    - go. unfold queued; simpl.
      rewrite fn_lookup_insert. split; [done|]. fold (q_bag Q) (q_bag Q'). split; [split|split].
      + apply elem_of_list_fmap. by exists d.
      + intros w (dw & -> & Hw)%elem_of_list_fmap. rewrite <- (Hexp d Hin), <- (Hexp dw Hw). apply dcomp_le. by apply Hl.
      + rewrite Hp. done.
      + by rewrite <- app_assoc.
  Qed.

  Lemma pop_sleeps x t : Inv x -> holder x = None -> pcs x t = Idle -> (forall e, e ∈ queued x -> (now x < expi e)%Z) ->
    exists y w, runs (just_pop t) x y /\ pcs y t = PoWait w /\ holder y = None /\ sleeping y = true /\ ctxs y t = None /\
      queued y = queued x /\ log y = log x /\ now y = now x /\
      match w with Some dl => exists v, earliest expi v (queued x) /\ dl = expi v | None => queued x = [] end.
  Proof.
    intros I Hh Hidle Hno. pose proof (i_q _ _ _ I) as Hq. pose proof (i_exp _ _ _ I) as Hexp.
    destruct (decide (q_bag (q x) = [])) as [Hb|Hb].
    - pose proof (q_peek_empty dn DC _ Hq Hb) as Epk. destruct x as [Q h s n cx P L]. simpl in *. subst h. eexists _, None. split.
      + eapply rtc_l; [exists (LCall t CPop); split; [done|by apply s_call]|]. go.
        mv1. { apply t_po_lock. apply fn_lookup_insert. }
        mv1. { eapply t_po_peek; [apply fn_lookup_insert|exact Epk]. }
        mv1. { eapply t_po_unlock; apply fn_lookup_insert. }
        mv1. { eapply t_po_store; apply fn_lookup_insert. }
        apply rtc_refl.
      + go. rewrite !fn_lookup_insert. splits; try done. unfold queued; simpl. fold (q_bag Q). by rewrite Hb.
    - destruct (q_peek_ok dn DC dcomp_ok _ Hq Hb) as (d & Epk & H0 & Hin & Hl).
      assert (Hd : (now x < d.2)%Z). { rewrite (Hexp d Hin). apply Hno. unfold queued. apply elem_of_list_fmap. by exists d. }
      destruct x as [Q h s n cx P L]. simpl in *. subst h. eexists _, (Some (n + (d.2 - n)))%Z. split.
      + eapply rtc_l; [exists (LCall t CPop); split; [done|by apply s_call]|]. go.
        mv1. { apply t_po_lock. apply fn_lookup_insert. }
        mv1. { eapply t_po_peek; [apply fn_lookup_insert|exact Epk]. }
        mv1. { eapply t_po_clock; apply fn_lookup_insert. }
        rewrite decide_True by lia.
        mv1. { eapply t_po_unlock; apply fn_lookup_insert. }
        mv1. { eapply t_po_store; apply fn_lookup_insert. }
        rewrite decide_False by lia. rewrite decide_True by lia. apply rtc_refl.
      + go. rewrite !fn_lookup_insert. splits; try done. exists d.1. split; [split|].
        * unfold queued. apply elem_of_list_fmap. by exists d.
        * intros w (dw & -> & Hw)%elem_of_list_fmap. rewrite <- (Hexp d Hin), <- (Hexp dw Hw). apply dcomp_le. by apply Hl.
        * rewrite <- (Hexp d Hin). lia.
  Qed.


  Lemma sleeper_wakes x t dl n : Inv x -> pcs x t = PoWait (Some dl) -> holder x = None -> sleeping x = true -> ctxs x t <> Some true ->
    (dl <= n)%Z -> (exists e, e ∈ queued x /\ (expi e <= dl)%Z) ->
    exists y v, runs (just_pop t) (set_now n x) y /\ pcs y t = Idle /\ earliest expi v (queued x) /\
      queued x ≡ₚ v :: queued y /\ log y = log x ++ [Taken t v n (queued y); Returned t v].
  Proof.
    intros I Hpc Hh Hs Hc Hn (e & He & Hle).
    assert (I1 : Inv (set_now n x)) by (eapply (step_inv zero expi comp); [apply s_clock|done]).
    set (z := set_pc t PoLock (Sys (q x) (holder x) false n (ctxs x) (<[t:=PoSwap]> (pcs x)) (log x))).
    assert (R : runs (just_pop t) (set_now n x) z).
    { unfold z. destruct x as [Q h s n0 cx P L]; simpl in *. subst h s. mv1. { by apply t_po_timer with dl. }
      mv1. { apply t_po_swap. apply fn_lookup_insert. } apply rtc_refl. }
    assert (I2 : Inv z) by (by eapply runs_inv).
    destruct (lock_takes z t I2) as (y & v & R2 & H).
    { done. } { unfold z. go. apply fn_lookup_insert. } { done. } { exists e. split; [done|]. simpl. lia. }
    exists y, v. split; [by eapply rtc_transitive|]. exact H.
  Qed.
End dq.
