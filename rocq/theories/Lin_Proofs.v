(** Proof principles for linearizability: forward simulation, and hindsight
    (retroactive) effects of read-only calls. *)
From stdpp Require Import functions.
From Verif Require Import Base Lin_Spec.

Section lin.
  Context {Op Ret St : Type} (legal : St -> Op -> Ret -> St -> Prop).
  Notation mark := (mark Op Ret).
  Notation proj t ms := (filter (fun m : mark => thread_of m = t) ms).

  Inductive phase := Idle | Pending (o : Op) | Effected (o : Op) (r : Ret).
  (** phase of a goroutine at the end of its marks *)
  Inductive ends (t : nat) : list mark -> phase -> Prop :=
  | ENone : ends t [] Idle
  | ECalled o : ends t [Ev (Call t o)] (Pending o)
  | EEffect o r : ends t [Ev (Call t o); Eff t o r] (Effected o r)
  | EMore o r ms ph : ends t ms ph -> ends t (Ev (Call t o) :: Eff t o r :: Ev (Return t r) :: ms) ph.
  Lemma ends_ok t ms ph : ends t ms ph -> thread_ok t ms.
  Proof. induction 1; constructor; done. Qed.
  Lemma ends_call t ms o : ends t ms Idle -> ends t (ms ++ [Ev (Call t o)]) (Pending o).
  Proof.
    intros H. remember Idle as ph. induction H; simpl in *; simplify_eq; [constructor|]. constructor. auto.
  Qed.
  Lemma ends_eff t ms o r : ends t ms (Pending o) -> ends t (ms ++ [Eff t o r]) (Effected o r).
  Proof.
    intros H. remember (Pending o) as ph. induction H; simpl in *; simplify_eq; [constructor|]. constructor. auto.
  Qed.
  Lemma ends_ret t ms o r : ends t ms (Effected o r) -> ends t (ms ++ [Ev (Return t r)]) Idle.
  Proof.
    intros H. remember (Effected o r) as ph. induction H; simpl in *; simplify_eq; [repeat constructor|]. constructor. auto.
  Qed.
  Lemma history_app (a b : list mark) : history (a ++ b) = history a ++ history b.
  Proof. unfold history. by rewrite omap_app. Qed.
  Lemma effects_app (a b : list mark) : effects (a ++ b) = effects a ++ effects b.
  Proof. unfold effects. by rewrite omap_app. Qed.
  Lemma legal_run_app s a b s' : legal_run legal s (a ++ b) s' <-> exists s1, legal_run legal s a s1 /\ legal_run legal s1 b s'.
  Proof.
    revert s. induction a as [|[o r] a IH]; intros s; simpl.
    - split; [intros H; exists s; split; [constructor|done]|]. intros (s1 & H1 & H2). by inversion H1; subst.
    - split.
      + intros H. inversion H as [|? s1 ? ? ? ? Hl Hr]; subst. apply IH in Hr as (s2 & ? & ?).
        exists s2. split; [by econstructor|done].
      + intros (s1 & H1 & H2). inversion H1 as [|? s2 ? ? ? ? Hl Hr]; subst. econstructor; [done|]. apply IH. by exists s1.
  Qed.

  (** marked histories with the phase of every goroutine *)
  Definition marked (s0 : St) (ms : list mark) (s : St) (ph : nat -> phase) : Prop :=
    (forall t, ends t (proj t ms) (ph t)) /\ legal_run legal s0 (effects ms) s.
  Lemma marked_nil s0 : marked s0 [] s0 (fun _ => Idle).
  Proof. split; [intros; constructor|constructor]. Qed.
  Lemma proj_app t (a b : list mark) : proj t (a ++ b) = proj t a ++ proj t b.
  Proof. apply filter_app. Qed.
  Lemma upd_proj s0 ms s ph t m p' : marked s0 ms s ph -> thread_of m = t ->
    ends t (proj t ms ++ [m]) p' -> forall t', ends t' (proj t' (ms ++ [m])) (<[t := p']> ph t').
  Proof.
    intros [Hm _] Ht He t'. rewrite proj_app. destruct (decide (t' = t)) as [->|Hne].
    - rewrite fn_lookup_insert. rewrite filter_cons, decide_True by done. exact He.
    - rewrite fn_lookup_insert_ne by done. rewrite filter_cons, decide_False by congruence.
      simpl. rewrite app_nil_r. apply Hm.
  Qed.
  Lemma marked_call s0 ms s ph t o : marked s0 ms s ph -> ph t = Idle ->
    marked s0 (ms ++ [Ev (Call t o)]) s (<[t := Pending o]> ph).
  Proof.
    intros H Hp. split.
    - eapply upd_proj; [done|done|]. apply ends_call. rewrite <- Hp. apply H.
    - rewrite effects_app. simpl. rewrite app_nil_r. apply H.
  Qed.
  Lemma marked_ret s0 ms s ph t o r : marked s0 ms s ph -> ph t = Effected o r ->
    marked s0 (ms ++ [Ev (Return t r)]) s (<[t := Idle]> ph).
  Proof.
    intros H Hp. split.
    - eapply upd_proj; [done|done|]. eapply ends_ret. rewrite <- Hp. apply H.
    - rewrite effects_app. simpl. rewrite app_nil_r. apply H.
  Qed.
  Lemma marked_eff s0 ms s s' ph t o r : marked s0 ms s ph -> ph t = Pending o -> legal s o r s' ->
    marked s0 (ms ++ [Eff t o r]) s' (<[t := Effected o r]> ph).
  Proof.
    intros H Hp Hl. split.
    - eapply upd_proj; [done|done|]. eapply ends_eff. rewrite <- Hp. apply H.
    - rewrite effects_app. apply legal_run_app. exists s. split; [apply H|]. simpl. econstructor; [done|constructor].
  Qed.
  (** a read-only call may take effect at any earlier moment since it was called *)
  Lemma marked_past s0 ms1 ms2 s1 s ph t o r : marked s0 (ms1 ++ ms2) s ph -> ph t = Pending o ->
    proj t ms2 = [] -> legal_run legal s0 (effects ms1) s1 -> legal_run legal s1 (effects ms2) s -> legal s1 o r s1 ->
    marked s0 (ms1 ++ Eff t o r :: ms2) s (<[t := Effected o r]> ph).
  Proof.
    intros [Hm Hl] Hp Hq Hr1 Hr2 Hl1. split.
    - intros t'. rewrite proj_app, filter_cons. specialize (Hm t'). rewrite proj_app in Hm.
      destruct (decide (t' = t)) as [->|Hne].
      + rewrite fn_lookup_insert. simpl. rewrite decide_True by done. rewrite Hq, app_nil_r in Hm. rewrite Hq.
        eapply ends_eff. by rewrite <- Hp.
      + rewrite fn_lookup_insert_ne by done. simpl. rewrite decide_False by congruence. done.
    - rewrite effects_app. apply legal_run_app. exists s1. split; [done|]. simpl. by econstructor.
  Qed.
  Lemma marked_linearizes s0 ms s ph : marked s0 ms s ph -> linearizes legal s0 (history ms) ms s.
  Proof. intros [Hm Hl]. split; [done|]. split; [|done]. intros t. eapply ends_ok, Hm. Qed.

  (** forward simulation *)
  Inductive actions : St -> (nat -> phase) -> list mark -> St -> (nat -> phase) -> Prop :=
  | ANil s ph : actions s ph [] s ph
  | ACall s ph t o ms s' ph' : ph t = Idle -> actions s (<[t := Pending o]> ph) ms s' ph' ->
      actions s ph (Ev (Call t o) :: ms) s' ph'
  | AEff s s1 ph t o r ms s' ph' : ph t = Pending o -> legal s o r s1 ->
      actions s1 (<[t := Effected o r]> ph) ms s' ph' -> actions s ph (Eff t o r :: ms) s' ph'
  | ARet s ph t o r ms s' ph' : ph t = Effected o r -> actions s (<[t := Idle]> ph) ms s' ph' ->
      actions s ph (Ev (Return t r) :: ms) s' ph'.
  Lemma marked_actions s0 ms s ph as_ s' ph' : marked s0 ms s ph -> actions s ph as_ s' ph' ->
    marked s0 (ms ++ as_) s' ph'.
  Proof.
    intros H HA. revert ms H. induction HA as [s ph|s ph t o ms' s' ph' Hp _ IH|s s1 ph t o r ms' s' ph' Hp Hl _ IH|s ph t o r ms' s' ph' Hp _ IH]; intros ms H.
    - by rewrite app_nil_r.
    - rewrite cons_middle, app_assoc. apply IH. by apply marked_call.
    - rewrite cons_middle, app_assoc. apply IH. by eapply marked_eff.
    - rewrite cons_middle, app_assoc. apply IH. by eapply marked_ret.
  Qed.

  Context {C : Type} (step : C -> option (event Op Ret) -> C -> Prop).
  Context (R : C -> St -> (nat -> phase) -> Prop).
  Lemma simulation c0 s0 :
    R c0 s0 (fun _ => Idle) ->
    (forall c l c' s ph, R c s ph -> step c l c' ->
       exists ms s' ph', actions s ph ms s' ph' /\ history ms = option_list l /\ R c' s' ph') ->
    forall h c, exec step c0 h c -> exists ms s ph, linearizes legal s0 h ms s /\ R c s ph.
  Proof.
    intros H0 Hstep h c He.
    assert (exists ms s ph, marked s0 ms s ph /\ history ms = h /\ R c s ph) as (ms & s & ph & Hm & <- & HR).
    { induction He as [c|c c1 h c2 He IH Hs|c c1 h e c2 He IH Hs].
      - exists [], s0, (fun _ => Idle). split; [apply marked_nil|done].
      - destruct IH as (ms & s & ph & Hm & <- & HR); [done|].
        destruct (Hstep _ _ _ _ _ HR Hs) as (as_ & s' & ph' & HA & Hh & HR').
        exists (ms ++ as_), s', ph'. split; [by eapply marked_actions|]. rewrite history_app, Hh. simpl. by rewrite app_nil_r.
      - destruct IH as (ms & s & ph & Hm & <- & HR); [done|].
        destruct (Hstep _ _ _ _ _ HR Hs) as (as_ & s' & ph' & HA & Hh & HR').
        exists (ms ++ as_), s', ph'. split; [by eapply marked_actions|]. by rewrite history_app, Hh. }
    exists ms, s, ph. split; [by eapply marked_linearizes|done].
  Qed.
End lin.
