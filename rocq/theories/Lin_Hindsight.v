(** Simulation with hindsight: a read-only call may be given, when it ends, any
    of the abstract states that were current since it was called. *)
From stdpp Require Import functions.
From stdpp Require Import list.
From Verif Require Import Base Lin_Spec Lin_Proofs.

Section hind.
  Context {Op Ret St : Type} (legal : St -> Op -> Ret -> St -> Prop).
  Notation mark := (mark Op Ret).
  Notation proj t ms := (filter (fun m : mark => thread_of m = t) ms).
  Notation phases := (nat -> @phase Op Ret).
  Notation pasts := (nat -> list St).

  Inductive haction : St -> phases -> pasts -> option (event Op Ret) -> St -> phases -> pasts -> Prop :=
  | HNone s ph past : haction s ph past None s ph past
  | HCall s ph past t o : ph t = Idle ->
      haction s ph past (Some (Call t o)) s (<[t := Pending o]> ph) (<[t := [s]]> past)
  | HEff s ph past t o r s' : ph t = Pending o -> legal s o r s' ->
      haction s ph past None s' (<[t := Effected o r]> ph) (fun t' => s' :: past t')
  | HPast s ph past t o r s1 : ph t = Pending o -> s1 ∈ past t -> legal s1 o r s1 ->
      haction s ph past None s (<[t := Effected o r]> ph) past
  | HRet s ph past t o r : ph t = Effected o r ->
      haction s ph past (Some (Return t r)) s (<[t := Idle]> ph) past.
End hind.

(** The legal runs of a nondeterministic object may pass through different
    states; the log therefore also records the state after every effect. *)
Section log.
  Context {Op Ret St : Type} (legal : St -> Op -> Ret -> St -> Prop).
  Notation mark := (mark Op Ret).
  Notation proj t ms := (filter (fun m : mark => thread_of m = t) ms).
  Notation phases := (nat -> @phase Op Ret).
  Notation pasts := (nat -> list St).
  (** marks, with the abstract state after each *)
  Notation entry := (mark * St)%type.
  Fixpoint run_ok (s : St) (l : list entry) : Prop :=
    match l with
    | [] => True
    | (Ev _, s') :: l => s' = s /\ run_ok s' l
    | (Eff _ o r, s') :: l => legal s o r s' /\ run_ok s' l
    end.
  Definition last_st (s : St) (l : list entry) : St := default s (snd <$> last l).
  Lemma last_st_snoc s l e : last_st s (l ++ [e]) = e.2.
  Proof. unfold last_st. by rewrite last_snoc. Qed.
  Lemma last_st_cons s e l : last_st s (e :: l) = last_st e.2 l.
  Proof. unfold last_st. destruct l as [|x l]; [done|]. rewrite last_cons_cons. destruct (last (x :: l)) eqn:E; [done|]. by apply last_None in E. Qed.
  Lemma last_st_app s a b : last_st s (a ++ b) = last_st (last_st s a) b.
  Proof. revert s. induction a as [|e a IH]; intros s; [done|]. cbn [app]. by rewrite !last_st_cons. Qed.
  Lemma run_ok_app s a b : run_ok s (a ++ b) <-> run_ok s a /\ run_ok (last_st s a) b.
  Proof.
    revert s. induction a as [|[m s'] a IH]; intros s; [cbn; tauto|]. cbn [app]. rewrite last_st_cons. cbn [run_ok snd].
    destruct m; rewrite IH; tauto.
  Qed.
  Lemma run_ok_legal s l : run_ok s l -> legal_run legal s (effects (l.*1)) (last_st s l).
  Proof.
    revert s. induction l as [|[m s'] l IH]; intros s H; [constructor|]. rewrite last_st_cons. cbn [run_ok snd] in *. destruct m as [e|t o r].
    - destruct H as [-> H]. cbn. by apply IH.
    - destruct H as [H1 H]. cbn. econstructor; [done|]. by apply IH.
  Qed.

  Definition lmarked (s0 : St) (l : list entry) (s : St) (ph : phases) (past : pasts) : Prop :=
    (forall t, ends t (proj t (l.*1)) (ph t)) /\ run_ok s0 l /\ last_st s0 l = s /\
    (forall t o, ph t = Pending o -> forall s1, s1 ∈ past t ->
       exists l1 l2, l = l1 ++ l2 /\ proj t (l2.*1) = [] /\ last_st s0 l1 = s1).
  Lemma lmarked_nil s0 past : lmarked s0 [] s0 (fun _ => Idle) past.
  Proof. unfold lmarked. splits; [intros; constructor|done|done|done]. Qed.
  Lemma proj_snoc t (l : list entry) m s' : proj t ((l ++ [(m, s')]).*1) = proj t (l.*1) ++ (if decide (thread_of m = t) then [m] else []).
  Proof. rewrite fmap_app, filter_app. f_equal. Qed.
  Lemma ends_upd (ph : phases) (l : list entry) t m s' p' : (forall t, ends t (proj t (l.*1)) (ph t)) -> thread_of m = t ->
    ends t (proj t (l.*1) ++ [m]) p' -> forall t', ends t' (proj t' ((l ++ [(m, s')]).*1)) (<[t := p']> ph t').
  Proof.
    intros H Ht He t'. rewrite proj_snoc. destruct (decide (t' = t)) as [->|N].
    - by rewrite fn_lookup_insert, decide_True.
    - rewrite fn_lookup_insert_ne by done. rewrite decide_False by congruence. by rewrite app_nil_r.
  Qed.
  Lemma lmarked_step s0 l s ph past e s' ph' past' : lmarked s0 l s ph past -> haction legal s ph past e s' ph' past' ->
    exists l', lmarked s0 l' s' ph' past' /\ history (l'.*1) = history (l.*1) ++ option_list e.
  Proof.
    intros (He & Hr & Hs & Hp) A. destruct A as [s ph past|s ph past t o Ht|s ph past t o r s' Ht Hl|s ph past t o r s1 Ht Hin Hl|s ph past t o r Ht].
    - exists l. split; [done|]. by rewrite app_nil_r.
    - exists (l ++ [(Ev (Call t o), s)]). split.
      + unfold lmarked. splits.
        * apply ends_upd; [done|done|]. apply ends_call. by rewrite <-Ht.
        * apply run_ok_app. split; [done|]. by rewrite Hs.
        * by rewrite last_st_snoc.
        * intros t' o'. destruct (decide (t' = t)) as [->|N].
          -- rewrite !fn_lookup_insert. intros _ s1 ->%elem_of_list_singleton. exists (l ++ [(Ev (Call t o), s)]), []. splits; [by rewrite app_nil_r|done|by rewrite last_st_snoc].
          -- rewrite !fn_lookup_insert_ne by done. intros Hq s1 Hin. destruct (Hp t' o' Hq s1 Hin) as (l1 & l2 & -> & Hj & Hl1).
             exists l1, (l2 ++ [(Ev (Call t o), s)]). splits; [by rewrite app_assoc| |done]. rewrite proj_snoc, Hj, decide_False by (cbn; congruence). done.
      + by rewrite fmap_app, history_app.
    - exists (l ++ [(Eff t o r, s')]). split.
      + unfold lmarked. splits.
        * apply ends_upd; [done|done|]. apply ends_eff. by rewrite <-Ht.
        * apply run_ok_app. split; [done|]. by rewrite Hs.
        * by rewrite last_st_snoc.
        * intros t' o'. destruct (decide (t' = t)) as [->|N]; [by rewrite fn_lookup_insert|].
          rewrite fn_lookup_insert_ne by done. intros Hq s1 [->|Hin]%elem_of_cons.
          -- exists (l ++ [(Eff t o r, s')]), []. splits; [by rewrite app_nil_r|done|by rewrite last_st_snoc].
          -- destruct (Hp t' o' Hq s1 Hin) as (l1 & l2 & -> & Hj & Hl1).
             exists l1, (l2 ++ [(Eff t o r, s')]). splits; [by rewrite app_assoc| |done]. rewrite proj_snoc, Hj, decide_False by (cbn; congruence). done.
      + rewrite fmap_app, history_app. done.
    - destruct (Hp t o Ht s1 Hin) as (l1 & l2 & -> & Hj & Hl1).
      exists (l1 ++ (Eff t o r, s1) :: l2). apply run_ok_app in Hr as [Hr1 Hr2]. rewrite Hl1 in Hr2. rewrite last_st_app, Hl1 in Hs. split.
      + unfold lmarked. splits.
        * intros t'. specialize (He t'). rewrite fmap_app, filter_app in He |- *. cbn [fmap list_fmap fst]. destruct (decide (t' = t)) as [->|N].
          -- rewrite fn_lookup_insert, filter_cons, decide_True by done. rewrite Hj in He |- *. rewrite app_nil_r in He. apply ends_eff. by rewrite <-Ht.
          -- rewrite fn_lookup_insert_ne by done. rewrite filter_cons, decide_False by (cbn; congruence). done.
        * apply run_ok_app. split; [done|]. rewrite Hl1. cbn. done.
        * rewrite last_st_app, last_st_cons. done.
        * intros t' o'. destruct (decide (t' = t)) as [->|N]; [by rewrite fn_lookup_insert|].
          rewrite fn_lookup_insert_ne by done. intros Hq s2 Hin2. destruct (Hp t' o' Hq s2 Hin2) as (k1 & k2 & E & Hj' & Hk).
          assert (NT : thread_of (Eff t o r : mark) <> t') by (cbn; congruence).
          apply app_eq_app in E as (k & [[-> ->]|[-> ->]]).
          -- exists k1, (k ++ (Eff t o r, s1) :: l2). splits; [by rewrite <-app_assoc| |done].
             rewrite fmap_app, filter_app in Hj'. apply app_eq_nil in Hj' as [J1 J2].
             rewrite fmap_app, filter_app, J1. cbn [fmap list_fmap fst]. rewrite filter_cons, decide_False by done. done.
          -- exists (l1 ++ (Eff t o r, s1) :: k), k2. splits; [by rewrite <-app_assoc|done|].
             rewrite last_st_app, last_st_cons. cbn [snd]. rewrite last_st_app, Hl1 in Hk. done.
      + rewrite !fmap_app, !history_app. cbn. rewrite app_nil_r. done.
    - exists (l ++ [(Ev (Return t r), s)]). split.
      + unfold lmarked. splits.
        * apply ends_upd; [done|done|]. eapply ends_ret. by rewrite <-Ht.
        * apply run_ok_app. split; [done|]. by rewrite Hs.
        * by rewrite last_st_snoc.
        * intros t' o'. destruct (decide (t' = t)) as [->|N]; [by rewrite fn_lookup_insert|].
          rewrite fn_lookup_insert_ne by done. intros Hq s1 Hin. destruct (Hp t' o' Hq s1 Hin) as (l1 & l2 & -> & Hj & Hl1).
          exists l1, (l2 ++ [(Ev (Return t r), s)]). splits; [by rewrite app_assoc| |done]. rewrite proj_snoc, Hj, decide_False by (cbn; congruence). done.
      + by rewrite fmap_app, history_app.
  Qed.

  Context {C : Type} (step : C -> option (event Op Ret) -> C -> Prop).
  Context (R : C -> St -> phases -> pasts -> Prop).
  Lemma hindsight_simulation c0 s0 past0 :
    R c0 s0 (fun _ => Idle) past0 ->
    (forall c e c' s ph past, R c s ph past -> step c e c' ->
       exists s' ph' past', haction legal s ph past e s' ph' past' /\ R c' s' ph' past') ->
    forall h c, exec step c0 h c -> exists ms s ph past, linearizes legal s0 h ms s /\ R c s ph past.
  Proof.
    intros H0 Hstep h c E.
    assert (exists l s ph past, lmarked s0 l s ph past /\ history (l.*1) = h /\ R c s ph past) as (l & s & ph & past & Hm & Hh & HR).
    { induction E as [c|c c1 h c2 E IH Hs|c c1 h e c2 E IH Hs].
      - exists [], s0, (fun _ => Idle), past0. split; [apply lmarked_nil|done].
      - destruct IH as (l & s & ph & past & Hm & Hh & HR); [done|].
        destruct (Hstep _ _ _ _ _ _ HR Hs) as (s' & ph' & past' & A & HR').
        destruct (lmarked_step _ _ _ _ _ _ _ _ _ Hm A) as (l' & Hm' & Hh'). exists l', s', ph', past'. splits; [done| |done].
        rewrite Hh', Hh. cbn. by rewrite app_nil_r.
      - destruct IH as (l & s & ph & past & Hm & Hh & HR); [done|].
        destruct (Hstep _ _ _ _ _ _ HR Hs) as (s' & ph' & past' & A & HR').
        destruct (lmarked_step _ _ _ _ _ _ _ _ _ Hm A) as (l' & Hm' & Hh'). exists l', s', ph', past'. splits; [done| |done].
        by rewrite Hh', Hh. }
    destruct Hm as (He & Hr & Hs & _). exists (l.*1), s, ph, past. split; [|done]. unfold linearizes. splits; [done| |].
    - intros t. eapply ends_ok, He.
    - rewrite <-Hs. by apply run_ok_legal.
  Qed.
End log.
