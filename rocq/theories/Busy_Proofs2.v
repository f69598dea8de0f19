(** Invariants of Collect with callbacks that take time. *)
From Verif Require Import Base Lin_Spec Busy_Model Busy_Spec Busy_Proofs.

Lemma cown_app {T} i (h h' : list (cev T)) : cown i (h ++ h') = cown i h ++ cown i h'.
Proof. apply omap_app. Qed.
Lemma cown_same {T} i (e : wev T unit) : cown i [CGo i e] = [e].
Proof. cbn. by rewrite decide_True. Qed.
Lemma cown_other {T} i j (e : wev T unit) : j <> i -> cown i [CGo j e] = [].
Proof. intros N. cbn. by rewrite decide_False. Qed.

Section collect.
  Context {T : Type} (segs : list (list T)).
  Notation stp := (cstep segs).
  Definition cstarted (m : cmain) : nat := match m with CSpawn k => k | _ => length segs end.
  Definition todo (w : worker T unit) : nat := match w with WDone => 0 | _ => 1 end.
  Record cinv (h : list (cev T)) (x : cstate T) : Prop := {
    ci_len : length (cws x) = cstarted (cm x);
    ci_started : cstarted (cm x) <= length segs;
    ci_none : forall i, cws x !! i = None -> cown i h = [];
    ci_some : forall i w, cws x !! i = Some w -> exists l, segs !! i = Some l /\ sits tt l (cown i h) w;
    ci_wg : cwg x = sum_list (todo <$> cws x);
    ci_ret : CReturn ∈ h <-> cm x = CReturned;
    ci_zero : cm x = CReturned -> cwg x = 0;
  }.
  Lemma wstep_todo (w w' : worker T unit) e : wstep w e w' -> todo w = 1 /\ todo w' = 1.
  Proof. by intros []. Qed.
  Lemma cinv_init : cinv [] cinit.
  Proof. split; cbn; try done; try lia. split; [by intros H; apply elem_of_nil in H|done]. Qed.
  Lemma todo_pos ws i (w : worker T unit) : ws !! i = Some w -> w <> WDone -> 1 <= sum_list (todo <$> ws).
  Proof.
    revert i. induction ws as [|v ws IH]; intros i E N; [done|]. change (1 <= todo v + sum_list (todo <$> ws)).
    destruct i as [|i]; [injection E as ->; destruct w; try done; cbn [todo]; lia|]. specialize (IH i E N). lia.
  Qed.
  Lemma cinv_step h x e y : cinv h x -> stp x e y -> cinv (h ++ option_list e) y.
  Proof.
    intros I St. destruct I as [Il Is In Iw Ig Ir Iz].
    destruct St; cbn [cm cws cwg] in *; try change (option_list None) with ([] : list (cev T)); try match goal with |- context [option_list (Some ?e)] => change (option_list (Some e)) with [e] end.
    - cbn [cstarted] in *. rewrite app_nil_r. pose proof (lookup_lt_Some _ _ _ H) as L.
      split; cbn [cm cws cwg cstarted]; try done.
      + rewrite app_length. cbn. lia.
      + lia.
      + intros i Hi. apply In. apply lookup_ge_None in Hi. rewrite app_length in Hi. apply lookup_ge_None. lia.
      + intros i w Hi. apply lookup_app_Some in Hi as [Hi|(Li & Hi)]; [by apply Iw|].
        destruct (i - length ws) eqn:D; [|done]. injection Hi as <-. assert (i = k) as -> by lia. exists l. split; [done|]. rewrite In by (apply lookup_ge_None; lia). constructor.
      + rewrite snoc_sum, Ig. done.
      + rewrite Ir. done.
    - cbn [cstarted] in *. rewrite app_nil_r. apply lookup_ge_None in H. split; cbn [cm cws cwg cstarted]; try done; [lia|]. by rewrite Ir.
    - split; cbn [cm cws cwg cstarted]; try done.
      + intros i Hi. rewrite cown_app, app_nil_r. by apply In.
      + intros i w Hi. rewrite cown_app, app_nil_r. by apply Iw.
      + split; [done|]. intros _. apply elem_of_app. right. by apply elem_of_list_singleton.
    - destruct (wstep_todo _ _ _ H0) as [T1 T2]. split; cbn [cm cws cwg cstarted]; try done.
      + by rewrite insert_length.
      + intros j Hj. rewrite cown_app. assert (ws !! j = None) as Hj'. { apply lookup_ge_None. apply lookup_ge_None in Hj. by rewrite insert_length in Hj. }
        rewrite (In j Hj'). rewrite cown_other; [done|]. intros ->. congruence.
      + intros j w1 Hj. rewrite cown_app. destruct (decide (i = j)) as [<-|N].
        * rewrite list_lookup_insert in Hj by (by eapply lookup_lt_Some). injection Hj as <-. destruct (Iw i w H) as (l & A & B). exists l. split; [done|]. rewrite cown_same. by eapply sits_step.
        * rewrite list_lookup_insert_ne in Hj by done. rewrite cown_other by done. rewrite app_nil_r. by apply Iw.
      + pose proof (any_sum todo ws i w w' H). lia.
      + rewrite elem_of_app, elem_of_list_singleton, Ir. split; [by intros [?|?]|by left].
    - rewrite app_nil_r. pose proof (any_sum todo ws i _ WDone H) as S. cbn [todo] in S. split; cbn [cm cws cwg cstarted]; try done.
      + by rewrite insert_length.
      + intros j Hj. apply In. apply lookup_ge_None. apply lookup_ge_None in Hj. by rewrite insert_length in Hj.
      + intros j w1 Hj. destruct (decide (i = j)) as [<-|N].
        * rewrite list_lookup_insert in Hj by (by eapply lookup_lt_Some). injection Hj as <-. destruct (Iw i _ H) as (l & A & B). exists l. split; [done|]. by exists a.
        * rewrite list_lookup_insert_ne in Hj by done. by apply Iw.
      + lia.
      + intros M. specialize (Iz M). lia.
  Qed.
  Lemma cinv_exec h x : exec stp cinit h x -> cinv h x.
  Proof.
    intros E. remember cinit as x0 eqn:E0. induction E as [c|c c1 h c2 E IH St|c c1 h e c2 E IH St]; subst c.
    - apply cinv_init.
    - pose proof (cinv_step _ _ _ _ (IH eq_refl) St) as I. cbn in I. by rewrite app_nil_r in I.
    - by pose proof (cinv_step _ _ _ _ (IH eq_refl) St).
  Qed.
  Lemma c_all_done h x : cinv h x -> cm x = CReturned -> forall i w, cws x !! i = Some w -> w = WDone.
  Proof.
    intros I M i w Hi. pose proof (ci_zero _ _ I M) as Z. rewrite (ci_wg _ _ I) in Z.
    destruct w; try done; by assert (1 <= sum_list (todo <$> cws x)) by (by eapply todo_pos); lia.
  Qed.
  Lemma c_no_step x e y : (forall i w, cws x !! i = Some w -> w = WDone) -> cm x = CReturned -> ~ stp x e y.
  Proof.
    intros D M St. destruct St; cbn [cm cws] in *; try done.
    - specialize (D _ _ H). subst w. inversion H0.
    - by specialize (D _ _ H).
  Qed.
  Lemma c_goes_on x i w : cws x !! i = Some w -> w <> WDone -> exists e w' y, stp x e y /\ cws y = <[i := w']> (cws x) /\ cm y = cm x.
  Proof.
    destruct x as [m ws n]. cbn [cws cm]. intros Hi N. destruct (w_enabled w N) as [[a ->]|(e & w' & St)]; eexists _, _, _; [split; [by eapply c_done|done]|split; [by eapply c_work|done]].
  Qed.
  Lemma zero_todo (ws : list (worker T unit)) : sum_list (todo <$> ws) <> 0 -> exists i w, ws !! i = Some w /\ w <> WDone.
  Proof.
    induction ws as [|v ws IH]; intros H; [done|]. change (todo v + sum_list (todo <$> ws) <> 0) in H.
    destruct v; try by (exists 0; eexists _; split; [done|done]). destruct IH as (i & w & A & B); [cbn in H; lia|]. by exists (S i), w.
  Qed.
  Lemma c_progress h x : exec stp cinit h x -> cm x = CReturned \/ exists e y, stp x e y.
  Proof.
    intros E. pose proof (cinv_exec _ _ E) as I. destruct x as [[k| |] ws n]; cbn [cm]; [right|right|by left].
    - destruct (segs !! k) as [l|] eqn:Ek; eexists _, _; [by apply c_spawn|by apply c_spawned].
    - destruct n as [|n]; [eexists _, _; apply c_return|]. pose proof (ci_wg _ _ I) as G. cbn in G.
      destruct (zero_todo ws) as (i & w & Hi & N); [lia|]. destruct (c_goes_on (CState CWait ws (S n)) _ _ Hi N) as (e & w' & y & St & _). by exists e, y.
  Qed.
  Definition cmain_mu (m : cmain) : nat :=
    match m with CSpawn k => 2 + sum_list ((fun l => 4 * length l + 6) <$> drop k segs) | CWait => 1 | CReturned => 0 end.
  Definition cmu (x : cstate T) : nat := cmain_mu (cm x) + sum_list (mu <$> cws x).
  Lemma cmu_step x e y : stp x e y -> cmu y < cmu x.
  Proof.
    intros St. destruct St; unfold cmu; cbn [cm cws cmain_mu].
    - rewrite (drop_S segs l k) by done. rewrite snoc_sum. cbn. replace (k + 1) with (S k) by lia. lia.
    - lia.
    - lia.
    - pose proof (mu_sum ws i w w' H). pose proof (mu_step _ _ _ H0). lia.
    - pose proof (mu_sum ws i _ WDone H) as E. cbn [mu] in E. lia.
  Qed.
  Lemma c_bound : exists bound, forall n x, nsteps (fun a b => exists e, stp a e b) n cinit x -> n <= bound.
  Proof.
    exists (cmu cinit). assert (forall n x y, nsteps (fun a b => exists e, stp a e b) n x y -> n + cmu y <= cmu x) as H.
    { intros n x y S. induction S as [|n x y z [e St] S IH]; [lia|]. apply cmu_step in St. lia. }
    intros n x S. apply H in S. lia.
  Qed.
End collect.
