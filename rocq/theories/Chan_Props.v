(** Property theorems for FromChan (part of C29). *)
From Verif Require Import Base Chan_Model.

(** the values among the results *)
Definition values {T} (g : list (T * bool)) : list T :=
  omap (fun r : T * bool => if r.2 then Some r.1 else None) g.

Section proofs.
  Context {T : Type} (zero : T) (cap : nat).
  Lemma values_app (g h : list (T * bool)) : values (g ++ h) = values g ++ values h.
  Proof. apply omap_app. Qed.
  Definition inv (x : cstate T) : Prop :=
    sent x = values (got x) ++ buf x /\
    (exists vs n, got x = ((fun v => (v, true)) <$> vs) ++ replicate n (zero, false) /\
       (n <> 0 -> closed x = true /\ buf x = [])).
  Lemma inv_step x y : inv x -> cstep zero cap x y -> inv y.
  Proof.
    intros [I1 (vs & n & I2 & I3)] H. destruct H as [b c w s g|v b w s g L|v w s g|v b c w s g|w s g|b w s g]; cbn [sent got buf closed] in *; split;
      cbn [sent got buf closed]; try done; try (by exists vs, n).
    - by rewrite I1, app_assoc.
    - exists vs, n. split; [done|]. intros H. destruct (I3 H). done.
    - rewrite values_app, I1, !app_nil_r. done.
    - destruct n as [|n]; [|by destruct (I3 ltac:(done))]. exists (vs ++ [v]), 0. subst g. cbn [replicate]. rewrite !app_nil_r, fmap_app. done.
    - rewrite values_app, I1, <- app_assoc. done.
    - destruct n as [|n]; [|by destruct (I3 ltac:(done))]. exists (vs ++ [v]), 0. subst g. cbn [replicate]. rewrite !app_nil_r, fmap_app. done.
    - rewrite values_app, I1, app_nil_r. cbn. by rewrite !app_nil_r.
    - exists vs, (S n). split; [|done]. subst g. rewrite <- app_assoc. f_equal. by rewrite replicate_S_end.
    - exists vs, n. split; [done|]. intros H. by destruct (I3 H).
  Qed.
  Lemma inv_reach x : rtc (cstep zero cap) cinit x -> inv x.
  Proof.
    intros H. apply rtc_ind_r with (P := inv) (z := x) in H; [done| |intros y z _ Hyz I; by eapply inv_step].
    split; [done|]. by exists [], 0.
  Qed.
End proofs.

(** Whatever the schedule: the values handed out are, in order, the first
    values sent, each exactly once, the rest being in the buffer; then only
    (zero, false), and that only once the channel is closed and everything sent
    has been handed out. *)
Theorem C29_from_chan :
  forall (T : Type) (zero : T) (cap : nat) (x : cstate T), rtc (cstep zero cap) cinit x ->
  sent x = values (got x) ++ buf x /\
  (exists n, got x = ((fun v => (v, true)) <$> values (got x)) ++ replicate n (zero, false) /\
     (n <> 0 -> closed x = true /\ values (got x) = sent x)).
Proof.
  intros T zero cap x H. destruct (inv_reach zero cap x H) as [I1 (vs & n & I2 & I3)]. split; [done|].
  assert (E : values (got x) = vs).
  { rewrite I2, values_app. replace (values (replicate n (zero, false))) with (@nil T); [|clear; by induction n].
    rewrite app_nil_r. clear. induction vs as [|v vs IH]; [done|]. cbn. by f_equal. }
  exists n. rewrite E. split; [done|]. intros Hn. destruct (I3 Hn) as [Hc Hb]. split; [done|]. by rewrite I1, E, Hb, app_nil_r.
Qed.
Print Assumptions C29_from_chan.

(** A call that waits can be answered as soon as something is in the buffer or
    the channel is closed, and the answer is then determined. *)
Theorem C29_from_chan_answers :
  forall (T : Type) (zero : T) (cap : nat) (x : cstate T), waiting x <> 0 -> buf x <> [] \/ closed x = true ->
  exists y, cstep zero cap x y /\ waiting y = waiting x - 1 /\
    got y = got x ++ [match buf x with v :: _ => (v, true) | [] => (zero, false) end].
Proof.
  intros T zero cap [b c w s g] Hw Hb. cbn in *. destruct w as [|w]; [done|]. destruct b as [|v b].
  - destruct Hb as [|]; [done|]. subst c. eexists. split; [apply c_recv_closed|]. cbn. split; [lia|done].
  - eexists. split; [apply c_recv|]. cbn. split; [lia|done].
Qed.
Print Assumptions C29_from_chan_answers.

Example C29_from_chan_met :
  exists x, rtc (cstep 0 1) cinit x /\ got x = [(7, true); (8, true); (0, false)] /\ sent x = [7; 8].
Proof.
  eexists. split.
  - eapply rtc_l; [apply c_call|]. eapply rtc_l; [apply (c_handoff _ _ 7)|]. eapply rtc_l; [apply (c_send _ _ 8); cbn; lia|].
    eapply rtc_l; [apply c_close|]. eapply rtc_l; [apply c_call|]. eapply rtc_l; [apply c_recv|].
    eapply rtc_l; [apply c_call|]. eapply rtc_l; [apply c_recv_closed|]. constructor.
  - done.
Qed.
