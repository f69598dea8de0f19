(** AllMatch and AnyMatch of parallel streams, with predicates that take time
    (C79): theorems about histories of TryFold in which f answers as these two
    functions make it. *)
From Verif Require Import Base Lin_Spec Busy_Model Busy_Spec Busy_Proofs4 BusyMatch_Spec BusyMatch_Proofs.

(** Whatever goroutine is when where, AllMatch that returns [ok] has checked every
    element if [ok] is true, and has found one that does not match otherwise, or the
    first element, with which the fold starts, does not match *)
Theorem C79_all_match_answers :
  forall (T : Type) (zero : T) (q : T -> bool) p (segs : list (list T)) init h x v ok,
  exec (tstep zero p segs init) tinit h x -> answers_as (all_match_cb q) h -> TReturn v ok ∈ h -> length segs = p -> 1 <= p ->
  (ok = true -> q init = true /\ forall y, y ∈ concat segs -> q y = true) /\
  (ok = false -> exists y, q y = false /\ (y = init \/ y ∈ concat segs)).
Proof.
  intros T zero q p segs init h x v ok E A Hv L P. split; intros ->.
  - destruct (match_true zero p segs init q _ _ _ E A Hv L P) as (_ & Gi & G). split; [done|].
    intros y Hy. apply elem_of_list_In, in_concat in Hy as (l & Hl%elem_of_list_In & Hy%elem_of_list_In). by apply (G l).
  - destruct (match_false zero p segs init q _ _ _ E A Hv) as (y & Gy & [->|(l & Hl & Hy)]); [exists init; auto|].
    exists y. split; [done|]. right. apply elem_of_list_In, in_concat. exists l. by rewrite <-!elem_of_list_In.
Qed.
Print Assumptions C79_all_match_answers.

(** so with the first element of the stream in one of the segments the answer does
    not depend on the schedule *)
Theorem C79_all_match_exact :
  forall (T : Type) (zero : T) (q : T -> bool) (segs : list (list T)) init h x v ok,
  exec (tstep zero (length segs) segs init) tinit h x -> answers_as (all_match_cb q) h -> TReturn v ok ∈ h -> init ∈ concat segs ->
  ok = true <-> forall y, y ∈ concat segs -> q y = true.
Proof.
  intros T zero q segs init h x v ok E A Hv Hi. destruct segs as [|l segs]; [by apply elem_of_nil in Hi|].
  destruct (C79_all_match_answers _ _ _ _ _ _ _ _ _ _ E A Hv eq_refl) as [At Af]; [cbn; lia|]. split; [intros H; apply (At H)|].
  intros G. destruct ok; [done|]. destruct (Af eq_refl) as (y & Gy & [->|Hy]); [rewrite (G _ Hi) in Gy|rewrite (G _ Hy) in Gy]; done.
Qed.
Print Assumptions C79_all_match_exact.

(** AnyMatch: it returns the opposite of the ok of TryFold *)
Theorem C79_any_match_answers :
  forall (T : Type) (zero : T) (q : T -> bool) p (segs : list (list T)) init h x v ok,
  exec (tstep zero p segs init) tinit h x -> answers_as (any_match_cb q) h -> TReturn v ok ∈ h -> length segs = p -> 1 <= p ->
  (negb ok = false -> q init = false /\ forall y, y ∈ concat segs -> q y = false) /\
  (negb ok = true -> exists y, q y = true /\ (y = init \/ y ∈ concat segs)).
Proof.
  intros T zero q p segs init h x v ok E A Hv L P. destruct ok; (split; [try done|try done]; intros _).
  - destruct (match_true zero p segs init (fun y => negb (q y)) _ _ _ E A Hv L P) as (_ & Gi & G). split; [by apply negb_true_iff|].
    intros y Hy. apply elem_of_list_In, in_concat in Hy as (l & Hl%elem_of_list_In & Hy%elem_of_list_In). apply negb_true_iff. by apply (G l).
  - destruct (match_false zero p segs init (fun y => negb (q y)) _ _ _ E A Hv) as (y & Gy & Hy). apply negb_false_iff in Gy. exists y. split; [done|].
    destruct Hy as [->|(l & Hl & Hy)]; [by left|right]. apply elem_of_list_In, in_concat. exists l. by rewrite <-!elem_of_list_In.
Qed.
Print Assumptions C79_any_match_answers.

Theorem C79_any_match_exact :
  forall (T : Type) (zero : T) (q : T -> bool) (segs : list (list T)) init h x v ok,
  exec (tstep zero (length segs) segs init) tinit h x -> answers_as (any_match_cb q) h -> TReturn v ok ∈ h -> init ∈ concat segs ->
  negb ok = true <-> exists y, y ∈ concat segs /\ q y = true.
Proof.
  intros T zero q segs init h x v ok E A Hv Hi. destruct segs as [|l segs]; [by apply elem_of_nil in Hi|].
  destruct (C79_any_match_answers _ _ _ _ _ _ _ _ _ _ E A Hv eq_refl) as [Af At]; [cbn; lia|]. split.
  - intros H. destruct (At H) as (y & Gy & [->|Hy]); [by exists init|by exists y].
  - intros (y & Hy & Gy). destruct ok; [|done]. destruct (Af eq_refl) as [_ G]. by rewrite (G y Hy) in Gy.
Qed.
Print Assumptions C79_any_match_exact.

(** With more segments than the parallelism AllMatch may answer true although an
    element does not match *)
Definition all_match_checks_everything : Prop :=
  forall (T : Type) (zero : T) (q : T -> bool) p (segs : list (list T)) init h x v,
  exec (tstep zero p segs init) tinit h x -> answers_as (all_match_cb q) h -> TReturn v true ∈ h -> 1 <= p ->
  forall y, y ∈ concat segs -> q y = true.

Local Ltac spell E := match type of E with ?l = _ => let l1 := eval vm_compute in l in change l with l1 in E end; repeat match type of E with
  | [] = ?h1 ++ _ => by destruct h1
  | _ :: _ = ?h1 ++ _ => let e := fresh "e" in destruct h1 as [|e h1]; cbn in E; [first [discriminate E | inversion E; subst; done]|injection E as _ E]
  end.
Local Ltac answers := split; [let E := fresh "Eq" in intros [|[|?]] ? ? ? ? ? ? E; spell E|let E := fresh "Eq" in intros ? ? ? ? ? ? E; spell E].

Theorem C79_all_match_checks_everything_refuted : ~ all_match_checks_everything.
Proof.
  intros H. set (h := [TPull 0; TPulled 0 (Some 4); TCall 0 4 4; TRet 0 4 true; TPull 0; TPulled 0 None; TFold 4 4; TFolded 4 true; TReturn 4 true]%Z).
  destruct (sched (tdo 0%Z 1 [[4];[5]]%Z 4%Z) [TMain; TMain; TMain; TGo 0; TGo 0; TGo 0; TGo 0; TAns 0 4%Z true; TGo 0; TGo 0; TGo 0; TMain; TAnsM 4%Z true; TMain]
    tinit []) as [[h' x]|] eqn:E; [|by vm_compute in E].
  assert (h' = h) as -> by (vm_compute in E; by injection E as <- _).
  specialize (H Z 0%Z (Z.eqb 4) 1 [[4]; [5]]%Z 4%Z h x 4%Z). enough ((4 =? 5)%Z = true) by done. apply H.
  - eapply sched_exec; [apply tdo_step|apply exec_nil|exact E].
  - unfold h. answers.
  - unfold h. by do 8 right; left.
  - done.
  - cbn. right. left.
Qed.
Print Assumptions C79_all_match_checks_everything_refuted.

(** ** The hypotheses are met *)
(** two goroutines, one of which meets 5 and ends the fold while the other has 7
    still to check; and a fold that checks everything *)
Example all_match_no : exists h x, exec (tstep 0%Z 2 [[4; 7]; [5]]%Z 4%Z) tinit h x /\ answers_as (all_match_cb (Z.eqb 4)) h /\
  TReturn 0%Z false ∈ h /\ ~ TPulled 0 (Some 7%Z) ∈ h.
Proof.
  set (h := [TPull 0; TPulled 0 (Some 4); TPull 1; TPulled 1 (Some 5); TCall 0 4 4; TCall 1 4 5; TRet 0 4 true; TRet 1 4 false; TPull 0; TReturn 0 false]%Z).
  destruct (sched (tdo 0%Z 2 [[4; 7]; [5]]%Z 4%Z) [TMain; TMain; TMain; TGo 0; TGo 0; TGo 1; TGo 1; TGo 1; TGo 0; TGo 0; TGo 1; TAns 0 4%Z true; TAns 1 4%Z false; TGo 0; TGo 1; TCanc]
    tinit []) as [[h' x]|] eqn:E; [|by vm_compute in E].
  assert (h' = h) as -> by (vm_compute in E; by injection E as <- _). exists h, x. split; [eapply sched_exec; [apply tdo_step|apply exec_nil|exact E]|].
  unfold h. splits; [answers|by do 9 right; left|]. intros H. apply elem_of_list_In in H. cbn in H. intuition discriminate.
Qed.
Example any_match_no : exists h x, exec (tstep 0%Z 2 [[4]; [5]]%Z 4%Z) tinit h x /\ answers_as (any_match_cb (Z.eqb 6)) h /\ TReturn 4%Z true ∈ h.
Proof.
  set (h := [TPull 0; TPulled 0 (Some 4); TPull 1; TPulled 1 (Some 5); TCall 0 4 4; TCall 1 4 5; TRet 0 4 true; TRet 1 4 true;
    TPull 0; TPulled 0 None; TPull 1; TPulled 1 None; TFold 4 4; TFolded 4 true; TFold 4 4; TFolded 4 true; TReturn 4 true]%Z).
  destruct (sched (tdo 0%Z 2 [[4];[5]]%Z 4%Z) [TMain; TMain; TMain; TGo 0; TGo 0; TGo 1; TGo 1; TGo 1; TGo 0; TGo 0; TGo 1; TAns 0 4%Z true; TAns 1 4%Z true; TGo 0; TGo 0; TGo 0;
    TGo 1; TGo 1; TGo 1; TMain; TAnsM 4%Z true; TMain; TAnsM 4%Z true; TMain] tinit []) as [[h' x]|] eqn:E; [|by vm_compute in E].
  assert (h' = h) as -> by (vm_compute in E; by injection E as <- _). exists h, x. split; [eapply sched_exec; [apply tdo_step|apply exec_nil|exact E]|].
  unfold h. split; [answers|by do 16 right; left].
Qed.
