From Verif Require Import Base Lin_Spec Busy_Model Busy_Spec BusyMatch_Spec Busy_Proofs3 Busy_Props.

Section matching.
  Context {T : Type} (zero : T) (p : nat) (segs : list (list T)) (init : T) (g : T -> bool).
  Let f (a b : T) : T * bool := (a, g b).

  Lemma answers_prefix h h' : answers_as f (h ++ h') -> answers_as f h.
  Proof.
    intros [A B]. split.
    - intros i h1 a x b ok h2 E. apply (A i h1 a x b ok (h2 ++ town i h')). unfold town in *. by rewrite filter_app, E, <-app_assoc.
    - intros h1 a r b ok h2 E. apply (B h1 a r b ok (h2 ++ tby_caller h')). unfold tby_caller in *. by rewrite filter_app, E, <-app_assoc.
  Qed.
  Definition ans (i : nat) (es : list (tev T)) : Prop :=
    forall h1 a x b ok h2, es = h1 ++ TCall i a x :: TRet i b ok :: h2 -> (b, ok) = f a x.
  Lemma ans_tail i es0 es : ans i (es0 ++ es) -> ans i es.
  Proof. intros A h1 a x b ok h2 ->. apply (A (es0 ++ h1) a x b ok h2). by rewrite <-app_assoc. Qed.
  Lemma truns_q i a l es : truns i a l es -> ans i es -> forall b, TRet i b false ∈ es -> exists x, x ∈ l /\ g x = false.
  Proof using Type.
    induction 1 as [a l|a l|a|a x l|a x l|a x l b|a x l b es R IH]; intros A c Hc; try (exfalso; clear -Hc; apply elem_of_list_In in Hc; cbn in Hc; intuition discriminate).
    - specialize (A [TPull i; TPulled i (Some x)] a x b false [] eq_refl). injection A as _ A. exists x. split; [left|done].
    - pose proof (A [TPull i; TPulled i (Some x)] a x b true es eq_refl) as E. injection E as _ _.
      apply elem_of_app in Hc as [Hc|Hc]; [exfalso; clear -Hc; apply elem_of_list_In in Hc; cbn in Hc; intuition discriminate|].
      destruct (IH (ans_tail _ _ _ A) c Hc) as (y & Hy & Gy). exists y. split; [by right|done].
  Qed.
  Lemma tcompletes_q i a l es r : tcompletes i a l es r -> ans i es -> r = a /\ forall x, x ∈ l -> g x = true.
  Proof using Type.
    induction 1 as [a|a x l b es r R IH]; intros A; [split; [done|intros x Hx; by apply elem_of_nil in Hx]|].
    pose proof (A [TPull i; TPulled i (Some x)] a x b true es eq_refl) as E. injection E as -> E.
    destruct (IH (ans_tail _ _ _ A)) as [-> G]. split; [done|]. intros y Hy. apply elem_of_cons in Hy as [->|Hy]; [done|by apply G].
  Qed.
  Lemma tfolds_q a rs es v : tfolds a rs es v ->
    (forall h1 a r b ok h2, es = h1 ++ TFold a r :: TFolded b ok :: h2 -> (b, ok) = f a r) -> v = a /\ forall r, r ∈ rs -> g r = true.
  Proof using Type.
    induction 1 as [a|a r rs b es v R IH]; intros A; [split; [done|intros x Hx; by apply elem_of_nil in Hx]|].
    pose proof (A [] a r b true es eq_refl) as E. injection E as -> E.
    destruct IH as [-> G]. { intros h1 a' r' b' ok' h2 ->. by apply (A (TFold a r :: TFolded a true :: h1) a' r' b' ok' h2). }
    split; [done|]. intros y Hy. apply elem_of_cons in Hy as [->|Hy]; [done|by apply G].
  Qed.
  Lemma got_init h x got taken i r : answers_as f h -> tinv p segs init h x got taken -> (i, r) ∈ got ->
    r = init /\ exists l, segs !! i = Some l /\ forall y, y ∈ l -> g y = true.
  Proof.
    intros [A _] I Hi. destruct (ti_got _ _ _ _ _ _ _ I i r Hi) as (_ & l & Hl & C).
    destruct (tcompletes_q _ _ _ _ _ C (A i)) as [-> G]. split; [done|]. by exists l.
  Qed.
  Lemma folded_false h x : exec (tstep zero p segs init) tinit h x -> answers_as f h -> forall v, TFolded v false ∈ h -> g init = false.
  Proof.
    intros E. remember tinit as x0. induction E as [c|c c1 h c2 E IH St|c c1 h e c2 E IH St]; subst; intros A v Hv.
    - by apply elem_of_nil in Hv.
    - by eapply (IH eq_refl).
    - apply elem_of_app in Hv as [Hv|Hv]; [eapply (IH eq_refl); [by eapply answers_prefix|done]|].
      apply elem_of_list_singleton in Hv as <-. inversion St; subst.
      destruct (tinv_exec zero p segs init _ _ E) as (got & taken & I). pose proof (ti_main _ _ _ _ _ _ _ I) as M. cbn in M.
      destruct M as (ts & es & -> & Eb & _). pose proof (ti_buf _ _ _ _ _ _ _ I) as B.
      match type of Eb with _ = _ ++ [TFold ?a0 ?r0] =>
        assert (Hr : r0 ∈ got.*2) by (rewrite B; apply elem_of_app; left; apply elem_of_app; right; by apply elem_of_list_singleton);
        pose proof (proj2 A es a0 r0 v false []) as A2 end.
      apply answers_prefix in A. apply elem_of_list_fmap in Hr as ([i r'] & -> & Hr).
      destruct (got_init _ _ _ _ _ _ A I Hr) as [-> _]. cbn in A2.
      assert ((v, false) = f a init) as Ef; [|by injection Ef].
      apply A2. unfold tby_caller in *. rewrite filter_app, Eb. cbn. by rewrite <- app_assoc.
  Qed.
  Lemma match_true h x v : exec (tstep zero p segs init) tinit h x -> answers_as f h -> TReturn v true ∈ h -> length segs = p -> 1 <= p ->
    v = init /\ g init = true /\ forall l y, l ∈ segs -> y ∈ l -> g y = true.
  Proof.
    intros E A Hv L P. destruct (tinv_exec zero p segs init _ _ E) as (got & taken & I). apply (ti_ret _ _ _ _ _ _ _ I) in Hv.
    destruct (t_all_done _ _ _ _ _ _ _ _ I Hv L) as (_ & _ & Pm & F).
    destruct (tfolds_q _ _ _ _ F (proj2 A)) as [-> G]. splits; [done|..].
    - assert (0 ∈ got.*1) as H0 by (rewrite Pm; apply elem_of_seq; lia). apply elem_of_list_fmap in H0 as ([i r] & Ei & Hi).
      destruct (got_init _ _ _ _ _ _ A I Hi) as [-> _]. apply G. apply elem_of_list_fmap. by exists (i, init).
    - intros l y Hl Hy. apply elem_of_list_lookup in Hl as [j Hj].
      assert (j ∈ got.*1) as Hg. { rewrite Pm. apply elem_of_seq. apply lookup_lt_Some in Hj. lia. }
      apply elem_of_list_fmap in Hg as ([i r] & -> & Hi). cbn in Hj. destruct (got_init _ _ _ _ _ _ A I Hi) as (_ & l' & Hl' & G'). rewrite Hj in Hl'. injection Hl' as <-. by apply G'.
  Qed.
  Lemma match_false h x v : exec (tstep zero p segs init) tinit h x -> answers_as f h -> TReturn v false ∈ h ->
    exists y, g y = false /\ (y = init \/ exists l, l ∈ segs /\ y ∈ l).
  Proof.
    intros E A Hv. destruct (tinv_exec zero p segs init _ _ E) as (got & taken & I). apply (ti_ret _ _ _ _ _ _ _ I) in Hv.
    destruct (answers zero p segs init _ _ E v Hv) as [[(i & b & Hb) _]|Hf].
    - destruct (tws x !! i) as [w|] eqn:Hw.
      + destruct (ti_some _ _ _ _ _ _ _ I i w Hw) as (l & Hl & S). apply tsits_runs in S.
        destruct (truns_q _ _ _ _ S (proj1 A i) b) as (y & Hy & Gy).
        { unfold town. apply elem_of_list_filter. by split. }
        exists y. split; [done|]. right. exists l. split; [by eapply elem_of_list_lookup_2|done].
      + pose proof (ti_none _ _ _ _ _ _ _ I i Hw) as N. exfalso. assert (TRet i b false ∈ town i h) as H by (apply elem_of_list_filter; by split). rewrite N in H. by apply elem_of_nil in H.
    - exists init. split; [by eapply folded_false|by left].
  Qed.
End matching.
