From Verif Require Import Base Split_Model Split_Proofs StreamPar_Model StreamPar_Proofs StreamPar_Proofs2 StreamPar_Proofs3 StreamTry_Model StreamTry_Proofs2 StreamRed_Model StreamRed_Spec.

Section outcome.
  Context {T R : Type} (s : list T) (p : Z) (init : R) (f : R -> T -> R) (comb : R -> R -> R).
  Notation out := (fold_outcome s p init f comb).
  Notation st := (fstep s p init f comb).

  (** with a fitting parallelism: there is an outcome, and every outcome combines all segments *)
  Lemma out_fits : fits s p -> (exists v, out (Some v)) /\ ~ out None /\
    forall v, out (Some v) -> exists segs used, concat segs = s /\ used ≡ₚ segs /\ Z.of_nat (length used) = p
      /\ v = fold_left comb ((fun seg => fold_left f seg init) <$> used) init.
  Proof.
    intros (H0 & Hn & Hd). destruct (fold_ok s p init f comb ltac:(lia) Hn Hd) as (Hs & _ & Hc).
    split; [|split].
    - destruct (Hc finit) as (y & v & Hr & Hm); [constructor|]. exists v. by eapply fo_return.
    - intros H. inversion H as [|?|?|x ? Hr Hx]; try lia. destruct (Hs x Hr) as [Hf _]. congruence.
    - intros v H. inversion H as [?|?|x v' ? Hr Hm|]; subst; [lia|].
      destruct (fold_result s p init f comb ltac:(lia) Hn x v Hr Hm) as (segs & used & lost & E1 & E2 & _ & E3 & E4 & E5).
      rewrite (proj2 E5 Hd), app_nil_r in E2. by exists segs, used.
  Qed.
  Lemma out_short v : (Z.of_nat (length s) < p)%Z -> ~ out v.
  Proof.
    intros Hn H. destruct s as [|x0 l] eqn:Es.
    - destruct (fold_empty init f comb p ltac:(cbn in Hn; lia)) as [Hr _].
      inversion H as [?|?|x v' ? Hx Hm|x ? Hx Hm]; subst; cbn in Hn; try lia.
      + by apply (Hr x Hx v').
      + destruct (fold_empty_inv init f comb p x ltac:(lia) Hx) as [->| ->]; done.
    - rewrite <- Es in *. assert (0 < length s) by (rewrite Es; cbn; lia).
      inversion H as [?|?|x v' ? Hx Hm|x ? Hx Hm]; subst; try lia.
      + destruct (fold_short init f comb (x0 :: l) p x ltac:(lia) Hx) as (? & _). congruence.
      + destruct (fold_short init f comb (x0 :: l) p x ltac:(lia) Hx) as (_ & [? _] & _). congruence.
  Qed.
  Lemma out_zero o : p = 0%Z -> out o <-> o = Some (fold_left f s init).
  Proof.
    intros Hp. split; [intros H; inversion H; try done; lia|intros ->; by apply fo_seq].
  Qed.
  Lemma out_neg o : (p < 0)%Z -> out o <-> o = None.
  Proof.
    intros Hp. split; [intros H; inversion H; try done; lia|intros ->; by apply fo_make].
  Qed.
  Lemma out_crash : (1 <= p)%Z -> (p <= Z.of_nat (length s))%Z -> ~ (p | Z.of_nat (length s))%Z -> out None.
  Proof.
    intros H1 H2 H3. destruct (fold_can_crash s p init f comb H1 H2 H3) as (x & v & Hr & _ & Hc).
    apply (fo_crash s p init f comb x); [lia|done|done].
  Qed.
End outcome.

Lemma through_fold {A B R} (pre : A -> option B) (f : R -> B -> R) l a :
  fold_left (through pre f) l a = fold_left f (omap pre l) a.
Proof.
  revert a. induction l as [|x l IH]; intros a; [done|]. cbn [fold_left omap list_omap]. rewrite IH. unfold through.
  by destruct (pre x).
Qed.

Section reduce.
  Context {T : Type} (f : T -> T -> T).
  Context (Ha : forall a b c, f a (f b c) = f (f a b) c) (Hc : forall a b, f a b = f b a).
  Lemma fold_perm l1 l2 : l1 ≡ₚ l2 -> forall a, fold_left f l1 a = fold_left f l2 a.
  Proof.
    induction 1 as [|x l1 l2 _ IH|x y l|l1 l2 l3 _ IH1 _ IH2]; intros a; cbn; [done|by rewrite IH| |by rewrite IH1].
    f_equal. rewrite <- !Ha. by rewrite (Hc y x).
  Qed.
  Lemma fold_out l a b : f a (fold_left f l b) = fold_left f l (f a b).
  Proof. revert b. induction l as [|x l IH]; intros b; [done|]. cbn. by rewrite IH, Ha. Qed.
  Lemma fold_segs m (used : list (list T)) a :
    fold_left f ((fun seg => fold_left f seg m) <$> used) a = fold_left f (replicate (length used) m ++ concat used) a.
  Proof.
    revert a. induction used as [|seg used IH]; intros a; [done|]. cbn [fmap list_fmap fold_left length replicate concat app].
    rewrite IH, fold_out, <- fold_left_app. apply fold_perm.
    by rewrite app_assoc, (Permutation_app_comm seg), <- app_assoc.
  Qed.
End reduce.

Lemma fold_max (l : list Z) a v : v = fold_left (fun a b => if (a >? b)%Z then a else b) l a ->
  v ∈ a :: l /\ Forall (fun x => (x <= v)%Z) (a :: l).
Proof.
  revert a. induction l as [|x l IH]; intros a Hv.
  - cbn in Hv. subst v. split; [apply elem_of_list_singleton; done|]. constructor; [lia|done].
  - cbn [fold_left] in Hv. destruct (IH (if (a >? x)%Z then a else x) Hv) as [H1 H2]. clear Hv. apply Forall_cons in H2 as [H2 H3].
    split.
    + apply elem_of_cons in H1 as [->|H1]; [|set_solver]. destruct (a >? x)%Z; set_solver.
    + repeat constructor; try done; destruct (Z.gtb_spec a x); lia.
Qed.
Lemma fold_min (l : list Z) a v : v = fold_left (fun a b => if (a <? b)%Z then a else b) l a ->
  v ∈ a :: l /\ Forall (fun x => (v <= x)%Z) (a :: l).
Proof.
  revert a. induction l as [|x l IH]; intros a Hv.
  - cbn in Hv. subst v. split; [apply elem_of_list_singleton; done|]. constructor; [lia|done].
  - cbn [fold_left] in Hv. destruct (IH (if (a <? x)%Z then a else x) Hv) as [H1 H2]. clear Hv. apply Forall_cons in H2 as [H2 H3].
    split.
    + apply elem_of_cons in H1 as [->|H1]; [|set_solver]. destruct (a <? x)%Z; set_solver.
    + repeat constructor; try done; destruct (Z.ltb_spec a x); lia.
Qed.
Lemma if_max a b : (if (a >? b)%Z then a else b) = Z.max a b.
Proof. destruct (Z.gtb_spec a b); lia. Qed.
Lemma if_min a b : (if (a <? b)%Z then a else b) = Z.min a b.
Proof. destruct (Z.ltb_spec a b); lia. Qed.
Lemma unpad (P : Z -> Prop) n (m : Z) (l : list Z) v :
  v ∈ m :: replicate n m ++ m :: l /\ Forall P (m :: replicate n m ++ m :: l) -> v ∈ m :: l /\ Forall P (m :: l).
Proof.
  intros [H1 H2]. split.
  - apply elem_of_cons in H1 as [->|H1]; [set_solver|]. apply elem_of_app in H1 as [H1|H1]; [|done].
    apply elem_of_replicate in H1 as [-> _]. set_solver.
  - apply Forall_cons in H2 as [_ H2]. by apply Forall_app in H2 as [_ H2].
Qed.
