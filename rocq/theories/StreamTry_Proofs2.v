From Verif Require Import Base Iter_Model Iter_Spec Split_Model Split_Proofs StreamPar_Model StreamPar_Proofs StreamTry_Model StreamTry_Spec StreamTry_Proofs.

Section degenerate.
  Context {T : Type} (zero init : T) (f : T -> T -> T * bool).
  Lemma tf_empty (p : Z) : (1 <= p)%Z ->
    (forall x, rtc (tstep zero [] p init f) tinit x -> forall v ok, tm x <> TReturned v ok) /\
    rtc (tstep zero [] p init f) tinit (TState (TRecv 0 init zero) [] [] false) /\
    (forall y, ~ tstep zero [] p init f (TState (TRecv 0 init zero) [] [] false) y).
  Proof.
    intros Hp.
    assert (S2 : forall y, ~ tstep zero [] p init f (TState (TRecv 0 init zero) [] [] false) y).
    { intros y Hst. inversion Hst; subst; try done. }
    splits; [| |done].
    - intros x Hr.
      assert (x = tinit \/ x = TState (TRecv 0 init zero) [] [] false) as [-> | ->]; [|done|done].
      apply rtc_ind_r with (P := fun x => x = tinit \/ x = TState (TRecv 0 init zero) [] [] false) (z := x) in Hr;
        [done|by left|].
      intros y z _ Hst [->| ->]; [|by apply S2 in Hst]. right.
      inversion Hst as [? ? ? ? ? ? E|? ? ? ? ? E| | | | | | | | | |]; subst; try done.
      rewrite split_empty in E by lia. done.
    - eapply rtc_l; [|constructor]. eapply ts_spawned. apply split_empty. lia.
  Qed.
  Lemma tf_short (s : list T) (p : Z) x : (0 < Z.of_nat (length s) < p)%Z ->
    rtc (tstep zero s p init f) tinit x -> tm x = TSpawn 0 /\ exists y, tstep zero s p init f x y.
  Proof.
    intros Hp Hr.
    assert (tm x = TSpawn 0) as H.
    { apply rtc_ind_r with (P := fun x => tm x = TSpawn 0) (z := x) in Hr; [done|done|].
      intros y z _ Hst H1.
      inversion Hst as [? ? ? ? ? ? E|? ? ? ? ? E| | | | | | | | | |]; subst; simpl in *; try done.
      - injection H1 as ->. rewrite split_stuck in E by done. by injection E as <- <-.
      - injection H1 as ->. rewrite split_stuck in E by done. done. }
    split; [done|]. destruct x as [m ws buf c]. simpl in *. subst.
    eexists. apply ts_spawn. by apply split_stuck.
  Qed.
End degenerate.

Section matches.
  Context {T : Type} (zero : T).
  Lemma first_par_ok (s : list T) (p : Z) : (1 <= p)%Z -> (p <= Z.of_nat (length s))%Z ->
    exists m l, s = m :: l /\ first_par zero s p = Ok (m, true).
  Proof.
    intros Hp Hn. destruct (step_bounds (length s) p Hp Hn) as [_ Hs].
    destruct s as [|m l]; [cbn in Hn; lia|]. exists m, l. split; [done|]. unfold first_par.
    pose proof (split_pull (m :: l) p 0 Hp Hn) as E. cbn zeta in E. cbn [Nat.mul] in E. rewrite E.
    - cbn [rbind]. unfold chunk. cbn [Nat.mul drop]. destruct (length (m :: l) / Z.to_nat p); [lia|done].
    - pose proof (nseg_spec (length (m :: l)) _ Hs) as H. cbn [length] in H |- *. nia.
  Qed.
  Lemma first_par_short (s : list T) (p : Z) : (1 <= p)%Z -> (Z.of_nat (length s) < p)%Z ->
    first_par zero s p = Ok (zero, false).
  Proof.
    intros Hp Hn. unfold first_par. destruct s as [|m l]; [by rewrite split_empty by lia|].
    rewrite split_stuck; [done|cbn in *; lia].
  Qed.

  Lemma try_seq_pred (g : T -> bool) (F : T -> T -> T * bool) l a :
    (forall a y, F a y = (a, g y)) -> try_seq F l a = (a, forallb g l).
  Proof.
    intros HF. induction l as [|x l IH]; [done|]. cbn [try_seq forallb]. rewrite HF. destruct (g x); [done|done].
  Qed.
  Lemma forallb_concat (g : T -> bool) ls : forallb g (concat ls) = forallb (forallb g) ls.
  Proof. induction ls as [|l ls IH]; [done|]. cbn. by rewrite forallb_app, IH. Qed.
  Lemma forallb_perm {A} (g : A -> bool) l1 l2 : l1 ≡ₚ l2 -> forallb g l1 = forallb g l2.
  Proof. induction 1; cbn; try congruence. by destruct (g x), (g y). Qed.

  Context (s : list T) (p : Z) (g : T -> bool) (F : T -> T -> T * bool).
  Context (HF : forall a y, F a y = (a, g y)).
  Context (Hp : (1 <= p)%Z) (Hn : (p <= Z.of_nat (length s))%Z).
  Lemma match_true m x v : rtc (tstep zero s p m F) tinit x -> tm x = TReturned v true ->
    (exists segs used lost, concat segs = s /\ used ++ lost ≡ₚ segs /\ Z.of_nat (length used) = p
       /\ forallb g (concat used) = true)
    /\ ((p | Z.of_nat (length s))%Z -> forallb g s = true).
  Proof.
    intros Hr Hm. destruct (tf_true zero s p m F Hp Hn x v Hr Hm) as (used & lost & Pm & Hl & Fo & _).
    destruct (all_segs_ok s p Hp Hn) as (Hc & _ & Hk).
    assert (Hu : forallb g (concat used) = true).
    { rewrite forallb_concat. apply forallb_forall. intros seg Hseg. rewrite List.Forall_forall in Fo. specialize (Fo seg Hseg).
      unfold seg_ok in Fo. by rewrite (try_seq_pred g F _ _ HF) in Fo. }
    split; [by exists (all_segs s p), used, lost|].
    intros Hd. apply k_eq_p in Hd; [|done..]. rewrite <- Hc, forallb_concat, <- (forallb_perm _ _ _ Pm).
    assert (lost = []) as ->.
    { apply Permutation_length in Pm. rewrite app_length in Pm. destruct lost; [done|]. cbn in Pm. lia. }
    by rewrite app_nil_r, <- forallb_concat.
  Qed.
  Lemma match_false m l x v : s = m :: l -> rtc (tstep zero s p m F) tinit x -> tm x = TReturned v false -> forallb g s = false.
  Proof.
    intros Es Hr Hm. destruct (all_segs_ok s p Hp Hn) as (Hc & _ & Hk).
    destruct (tf_false zero s p m F Hp Hn x v Hr Hm) as (used & lost & Pm & Fo & [((seg & Hi & Hb) & _)|E]).
    - assert (Hi' : seg ∈ all_segs s p) by (rewrite <- Pm; apply elem_of_app; by right). clear Hi; rename Hi' into Hi. unfold seg_ok in Hb. rewrite (try_seq_pred g F _ _ HF) in Hb. cbn in Hb.
      rewrite <- Hc, forallb_concat. apply not_true_is_false. intros H. rewrite forallb_forall in H.
      apply Hb, H. by apply elem_of_list_In.
    - rewrite (try_seq_pred g F _ _ HF) in E. injection E as _ E.
      apply not_true_is_false. intros H. apply not_true_iff_false in E. apply E. apply forallb_forall.
      intros y Hy. apply in_map_iff in Hy as (seg & <- & _). unfold seg_val. rewrite (try_seq_pred g F _ _ HF). cbn.
      rewrite forallb_forall in H. apply H. subst s. by left.
  Qed.
End matches.
