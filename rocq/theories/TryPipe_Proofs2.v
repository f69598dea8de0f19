From Verif Require Import Base Iter_Model Iter_Spec Split_Model Split_Proofs Stream_Model Stream_Spec Stream_Proofs Stream_Proofs2 StreamTry_Spec StreamTry_Proofs
  ParPipe_Model ParPipe_Spec ParPipe_Proofs ParPipe_Proofs3 ParPipe_Proofs4 TryPipe_Model TryPipe_Proofs.
From Verif Require StreamTry_Proofs2.

(** First *)
Lemma first_ok {U T} (zero : T) (s : stream U T) p segs w : stable s p segs ->
  (exists v ok w', first_returns zero s p w v ok w') /\
  forall v ok w', first_returns zero s p w v ok w' ->
    match segs with (x :: _) :: _ => v = x /\ ok = true | _ => v = zero /\ ok = false end.
Proof.
  intros Hs. split.
  - destruct (G_can _ _ w Hs) as ([it|] & g' & w1 & E).
    + destruct (G_some _ _ _ _ _ _ Hs E) as (l & ls & -> & Hy & _).
      destruct (Y_can _ _ w1 Hy) as ([x|] & it' & w2 & E2); eexists _, _, _; [by eapply first_elem|by eapply first_empty].
    + eexists _, _, _. by eapply first_none.
  - intros v ok w' H. destruct H as [g' w' E|it g' it' w1 w' E E2|it g' it' w1 w' v E E2].
    + by rewrite (G_none _ _ _ _ _ Hs E).
    + destruct (G_some _ _ _ _ _ _ Hs E) as (l & ls & -> & Hy & _). by rewrite (Y_none _ _ _ _ _ Hy E2).
    + destruct (G_some _ _ _ _ _ _ Hs E) as (l & ls & -> & Hy & _). by destruct (Y_some _ _ _ _ _ _ Hy E2) as (l' & -> & _).
Qed.

Section matches.
  Context {U T : Type} (zero : T) (s : stream U T) (p : Z) (segs : list (list T)) (g : T -> bool) (F : T -> T -> T * bool) (e : T -> T -> U -> U).
  Context (HF : forall a y, F a y = (a, g y)).
  Context (Hp : (1 <= p)%Z) (Hs : stable s p segs).
  Lemma hmatch_true m w x v : rtc (hstep zero s p m F e) (hinit w) x -> hm x = HReturned v true ->
    exists used lost, used ++ lost ≡ₚ segs /\ Z.of_nat (length used) = p /\ forallb g (concat used) = true.
  Proof using HF Hp Hs.
    intros Hr Hm. destruct (htrue zero s p m F e w segs Hp Hs x v Hr Hm) as (used & lost & Pm & Hl & Fo & _).
    exists used, lost. split; [done|]. split; [done|].
    rewrite StreamTry_Proofs2.forallb_concat. apply forallb_forall. intros seg Hseg. rewrite List.Forall_forall in Fo. specialize (Fo seg Hseg).
    unfold seg_ok in Fo. by rewrite (StreamTry_Proofs2.try_seq_pred g F _ _ HF) in Fo.
  Qed.
  Lemma hmatch_false m w x v : m ∈ concat segs -> rtc (hstep zero s p m F e) (hinit w) x -> hm x = HReturned v false ->
    forallb g (concat segs) = false.
  Proof using HF Hp Hs.
    intros Hin Hr Hm. destruct (hfalse zero s p m F e w segs Hp Hs x v Hr Hm) as (used & lost & Pm & Hl & Fo & [E|((seg & Hi & Hb) & _)]).
    - rewrite (StreamTry_Proofs2.try_seq_pred g F _ _ HF) in E. injection E as _ E.
      apply not_true_is_false. intros H. apply not_true_iff_false in E. apply E. apply forallb_forall.
      intros y Hy. apply in_map_iff in Hy as (seg & <- & _). unfold seg_val. rewrite (StreamTry_Proofs2.try_seq_pred g F _ _ HF). cbn.
      rewrite forallb_forall in H. apply H. by apply elem_of_list_In.
    - unfold seg_ok in Hb. rewrite (StreamTry_Proofs2.try_seq_pred g F _ _ HF) in Hb. cbn in Hb.
      rewrite StreamTry_Proofs2.forallb_concat. apply not_true_is_false. intros H. rewrite forallb_forall in H.
      apply Hb, H. apply elem_of_list_In. rewrite <- Pm. apply elem_of_app. by right.
  Qed.
  Lemma hmatch_all m w x v b : m ∈ concat segs -> Z.of_nat (length segs) = p ->
    rtc (hstep zero s p m F e) (hinit w) x -> hm x = HReturned v b -> b = forallb g (concat segs).
  Proof using HF Hp Hs.
    intros Hin Hk Hr Hm. destruct b; [|symmetry; by eapply hmatch_false].
    destruct (hmatch_true m w x v Hr Hm) as (used & lost & Pm & Hl & Hu).
    assert (lost = []) as ->. { apply Permutation_length in Pm. rewrite app_length in Pm. destruct lost; [done|]. cbn in Pm. lia. }
    rewrite app_nil_r in Pm. by rewrite StreamTry_Proofs2.forallb_concat, <- (StreamTry_Proofs2.forallb_perm _ _ _ Pm), <- StreamTry_Proofs2.forallb_concat.
  Qed.
End matches.

(** the first segment of a stream that is cut like the slice l *)
Lemma like_first {U T} (src : stream U T) (l : list T) (w : world U) (p : Z) : like_slice src l -> (1 <= p)%Z -> (p <= Z.of_nat (length l))%Z ->
  exists rest, source src p (take (length l / Z.to_nat p) l :: rest) /\ concat (take (length l / Z.to_nat p) l :: rest) = l /\
    (Z.to_nat p <= length rest + 1) /\ (length rest + 1 = Z.to_nat p <-> (p | Z.of_nat (length l))%Z).
Proof.
  intros Hsrc Hp Hn. destruct (split_partitions l p Hp Hn) as (segs & fin & Hd & He & Hc & _ & Hl & Hla & Hk & Hge).
  assert (Hs : source src p segs).
  { destruct (Hsrc p (or_introl Hn)) as (segs' & H1 & H2).
    replace segs with segs'; [done|]. eapply (stable_det (slice_stream l 0) p _ _ w); apply source_stable; [done|]. apply slice_cut. by exists fin. }
  destruct segs as [|sg rest]; [cbn in Hge; lia|].
  assert (E : sg = take (length l / Z.to_nat p) l).
  { destruct rest as [|sg2 rest].
    - cbn in Hge, Hc. rewrite app_nil_r in Hc. subst sg. assert (Z.to_nat p = 1) as -> by lia. rewrite Nat.div_1_r. by rewrite firstn_all.
    - specialize (Hl 0 sg eq_refl ltac:(cbn; lia)). rewrite <- Hl. rewrite <- Hc at 1. cbn [concat]. by rewrite take_app. }
  rewrite E in *. exists rest. cbn [length] in *. replace (length rest + 1) with (S (length rest)) by lia. done.
Qed.
