(** C06: nodes pushed by the user. *)
From Verif Require Import Base Lin_Spec Queue_Model Queue_Spec Queue_Proofs.

Section nodes.
  Context {T : Type}.
  Implicit Types (q : queue T).
  Lemma fifo_det s o (r : ret T) s1 s2 : fifo s o r s1 -> fifo s o r s2 -> s1 = s2.
  Proof. intros H1 H2. destruct H1; inversion H2; done. Qed.
  Lemma fifo_run_det s os (rs : list (ret T)) s1 s2 : fifo_run s os rs s1 -> fifo_run s os rs s2 -> s1 = s2.
  Proof.
    intros H1. revert s2. induction H1 as [s|s s1 s1' o os r rs Hf _ IH]; intros s2 H2; inversion H2; subst; [done|].
    apply IH. by rewrite (fifo_det _ _ _ _ _ Hf ltac:(eassumption)).
  Qed.
  Lemma reached os rs q s : run os new = Ok (rs, q) -> fifo_run [] os rs s -> exists ls, rep q ls /\ ls.*2 = s.
  Proof.
    intros E F. destruct (run_ok new [] os rep_new) as (rs' & q' & ls & E' & H & F').
    rewrite E in E'. injection E' as <- <-. exists ls. split; [done|]. by eapply fifo_run_det.
  Qed.
  Lemma rep_behaves q ls : rep q ls -> behaves_as q ls.*2.
  Proof. intros H os. destruct (run_ok q ls os H) as (rs & q' & ls' & E & _ & F). by exists rs, q', ls'.*2. Qed.

  (** a detached node stays detached while Push, Pop, ... are called *)
  Lemma run1_detached q ls o r q' n d : rep q ls -> heap q !! n = Some d -> n ∉ ls.*1 ->
    run1 o q = Ok (r, q') -> exists ls', rep q' ls' /\ fifo ls.*2 o r ls'.*2 /\ heap q' !! n = Some d /\ n ∉ ls'.*1.
  Proof.
    intros H Hn Hni E. destruct o as [v| | | |]; simpl in E.
    - unfold push in E. pose proof (rep_new_node q ls v H) as Hnn. destruct (new_node v q) as [k q1] eqn:Ek.
      destruct Hnn as (H1 & Hk & HkL).
      assert (Hkn : k <> n). { intros ->. unfold new_node in Ek. injection Ek as Ek _.
        assert (n < fresh_loc q) by (by apply H; rewrite Hn). lia. }
      assert (Hn1 : heap q1 !! n = Some d). { unfold new_node in Ek. injection Ek as <- <-. simpl. by rewrite lookup_insert_ne. }
      destruct (rep_push_node q1 ls k v H1 Hk HkL) as (q2 & E2 & H2). rewrite E2 in E. simpl in E. injection E as <- <-.
      exists (ls ++ [(k, v)]). splits; [done|rewrite fmap_app; constructor| |].
      + unfold push_node, lock in E2. rewrite (rep_lock _ _ H1) in E2. simpl in E2.
        destruct (hnext q1); [|by injection E2 as <-].
        destruct (tail q1) as [a|] eqn:Ea; [|done]. injection E2 as <-. simpl. rewrite set_next_lookup; [done|].
        intros ->. apply Hni. apply last_Some_elem_of. by rewrite <- (rep_tail _ _ H1).
      + rewrite fmap_app. apply not_elem_of_app. split; [done|]. apply not_elem_of_cons. split; [done|apply not_elem_of_nil].
    - destruct ls as [|[n0 v0] ls].
      + unfold pop in E. destruct (rep_pop_node_nil q H) as (q2 & E2 & H2). rewrite E2 in E. simpl in E. injection E as <- <-.
        exists []. splits; [done|constructor| |done]. unfold pop_node, lock in E2. rewrite (rep_lock _ _ H) in E2. simpl in E2.
        destruct (hnext q) as [a|]; [|by injection E2 as <-]. destruct (heap q !! a); done.
      + destruct (rep_pop q n0 v0 ls H) as (q2 & E2 & H2). rewrite E2 in E. simpl in E. injection E as <- <-.
        exists ls. splits; [done|constructor| |rewrite fmap_cons in Hni; by apply not_elem_of_cons in Hni as [_ ?]].
        unfold pop, pop_node, lock in E2. rewrite (rep_lock _ _ H) in E2. simpl in E2.
        destruct (hnext q) as [a|]; [|done]. destruct (heap q !! a); [|done]. simpl in E2. by injection E2 as _ <-.
    - destruct (run1_ok q ls OPeek H) as (r2 & q2 & ls2 & E2 & H2 & F2). simpl in E2. rewrite E in E2. injection E2 as <- <-.
      unfold peek, peek_node, lock in E. rewrite (rep_lock _ _ H) in E. simpl in E. injection E as <- <-.
      exists ls. splits; [|by inversion F2; congruence || (inversion F2; congruence)|done|done].
      destruct H. by split.
    - injection E as <- <-. exists ls. splits; [done| |done|done]. unfold len. rewrite (rep_count _ _ H). rewrite <- (fmap_length snd ls). constructor.
    - injection E as <- <-. exists ls. splits; [done| |done|done]. constructor. unfold empty. rewrite bool_decide_eq_true, (rep_count _ _ H).
      destruct ls; simpl; [done|]. split; [lia|done].
  Qed.
  Lemma run_detached os : forall q ls rs q' n d, rep q ls -> heap q !! n = Some d -> n ∉ ls.*1 ->
    run os q = Ok (rs, q') -> exists ls', rep q' ls' /\ fifo_run ls.*2 os rs ls'.*2 /\ heap q' !! n = Some d /\ n ∉ ls'.*1.
  Proof.
    induction os as [|o os IH]; intros q ls rs q' n d H Hn Hni E; simpl in E.
    - injection E as <- <-. exists ls. splits; [done|constructor|done|done].
    - destruct (run1 o q) as [[r q1]| |] eqn:E1; try done. simpl in E.
      destruct (run os q1) as [[rs1 q2]| |] eqn:E2; try done. simpl in E. injection E as <- <-.
      destruct (run1_detached _ _ _ _ _ _ _ H Hn Hni E1) as (ls1 & H1 & F1 & Hn1 & Hni1).
      destruct (IH _ _ _ _ _ _ H1 Hn1 Hni1 E2) as (ls2 & H2 & F2 & Hn2 & Hni2).
      exists ls2. splits; try done. by econstructor.
  Qed.
  Lemma push_detached os1 os2 v rs1 rs2 q1 q2 s n :
    run os1 new = Ok (rs1, q1) -> (n, q2) = new_node v q1 ->
    forall q3, run os2 q2 = Ok (rs2, q3) -> fifo_run [] (os1 ++ os2) (rs1 ++ rs2) s ->
    exists q4, push_node n q3 = Ok (Some tt, q4) /\ behaves_as q4 (s ++ [v]).
  Proof.
    intros E1 En q3 E2 F. destruct (run_ok new [] os1 rep_new) as (rs' & q' & ls & E' & H & F').
    rewrite E1 in E'. injection E' as <- <-.
    pose proof (rep_new_node q1 ls v H) as Hnn. rewrite <- En in Hnn. destruct Hnn as (H2 & Hk & HkL).
    destruct (run_detached _ _ _ _ _ _ _ H2 Hk HkL E2) as (ls2 & H3 & F2 & Hn2 & Hni2).
    assert (s = ls2.*2) as ->.
    { eapply fifo_run_det; [exact F|]. clear -F' F2. simpl in F'. revert F2. generalize dependent ls.*2.
      intros l F'. induction F' as [|s s1 s2 o os r rs Hf _ IH]; intros F2; [done|]. simpl. econstructor; [done|]. by apply IH. }
    destruct (rep_push_node q3 ls2 n v H3 Hn2 Hni2) as (q4 & E4 & H4). exists q4. split; [done|].
    change [v] with [(n, v)].*2. rewrite <- fmap_app. by apply rep_behaves.
  Qed.
  Lemma popped_pops k : forall q vs q', popped_all q k = Ok (vs, q') -> pops q vs q'.
  Proof.
    induction k as [|k IH]; intros q vs q' E.
    - injection E as <- <-. constructor.
    - rewrite popped_all_S in E. destruct (pop q) as [[[v|] q1]| |] eqn:Ep; simpl in E; try done.
      destruct (popped_all q1 k) as [[vs1 q2]| |] eqn:E2; simpl in E; try done. injection E as <- <-.
      econstructor; [done|]. by apply IH.
  Qed.
  Lemma pop_node_some os rs q s : run os new = Ok (rs, q) -> fifo_run [] os rs s -> s <> [] ->
    exists n q1, pop_node q = Ok (Some n, q1).
  Proof.
    intros E F Hs. destruct (reached _ _ _ _ E F) as (ls & H & <-). destruct ls as [|[n v] ls]; [done|].
    destruct (rep_pop_node q n v ls H) as (q1 & Ep & _). by exists n, q1.
  Qed.
  Lemma repush_cycle os rs q v w s n q1 : run os new = Ok (rs, q) -> fifo_run [] os rs (v :: w :: s) ->
    pop_node q = Ok (Some n, q1) ->
    exists q2, push_node n q1 = Ok (Some tt, q2) /\
    forall k, exists vs q3, pops q2 vs q3 /\ length vs = k /\
      (forall i x, vs !! i = Some x -> (w :: s ++ [v]) !! (i mod length (v :: w :: s)) = Some x) /\
      len q3 = (Z.of_nat (length (v :: w :: s)) - Z.of_nat k)%Z.
  Proof.
    intros E F Ep. destruct (reached _ _ _ _ E F) as (ls & H & Hls).
    destruct ls as [|[n' v'] ls]; [done|]. rewrite fmap_cons in Hls. injection Hls as -> Hls. simpl in Hls.
    assert (Hne : ls <> []) by (by intros ->).
    destruct (repush_ring q n' v ls H Hne) as (q1' & q2 & E1 & E2 & _). rewrite Ep in E1. injection E1 as <- <-.
    exists q2. split; [done|]. intros k.
    destruct (repush_forever q n v ls k H Hne) as (q1' & q2' & vs & q3 & E1 & E2' & E3 & Hl & Hc & Hv).
    rewrite Ep in E1. injection E1 as <-. rewrite E2 in E2'. injection E2' as <-.
    exists vs, q3. splits; [by eapply popped_pops|done| |].
    - intros i x Hi. specialize (Hv i x Hi). rewrite Hls in Hv.
      assert (length ls = S (length s)) as El by (by rewrite <- (fmap_length snd), Hls).
      rewrite El in Hv. cbn [length]. replace (S (length s) + 1) with (S (S (length s))) in Hv by lia. exact Hv.
    - rewrite Hc. unfold len. rewrite (rep_count _ _ H). cbn [length]. rewrite <- (fmap_length snd ls), Hls. done.
  Qed.
  Lemma repush_only os rs q v n q1 : run os new = Ok (rs, q) -> fifo_run [] os rs [v] ->
    pop_node q = Ok (Some n, q1) -> exists q2, push_node n q1 = Ok (Some tt, q2) /\ behaves_as q2 [v].
  Proof.
    intros E F Ep. destruct (reached _ _ _ _ E F) as (ls & H & Hls).
    destruct ls as [|[n' v'] [|]]; try done. injection Hls as ->.
    destruct (repush_single q n' v H) as (q1' & q2 & E1 & E2 & H2). rewrite Ep in E1. injection E1 as <- <-.
    exists q2. split; [done|]. by apply rep_behaves in H2.
  Qed.
End nodes.
