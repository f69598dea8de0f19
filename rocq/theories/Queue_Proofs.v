(** The linked structure of the queue, and single-goroutine correctness. *)
From stdpp Require Import functions.
From Verif Require Import Base Lin_Spec Queue_Model Queue_Spec.

Section chain.
  Context {T : Type}.
  Implicit Types (m : gmap loc (node T)) (ls : list (loc * T)).

  (** from [o] the links run through the nodes [ls] and end in nil *)
  Fixpoint chain m (o : option loc) ls : Prop :=
    match ls with
    | [] => o = None
    | (n, v) :: ls => o = Some n /\ exists o', m !! n = Some (Node v o') /\ chain m o' ls
    end.
  Lemma chain_frame m m' o ls : (forall n, n ∈ ls.*1 -> m' !! n = m !! n) -> chain m o ls -> chain m' o ls.
  Proof.
    revert o. induction ls as [|[n v] ls IH]; intros o Hf; [done|]. intros [-> (o' & Hn & Hc)]. split; [done|].
    exists o'. split; [by rewrite Hf by (simpl; left)|]. apply IH; [|done]. intros n' Hn'. apply Hf. simpl. by right.
  Qed.
  Lemma chain_in m o ls n v : chain m o ls -> (n, v) ∈ ls -> exists o', m !! n = Some (Node v o').
  Proof.
    revert o. induction ls as [|[n' v'] ls IH]; intros o Hc Hi; [by apply elem_of_nil in Hi|].
    destruct Hc as [-> (o' & Hn & Hc)]. apply elem_of_cons in Hi as [E|Hi]; [injection E as -> ->; eauto|eauto].
  Qed.
  Lemma chain_in_fst m o ls n : chain m o ls -> n ∈ ls.*1 -> is_Some (m !! n).
  Proof.
    intros Hc Hi. apply elem_of_list_fmap in Hi as ([n' v] & -> & Hi).
    destruct (chain_in _ _ _ _ _ Hc Hi) as [o' H]. simpl. by rewrite H.
  Qed.
  Lemma set_next_lookup n o m n' : n' <> n -> set_next n o m !! n' = m !! n'.
  Proof. intros. unfold set_next. by rewrite lookup_alter_ne. Qed.
  Lemma set_next_val n o m n' : nval <$> set_next n o m !! n' = nval <$> m !! n'.
  Proof.
    unfold set_next. destruct (decide (n' = n)) as [->|]; [rewrite lookup_alter|by rewrite lookup_alter_ne].
    by destruct (m !! n).
  Qed.
  Lemma chain_last ls a : last ls.*1 = Some a -> exists ls' v, ls = ls' ++ [(a, v)].
  Proof.
    intros H. rewrite fmap_last in H. destruct (last ls) as [[n v]|] eqn:E; simpl in H; [|done].
    injection H as ->. exists (take (pred (length ls)) ls), v. apply last_Some in E as (l' & ->).
    rewrite app_length. simpl. replace (pred (length l' + 1)) with (length l') by lia. by rewrite take_app.
  Qed.
  Lemma chain_snoc m o ls a n w : NoDup ls.*1 -> chain m o ls -> last ls.*1 = Some a ->
    m !! n = Some (Node w None) -> n ∉ ls.*1 ->
    chain (set_next a (Some n) m) o (ls ++ [(n, w)]).
  Proof.
    intros Hnd Hc Hl Hn Hni. revert o Hnd Hc Hl Hni. induction ls as [|[n' v'] ls IH]; intros o Hnd Hc Hl Hni; [done|].
    destruct Hc as [-> (o' & Hn' & Hc)]. simpl. split; [done|].
    rewrite fmap_cons in *. simpl in *. apply NoDup_cons in Hnd as [Hn1 Hnd]. apply not_elem_of_cons in Hni as [Hne Hni].
    destruct ls as [|[n2 v2] ls].
    - simpl in *. injection Hl as ->. exists (Some n). unfold set_next. rewrite lookup_alter, Hn'. split; [done|].
      split; [done|]. exists None. rewrite lookup_alter_ne by done. done.
    - exists o'. rewrite set_next_lookup.
      + split; [done|]. by apply IH.
      + intros ->. apply Hn1. rewrite last_cons in Hl. destruct (last (_ :: _).*1) eqn:E; [|by apply last_None in E].
        simplify_eq. by apply last_Some_elem_of in E.
  Qed.
  Lemma chain_single m n w : m !! n = Some (Node w None) -> chain m (Some n) [(n, w)].
  Proof. intros H. split; [done|]. by exists None. Qed.

  (** * one goroutine *)
  Record rep (q : queue T) (ls : list (loc * T)) : Prop := {
    rep_lock : locked q = false;
    rep_chain : chain (heap q) (hnext q) ls;
    rep_nodup : NoDup ls.*1;
    rep_tail : tail q = last ls.*1;
    rep_count : count q = Z.of_nat (length ls);
    rep_bound : forall n, is_Some (heap q !! n) -> n < fresh_loc q }.
  Lemma rep_new : rep new [].
  Proof. split; try done; [constructor|]. intros n [d H]. simpl in H; by rewrite lookup_empty in H. Qed.

  Lemma rep_push_node q ls n v : rep q ls -> heap q !! n = Some (Node v None) -> n ∉ ls.*1 ->
    exists q', push_node n q = Ok (Some tt, q') /\ rep q' (ls ++ [(n, v)]).
  Proof.
    intros [Hlk Hc Hnd Ht Hk Hb] Hn Hni.
    assert (Hnd' : NoDup (ls ++ [(n, v)]).*1).
    { rewrite fmap_app. apply NoDup_app. simpl. splits; [done| |repeat constructor; by apply not_elem_of_nil].
      intros a Ha Ha'. apply elem_of_list_singleton in Ha'. by subst. }
    unfold push_node, lock. rewrite Hlk. simpl. destruct ls as [|[n0 v0] ls].
    - simpl in Hc. rewrite Hc. eexists. split; [done|]. split; simpl; try done; [by apply chain_single|simpl in *; lia].
    - pose proof Hc as Hc'. destruct Hc' as [Hh _]. rewrite Hh, Ht.
      destruct (last ((n0, v0) :: ls).*1) as [a|] eqn:El.
      2:{ apply last_None in El. done. }
      eexists. split; [done|]. split; cbn [unlock heap hnext tail count fresh_loc locked]; try done.
      + rewrite <- Hh. by apply chain_snoc.
      + rewrite fmap_app. cbn [fmap list_fmap]. by rewrite last_snoc.
      + rewrite app_length. cbn [length] in *. lia.
      + intros n' Hn'. apply Hb. unfold set_next in Hn'. destruct (decide (n' = a)) as [->|].
        * rewrite lookup_alter in Hn'. by apply fmap_is_Some in Hn'.
        * by rewrite lookup_alter_ne in Hn'.
  Qed.
  Lemma rep_new_node q ls v : rep q ls -> let '(n, q') := new_node v q in
    rep q' ls /\ heap q' !! n = Some (Node v None) /\ n ∉ ls.*1.
  Proof.
    intros [Hlk Hc Hnd Ht Hk Hb]. simpl.
    assert (Hni : fresh_loc q ∉ ls.*1). { intros Hi. apply (chain_in_fst _ _ _ _ Hc), Hb in Hi. lia. }
    splits; [|by rewrite lookup_insert|done].
    split; simpl; try done.
    - eapply chain_frame; [|done]. intros n Hn. rewrite lookup_insert_ne; [done|]. intros E; by rewrite E in Hni.
    - intros n Hn. destruct (decide (n = fresh_loc q)); [lia|]. rewrite lookup_insert_ne in Hn by done. apply Hb in Hn. lia.
  Qed.
  Lemma rep_push q ls v : rep q ls -> exists q' n, push v q = Ok (Some tt, q') /\ rep q' (ls ++ [(n, v)]).
  Proof.
    intros H. unfold push. pose proof (rep_new_node q ls v H) as Hn. destruct (new_node v q) as [n q1].
    destruct Hn as (H1 & H2 & H3). destruct (rep_push_node q1 ls n v H1 H2 H3) as (q' & E & H'). by exists q', n.
  Qed.
  Lemma rep_pop_node_nil q : rep q [] -> exists q', pop_node q = Ok (None, q') /\ rep q' [].
  Proof.
    intros [Hlk Hc Hnd Ht Hk Hb]. unfold pop_node, lock. rewrite Hlk. simpl in *. rewrite Hc. eexists. split; [done|].
    by split.
  Qed.
  Lemma rep_pop_node q n v ls : rep q ((n, v) :: ls) ->
    exists q', pop_node q = Ok (Some n, q') /\ rep q' ls /\ n ∉ ls.*1 /\
      heap q' !! n = Some (Node v (fst <$> head ls)).
  Proof.
    intros [Hlk [Hh (o & Hn & Hc)] Hnd Ht Hk Hb]. unfold pop_node, lock. rewrite Hlk. simpl in *. rewrite Hh, Hn. simpl.
    assert (Ho : o = fst <$> head ls). { destruct ls as [|[n1 v1] ls]; simpl in Hc; [done|]. by destruct Hc as [-> _]. }
    apply NoDup_cons in Hnd as [Hn1 Hnd].
    eexists. split; [done|]. splits; [|done|simpl; by rewrite Hn, Ho].
    split; simpl; try done.
    - destruct ls as [|[n1 v1] ls]; simpl in Hc; [by subst o|]. destruct Hc as [-> _]. rewrite Ht. done.
    - lia.
  Qed.
  Lemma rep_pop q n v ls : rep q ((n, v) :: ls) -> exists q', pop q = Ok (Some v, q') /\ rep q' ls.
  Proof.
    intros H. destruct (rep_pop_node q n v ls H) as (q' & E & H' & _ & Hn). exists q'. split; [|done].
    unfold pop. rewrite E. simpl. unfold value. simpl. by rewrite Hn.
  Qed.
  Lemma run1_ok q ls o : rep q ls -> exists r q' ls', run1 o q = Ok (r, q') /\ rep q' ls' /\ fifo ls.*2 o r ls'.*2.
  Proof.
    intros H. destruct o as [v| | | |]; simpl.
    - destruct (rep_push q ls v H) as (q' & n & E & H'). rewrite E. eexists _, _, _. split; [done|]. split; [done|].
      rewrite fmap_app. constructor.
    - destruct ls as [|[n v] ls].
      + destruct (rep_pop_node_nil q H) as (q' & E & H'). unfold pop. rewrite E. eexists _, _, []. split; [done|].
        split; [done|]. constructor.
      + destruct (rep_pop q n v ls H) as (q' & E & H'). rewrite E. eexists _, _, _. split; [done|]. split; [done|]. constructor.
    - destruct H as [Hlk Hc Hnd Ht Hk Hb]. unfold peek, peek_node, lock. rewrite Hlk. simpl.
      eexists _, _, ls. split; [done|]. split; [by split|]. destruct ls as [|[n v] ls]; simpl in Hc.
      + rewrite Hc. constructor.
      + destruct Hc as [Hh (o' & Hn & _)]. rewrite Hh. unfold value. simpl. rewrite Hn. constructor.
    - eexists _, _, ls. split; [done|]. split; [done|]. unfold len. rewrite (rep_count _ _ H). rewrite <- (fmap_length snd ls). constructor.
    - eexists _, _, ls. split; [done|]. split; [done|]. constructor. unfold empty. rewrite bool_decide_eq_true, (rep_count _ _ H).
      destruct ls; simpl; [done|]. split; [lia|done].
  Qed.
  Lemma run_ok q ls os : rep q ls -> exists rs q' ls', run os q = Ok (rs, q') /\ rep q' ls' /\ fifo_run ls.*2 os rs ls'.*2.
  Proof.
    revert q ls. induction os as [|o os IH]; intros q ls H.
    - exists [], q, ls. splits; [done|done|constructor].
    - destruct (run1_ok q ls o H) as (r & q1 & ls1 & E1 & H1 & F1). destruct (IH _ _ H1) as (rs & q2 & ls2 & E2 & H2 & F2).
      exists (r :: rs), q2, ls2. simpl. rewrite E1. simpl. rewrite E2. splits; [done|done|]. by econstructor.
  Qed.
  Lemma history_ok (os : list (op T)) : exists rs q (s : list T), run os new = Ok (rs, q) /\ fifo_run [] os rs s /\ locked q = false /\ len q = Z.of_nat (length s).
  Proof.
    destruct (run_ok new [] os rep_new) as (rs & q & ls & E & H & F). exists rs, q, ls.*2. splits; [done|done|apply H|].
    unfold len. rewrite (rep_count _ _ H). by rewrite fmap_length.
  Qed.

  (** * nodes pushed again (C06) *)
  Definition popped_all (q : queue T) (k : nat) : res (list T * queue T) :=
    Nat.iter k (fun r => let! (vs, q) := r in let! (c, q) := pop q in
                         match c with Some v => Ok (vs ++ [v], q) | None => Panic end) (Ok ([], q)).
  (** a ring: the links run through [ls] and back to its first node *)
  Fixpoint ring m (o : option loc) ls (back : option loc) : Prop :=
    match ls with
    | [] => o = back
    | (n, v) :: ls => o = Some n /\ exists o', m !! n = Some (Node v o') /\ ring m o' ls back
    end.
  Lemma ring_snoc m o ls n v back : ring m o (ls ++ [(n, v)]) back <->
     ring m o ls (Some n) /\ m !! n = Some (Node v back).
  Proof.
    revert o. induction ls as [|[n' v'] ls IH]; intros o; simpl.
    - split; [intros [-> (o' & H & ->)]; done|]. intros [-> H]. split; [done|]. eauto.
    - split.
      + intros [-> (o' & H & Hr)]. apply IH in Hr as [Hr Hn]. split; [|done]. split; [done|]. eauto.
      + intros [[-> (o' & H & Hr)] Hn]. split; [done|]. exists o'. split; [done|]. apply IH. done.
  Qed.
  Lemma ring_pop q n v ls : locked q = false -> ring (heap q) (hnext q) ((n, v) :: ls) (Some n) ->
    exists q', pop q = Ok (Some v, q') /\ locked q' = false /\ heap q' = heap q /\
      ring (heap q') (hnext q') (ls ++ [(n, v)]) (fst <$> head (ls ++ [(n, v)])) /\ count q' = (count q - 1)%Z.
  Proof.
    intros Hlk [Hh (o & Hn & Hr)]. unfold pop, pop_node, lock. rewrite Hlk. simpl. rewrite Hh, Hn. simpl.
    unfold value. simpl. rewrite Hn. simpl. eexists. split; [done|]. simpl. splits; [done|done| |done].
    apply ring_snoc. split; [done|]. rewrite Hn. f_equal. f_equal.
    destruct ls as [|[n1 v1] ls]; simpl in *; [done|]. by destruct Hr as [-> _].
  Qed.
  Lemma popped_all_S q k : popped_all q (S k) = 
    let! (c, q1) := pop q in match c with None => Panic | Some v =>
      let! (vs, q2) := popped_all q1 k in Ok (v :: vs, q2) end.
  Proof.
    unfold popped_all. 
    induction k as [|k IH].
    - simpl. destruct (pop q) as [[[v|] q1]| |]; done.
    - change (Nat.iter (S (S k)) ?f ?x) with (f (Nat.iter (S k) f x)). rewrite IH.
      destruct (pop q) as [[[v|] q1]| |]; simpl; try done.
      destruct (Nat.iter k _ _) as [[vs q2]| |]; simpl; try done.
      destruct (pop q2) as [[[v2|] q3]| |]; done.
  Qed.
  Lemma ring_forever q ls k : locked q = false -> ls <> [] -> ring (heap q) (hnext q) ls (fst <$> head ls) ->
    exists vs q', popped_all q k = Ok (vs, q') /\ length vs = k /\ len q' = (len q - Z.of_nat k)%Z /\
      forall i v, vs !! i = Some v -> ls.*2 !! (i mod length ls) = Some v.
  Proof.
    revert q ls. induction k as [|k IH]; intros q ls Hlk Hne Hr.
    - exists [], q. splits; [done|done|lia|done].
    - destruct ls as [|[n v] ls]; [done|]. destruct (ring_pop q n v ls Hlk Hr) as (q1 & E & Hlk1 & Hh & Hr1 & Hc1).
      destruct (IH q1 (ls ++ [(n, v)]) Hlk1) as (vs & q2 & E2 & Hl & Hc2 & Hv); [by destruct ls|done|].
      exists (v :: vs), q2. rewrite popped_all_S, E. cbn [rbind]. rewrite E2. cbn [rbind]. splits; [done|simpl; lia|unfold len in *; lia|].
      intros [|i] w Hi; simpl in Hi.
      + injection Hi as ->. rewrite Nat.mod_small by (simpl; lia). done.
      + specialize (Hv i w Hi). rewrite app_length in Hv. simpl length in *. replace (length ls + 1) with (S (length ls)) in Hv by lia.
        pose proof (Nat.mod_upper_bound i (S (length ls)) ltac:(lia)) as Hb.
        destruct (decide (i mod S (length ls) = length ls)) as [Em|Em].
        * replace (S i mod S (length ls)) with 0.
          2:{ replace (S i) with (i + 1) by lia. rewrite <- Nat.add_mod_idemp_l by lia. rewrite Em.
              replace (length ls + 1) with (S (length ls)) by lia. by rewrite Nat.mod_same. }
          rewrite Em, fmap_app, lookup_app_r in Hv by (by rewrite fmap_length). rewrite fmap_length, Nat.sub_diag in Hv. done.
        * replace (S i mod S (length ls)) with (S (i mod S (length ls))).
          2:{ replace (S i) with (i + 1) by lia. rewrite <- (Nat.add_mod_idemp_l i 1) by lia. rewrite (Nat.mod_small (i mod S (length ls) + 1)) by lia. by rewrite Nat.add_1_r. }
          rewrite fmap_app, lookup_app_l in Hv by (rewrite fmap_length; lia). done.
  Qed.
  (** popping a node while others remain and pushing it again *)
  Lemma repush_ring q n v ls : rep q ((n, v) :: ls) -> ls <> [] ->
    exists q1 q2, pop_node q = Ok (Some n, q1) /\ push_node n q1 = Ok (Some tt, q2) /\
      locked q2 = false /\ count q2 = count q /\ ring (heap q2) (hnext q2) (ls ++ [(n, v)]) (fst <$> head (ls ++ [(n, v)])).
  Proof.
    intros H Hne. destruct (rep_pop_node q n v ls H) as (q1 & E & H1 & Hni & Hn).
    exists q1. pose proof H1 as [Hlk Hc Hnd Ht Hk Hb]. unfold push_node, lock. rewrite Hlk. simpl.
    destruct ls as [|[n1 v1] ls]; [done|]. pose proof Hc as [Hh _]. rewrite Hh, Ht.
    destruct (last ((n1, v1) :: ls).*1) as [a|] eqn:El; [|by apply last_None in El].
    eexists. splits; [done|done|done|simpl in *; rewrite (rep_count _ _ H) in *; simpl in *; lia|].
    cbn [unlock heap hnext]. rewrite <- Hh. apply ring_snoc. 
    assert (Hna : n <> a). { intros ->. apply Hni. by apply last_Some_elem_of. }
    rewrite set_next_lookup by done. rewrite Hn. split; [|done].
    assert (G : forall ls o, chain (heap q1) o ls -> NoDup ls.*1 -> last ls.*1 = Some a -> ring (set_next a (Some n) (heap q1)) o ls (Some n)).
    { clear. induction ls as [|[n1 v1] ls IH]; intros o Hc Hnd El; [done|]. destruct Hc as [-> (o' & Hn1 & Hc)].
      rewrite fmap_cons in *. simpl in *. apply NoDup_cons in Hnd as [Hi Hnd]. split; [done|].
      destruct ls as [|[n2 v2] ls].
      - simpl in *. injection El as ->. exists (Some n). unfold set_next. by rewrite lookup_alter, Hn1.
      - exists o'. rewrite set_next_lookup.
        + split; [done|]. by apply IH.
        + intros ->. apply Hi. rewrite last_cons in El. destruct (last (_ :: _).*1) eqn:E; [|by apply last_None in E].
          simplify_eq. by apply last_Some_elem_of in E. }
    by apply G.
  Qed.
  Lemma repush_forever q n v ls k : rep q ((n, v) :: ls) -> ls <> [] ->
    exists q1 q2 vs q3, pop_node q = Ok (Some n, q1) /\ push_node n q1 = Ok (Some tt, q2) /\
      popped_all q2 k = Ok (vs, q3) /\ length vs = k /\ len q3 = (len q - Z.of_nat k)%Z /\
      forall i w, vs !! i = Some w -> (ls.*2 ++ [v]) !! (i mod (length ls + 1)) = Some w.
  Proof.
    intros H Hne. destruct (repush_ring q n v ls H Hne) as (q1 & q2 & E1 & E2 & Hlk & Hc & Hr).
    destruct (ring_forever q2 (ls ++ [(n, v)]) k Hlk) as (vs & q3 & E3 & Hl & Hc3 & Hv); [by destruct ls|done|].
    exists q1, q2, vs, q3. splits; [done|done|done|done|unfold len in *; lia|].
    intros i w Hi. specialize (Hv i w Hi). rewrite app_length, fmap_app in Hv. exact Hv.
  Qed.
  Lemma repush_single q n v : rep q [(n, v)] ->
    exists q1 q2, pop_node q = Ok (Some n, q1) /\ push_node n q1 = Ok (Some tt, q2) /\ rep q2 [(n, v)].
  Proof.
    intros H. destruct (rep_pop_node q n v [] H) as (q1 & E & H1 & Hni & Hn).
    destruct (rep_push_node q1 [] n v H1 Hn Hni) as (q2 & E2 & H2). by exists q1, q2.
  Qed.
End chain.
