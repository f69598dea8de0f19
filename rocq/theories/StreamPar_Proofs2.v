From Verif Require Import Base StreamPar_Model StreamPar_Spec.

Section lists.
  Lemma sum_upd {A} (g : A -> nat) l i a b : l !! i = Some a ->
    sum_list_with g (<[i := b]> l) + g a = sum_list_with g l + g b.
  Proof.
    revert i. induction l as [|x l IH]; intros [|i] Hi; simpl in *; try done.
    - injection Hi as ->. lia.
    - specialize (IH i Hi). lia.
  Qed.
  Lemma sum_le {A} (g h : A -> nat) l : (forall x, g x <= h x) -> sum_list_with g l <= sum_list_with h l.
  Proof. intros H. induction l as [|x l IH]; simpl; [done|]. specialize (H x). lia. Qed.
  Lemma sum_one {A} (g : A -> nat) l : (forall x, g x <= 1) -> sum_list_with g l <= length l.
  Proof. intros H. induction l as [|x l IH]; simpl; [done|]. specialize (H x). lia. Qed.
  Lemma sum_zero {A} (g : A -> nat) l : sum_list_with g l = 0 <-> forall i x, l !! i = Some x -> g x = 0.
  Proof.
    split.
    - induction l as [|y l IH]; simpl; intros H [|i] x Hi; simpl in *; simplify_eq; [lia|eapply IH; eauto; lia].
    - induction l as [|y l IH]; intros H; simpl; [done|].
      rewrite (H 0 y eq_refl). rewrite IH; [done|]. intros i x Hi. apply (H (S i)). done.
  Qed.
  Lemma sum_ext {A} (g h : A -> nat) l : (forall x, x ∈ l -> g x = h x) -> sum_list_with g l = sum_list_with h l.
  Proof.
    induction l as [|y l IH]; intros H; simpl; [done|]. rewrite IH; [|intros; apply H; by right].
    rewrite (H y); [done|by left].
  Qed.
  Lemma sum_indicator j a k : a <= j < a + k ->
    sum_list_with (fun i => if decide (j = i) then 1 else 0) (seq a k) = 1.
  Proof.
    revert a. induction k as [|k IH]; intros a Hj; [lia|]. simpl. case_decide as E.
    - subst. rewrite (sum_ext _ (fun _ => 0)).
      + clear. generalize (S a). induction k as [|k IHk]; intros b; simpl; [done|]. apply IHk.
      + intros x Hx. apply elem_of_seq in Hx. rewrite decide_False by lia. done.
    - rewrite IH by lia. done.
  Qed.
  Lemma sum_plus {A} (g h : A -> nat) l :
    sum_list_with (fun x => g x + h x) l = sum_list_with g l + sum_list_with h l.
  Proof. induction l; simpl; lia. Qed.
  Lemma by_owner_sum {A} (id : A -> nat) k (log : list A) : Forall (fun e => id e < k) log ->
    sum_list_with (fun j => length (filter (fun e => id e = j) log)) (seq 0 k) = length log.
  Proof.
    induction 1 as [|e log He HF IH]; simpl.
    - clear. change (sum_list_with (fun _ : nat => 0) (seq 0 k) = 0). generalize 0 at 2. induction k as [|k IHk]; intros b; simpl; [done|]. apply IHk.
    - rewrite (sum_ext _ (fun j => (if decide (id e = j) then 1 else 0) + length (filter (fun e => id e = j) log))).
      + rewrite sum_plus, IH, sum_indicator by lia. done.
      + intros j _. rewrite filter_cons. case_decide; simpl; lia.
  Qed.
  Lemma sum_concat {A} (ls : list (list A)) : sum_list_with length ls = length (concat ls).
  Proof. induction ls as [|l ls IH]; simpl; [done|]. rewrite app_length. lia. Qed.
  Lemma sum_seq {A} (g : nat -> nat) (h : A -> nat) l a :
    (forall i x, l !! i = Some x -> g (a + i) = h x) ->
    sum_list_with g (seq a (length l)) = sum_list_with h l.
  Proof.
    revert a. induction l as [|x l IH]; intros a H; simpl; [done|].
    rewrite <- (H 0 x eq_refl), Nat.add_0_r. f_equal. apply IH. intros i y Hi.
    rewrite <- (H (S i) y Hi). f_equal. lia.
  Qed.
End lists.

Section collect.
  Context {T : Type} (st : stage) (segs : list (list T)) (c0 : Z).
  Notation cs := (cstate T).
  Notation init := (cinit segs c0).

  Definition pendw (w : cworker T) : list T :=
    match w with
    | CLoop r | CPull r => r
    | CHave x r | CEmit _ x r => x :: r
    | CEnd | CGone => [] end.
  Definition wrel (c : Z) (w : cworker T) (seg mj dj : list T) : Prop :=
    match st with
    | SkipN _ => mj ++ dj ++ pendw w ≡ₚ seg /\ sublist (mj ++ pendw w) seg
    | TakeN n => dj = [] /\ exists lost, mj ++ pendw w ++ lost = seg /\ (lost <> [] -> (n <= c)%Z)
    | _ => dj = [] /\ mj ++ pendw w = seg end.
  Definition wwf (w : cworker T) : Prop :=
    match w with
    | CPull _ => match st with TakeN _ => True | _ => False end
    | CHave _ _ => st <> Plain
    | _ => True end.
  Definition is_emit (w : cworker T) : nat := match w with CEmit _ _ _ => 1 | _ => 0 end.
  Definition in_flight (w : cworker T) : nat := match w with CPull _ | CHave _ _ => 1 | _ => 0 end.
  Definition alive (w : cworker T) : nat := match w with CGone => 0 | _ => 1 end.
  Definition ekeys (ws : list (cworker T)) : list Z :=
    omap (fun w => match w with CEmit k _ _ => Some k | _ => None end) ws.
  Definition counts (x : cs) : Prop :=
    let emitting := Z.of_nat (length (clog x) + sum_list_with is_emit (cws x)) in
    match st with
    | Plain => True
    | Enum => keys (clog x) ++ ekeys (cws x) ≡ₚ seqZ (c0 + 1) (counter x - c0) /\ (counter x = c0 + emitting)%Z
    | TakeN n => (counter x = c0 + emitting)%Z /\
        ((c0 < n)%Z -> (counter x + Z.of_nat (sum_list_with in_flight (cws x)) <= n - 1 + Z.of_nat (length (cws x)))%Z) /\
        ((n <= c0)%Z -> counter x = c0 /\ sum_list_with in_flight (cws x) = 0)
    | SkipN n => (counter x = c0 + emitting + Z.of_nat (length (cdrop x)))%Z /\
        Z.of_nat (length (cdrop x)) = (Z.min (counter x - c0) (Z.max (n - 1 - c0) 0))%Z
    end.
  Record cinv (x : cs) : Prop := {
    ci_todo : todo x = drop (length (cws x)) segs;
    ci_len : length (cws x) <= length segs;
    ci_main : cm x <> CSpawn -> length (cws x) = length segs;
    ci_wg : wg x = sum_list_with alive (cws x);
    ci_ret : cm x = CReturned -> wg x = 0;
    ci_ids : Forall (fun e => e.1.1 < length (cws x)) (clog x) /\ Forall (fun e => e.1 < length (cws x)) (cdrop x);
    ci_ws : forall j w, cws x !! j = Some w -> wwf w /\
       forall seg, segs !! j = Some seg -> wrel (counter x) w seg (delivered j (clog x)) (dropped j (cdrop x));
    ci_counts : counts x
  }.


  Lemma delivered_app j (log : list (nat * Z * T)) e : delivered j (log ++ [e]) = delivered j log ++ (if decide (e.1.1 = j) then [e.2] else []).
  Proof.
    unfold delivered. rewrite filter_app, fmap_app. f_equal. rewrite filter_cons. by case_decide.
  Qed.
  Lemma dropped_app j (log : list (nat * T)) e : dropped j (log ++ [e]) = dropped j log ++ (if decide (e.1 = j) then [e.2] else []).
  Proof.
    unfold dropped. rewrite filter_app, fmap_app. f_equal. rewrite filter_cons. by case_decide.
  Qed.
  Lemma delivered_fresh j (log : list (nat * Z * T)) : Forall (fun e => e.1.1 < j) log -> delivered j log = [].
  Proof.
    unfold delivered. induction 1 as [|e l He HF IH]; [done|]. rewrite filter_cons, decide_False by lia. done.
  Qed.
  Lemma dropped_fresh j (log : list (nat * T)) : Forall (fun e => e.1 < j) log -> dropped j log = [].
  Proof.
    unfold dropped. induction 1 as [|e l He HF IH]; [done|]. rewrite filter_cons, decide_False by lia. done.
  Qed.
  Lemma wrel_mono c c' w seg mj dj : (c <= c')%Z -> wrel c w seg mj dj -> wrel c' w seg mj dj.
  Proof. unfold wrel. destruct st; try done. intros Hc (-> & lost & H1 & H2). split; [done|]. exists lost. split; [done|]. intros H. specialize (H2 H). lia. Qed.
  Lemma cinv_start : cinv init.
  Proof.
    split; simpl; try done; [lia|].
    unfold counts. simpl. destruct st; simpl; try done.
    - split; lia.
    - splits; [lia|intros;lia|done].
    - split; [|lia]. rewrite Z.sub_diag. done.
  Qed.
  Lemma ekeys_upd_none ws i w w' : ws !! i = Some w -> is_emit w = 0 -> is_emit w' = 0 -> ekeys (<[i := w']> ws) = ekeys ws.
  Proof.
    unfold ekeys. revert i. induction ws as [|a ws IH]; intros [|i] Hi H1 H2; simpl in *; try done.
    - injection Hi as ->. destruct w, w'; done.
    - by rewrite IH.
  Qed.
  Lemma ekeys_upd_some ws i w k x r : ws !! i = Some w -> is_emit w = 0 -> ekeys (<[i := CEmit k x r]> ws) ≡ₚ k :: ekeys ws.
  Proof.
    unfold ekeys. revert i. induction ws as [|a ws IH]; intros [|i] Hi H1; simpl in *; try done.
    - injection Hi as ->. destruct w; done.
    - specialize (IH i Hi H1). destruct a; try done. rewrite IH. apply Permutation_swap.
  Qed.
  Lemma ekeys_upd_drop ws i w' k x r : ws !! i = Some (CEmit k x r) -> is_emit w' = 0 -> ekeys ws ≡ₚ k :: ekeys (<[i := w']> ws).
  Proof.
    unfold ekeys. revert i. induction ws as [|a ws IH]; intros [|i] Hi H1; simpl in *; try done.
    - injection Hi as ->. destruct w'; done.
    - specialize (IH i Hi H1). destruct a; try done. rewrite IH. apply Permutation_swap.
  Qed.

  (** a step of worker [i] that touches neither logs nor counter *)
  Lemma ws_local c c' log dr (ws : list (cworker T)) i w w' : ws !! i = Some w ->
    (forall j w, ws !! j = Some w -> wwf w /\
       forall seg, segs !! j = Some seg -> wrel c w seg (delivered j log) (dropped j dr)) ->
    (c <= c')%Z -> wwf w' ->
    (forall seg mj dj, wrel c w seg mj dj -> wrel c' w' seg mj dj) ->
    forall j v, <[i := w']> ws !! j = Some v -> wwf v /\
       forall seg, segs !! j = Some seg -> wrel c' v seg (delivered j log) (dropped j dr).
  Proof.
    intros Hi HW Hc Hwf Hrel j v Hj. apply list_lookup_insert_Some in Hj as [(<- & <- & _)|[_ Hj]].
    - split; [done|]. intros seg Hs. apply Hrel. by apply HW.
    - destruct (HW _ _ Hj) as [H1 H2]. split; [done|]. intros seg Hs. eapply wrel_mono; [done|]. by apply H2.
  Qed.

  Ltac lens i w' Hi :=
    pose proof (sum_upd is_emit _ i _ w' Hi); pose proof (sum_upd in_flight _ i _ w' Hi);
    pose proof (sum_upd alive _ i _ w' Hi); simpl in *.

  Lemma cinv_step x y : cinv x -> cstep st x y -> cinv y.
  Proof.
    intros I Hst. destruct Hst as
      [seg td ws n c lg dr|ws n c lg dr|ws c lg dr td
      |l m td ws n c lg dr i rest Est Hi Hc|l m td ws n c lg dr i rest Est Hi Hc
      |m td ws n c lg dr i e rest Hi|m td ws n c lg dr i Hi
      |m td ws n c lg dr i e rest Est Hi|l m td ws n c lg dr i e rest Est Hi
      |l m td ws n c lg dr i e rest Est Hi Hc|l m td ws n c lg dr i e rest Est Hi Hc
      |m td ws n c lg dr i k e rest Hi|m td ws n c lg dr i Hi];
      destruct I as [I1 I2 I3 I4 I5 [I6 I6'] I7 I8]; simpl in *.
    - (* spawn *)
      assert (Hlt : length ws < length segs).
      { apply (f_equal length) in I1. rewrite drop_length in I1. simpl in I1. lia. }
      assert (Hseg : segs !! length ws = Some seg /\ td = drop (S (length ws)) segs).
      { destruct (lookup_lt_is_Some_2 _ _ Hlt) as [s' Hs']. rewrite (drop_S _ _ _ Hs') in I1.
        injection I1 as -> ->. done. }
      destruct Hseg as [Hseg ->].
      split; simpl.
      + rewrite app_length. simpl. by rewrite Nat.add_1_r.
      + rewrite app_length. simpl. lia.
      + done.
      + rewrite sum_list_with_app. simpl. lia.
      + done.
      + rewrite app_length. simpl. split; (eapply Forall_impl; [eassumption|simpl; lia]).
      + intros j w Hj. apply lookup_app_Some in Hj as [Hj|[Hge Hj]]; [by apply I7|].
        apply list_lookup_singleton_Some in Hj as [Hj <-]. assert (j = length ws) as -> by lia.
        split; [done|]. intros seg' Hs'. rewrite Hseg in Hs'. injection Hs' as <-.
        rewrite delivered_fresh, dropped_fresh by done. unfold wrel. destruct st; simpl; try done.
        split; [done|]. exists []. split; [by rewrite app_nil_r|done].
      + unfold counts in *. simpl in *. rewrite !sum_list_with_app. simpl. rewrite !Nat.add_0_r.
        destruct st; try done.
        * rewrite app_length. simpl. destruct I8 as (H1 & H2 & H3). splits; [done| |done].
          intros H. specialize (H2 H). lia.
        * destruct I8 as [H1 H2]. split; [|done]. unfold ekeys. rewrite omap_app. simpl. by rewrite app_nil_r.
    - split; simpl; try done. intros _. 
      apply (f_equal length) in I1. rewrite drop_length in I1. simpl in I1. lia.
    - split; simpl; try done. intros _. by apply I3.
    - lens i (CPull rest) Hi. assert (i < length ws) by (by eapply lookup_lt_Some).
      split; simpl; rewrite ?insert_length; try done; [lia| |].
      + eapply ws_local; [done|done|lia|unfold wwf; by rewrite Est|]. intros seg mj dj. unfold wrel. rewrite Est. done.
      + unfold counts in *. rewrite Est in *. simpl in *. rewrite insert_length. destruct I8 as (H4 & H5 & H6).
        pose proof (sum_one in_flight (<[i:=CPull rest]> ws) ltac:(intros []; simpl; lia)) as Hle. rewrite insert_length in Hle.
        splits; [lia|lia|lia].
    - lens i (CEnd : cworker T) Hi.
      split; simpl; rewrite ?insert_length; try done; [lia| |].
      + eapply ws_local; [done|done|lia|done|]. intros seg mj dj. unfold wrel. rewrite Est.
        intros (-> & lost & <- & Hl). split; [done|]. exists (rest ++ lost). done.
      + unfold counts in *. rewrite Est in *. simpl in *. rewrite insert_length. destruct I8 as (H4 & H5 & H6).
        splits; [lia|lia|lia].
    - (* pull *)
      set (w' := match st with Plain => CEmit 0 e rest | _ => CHave e rest end).
      lens i w' Hi.
      split; simpl; rewrite ?insert_length; try done; [subst w'; destruct st; simpl in *; lia| |].
      + eapply ws_local; [done|done|lia|subst w'; unfold wwf; by destruct st|]. intros seg mj dj. unfold wrel. subst w'. by destruct st.
      + unfold counts in *. simpl in *. rewrite ?insert_length. subst w'. destruct st; simpl in *; [done|lia|lia|].
        rewrite (ekeys_upd_none _ _ _ _ Hi) by done. split; [tauto|lia].
    - (* exhausted *)
      lens i (CEnd : cworker T) Hi.
      split; simpl; rewrite ?insert_length; try done; [destruct st; simpl in *; lia| |].
      + eapply ws_local; [done|done|lia|done|]. intros seg mj dj. unfold wrel. by destruct st.
      + unfold counts in *. simpl in *. rewrite ?insert_length. destruct st; simpl in *; [done|lia|lia|].
        rewrite (ekeys_upd_none _ _ _ _ Hi) by done. split; [tauto|lia].
    - (* enum *)
      lens i (CEmit (c + 1) e rest) Hi.
      split; simpl; rewrite ?insert_length; try done; [lia| |].
      + eapply ws_local; [done|done|lia|done|]. intros seg mj dj. unfold wrel. rewrite Est. done.
      + unfold counts in *. rewrite Est in *. simpl in *. destruct I8 as [H4 H5]. split; [|lia].
        rewrite (ekeys_upd_some _ _ _ _ _ _ Hi) by done. rewrite Permutation_app_comm. simpl.
        rewrite Permutation_app_comm, H4.
        replace (c + 1 - c0)%Z with ((c - c0) + 1)%Z by lia.
        rewrite (seqZ_app (c0 + 1) (c - c0) 1) by lia.
        change (seqZ (c0 + 1 + (c - c0)) 1) with [(c0 + 1 + (c - c0))%Z].
        replace (c0 + 1 + (c - c0))%Z with (c + 1)%Z by lia. symmetry. rewrite Permutation_app_comm. done.
    - (* take *)
      lens i (CEmit 0 e rest) Hi.
      split; simpl; rewrite ?insert_length; try done; [lia| |].
      + eapply ws_local; [done|done|lia|done|]. intros seg mj dj. unfold wrel. rewrite Est.
        intros (-> & lost & <- & Hl). split; [done|]. exists lost. split; [done|]. intros Hne. specialize (Hl Hne). lia.
      + unfold counts in *. rewrite Est in *. simpl in *. rewrite insert_length. destruct I8 as (H4 & H5 & H6).
        splits; [lia|lia|lia].
    - (* skip drop *)
      lens i (CLoop rest) Hi.
      split; simpl; rewrite ?insert_length; try done; [lia| | |].
      + split; [done|]. apply Forall_app. split; [done|]. constructor; [|done]. simpl. by eapply lookup_lt_Some.
      + intros j v Hj. apply list_lookup_insert_Some in Hj as [(<- & <- & _)|[Hne Hj]].
        * split; [done|]. intros seg Hs. destruct (I7 _ _ Hi) as [_ Hr]. specialize (Hr _ Hs).
          rewrite dropped_app, decide_True by done. unfold wrel in *. rewrite Est in *. simpl in *.
          destruct Hr as [Hr1 Hr2]. split.
          -- rewrite <- Hr1. rewrite <- (app_assoc _ [e]). done.
          -- etrans; [|done]. apply sublist_app; [done|]. by constructor.
        * destruct (I7 _ _ Hj) as [H4 H5]. split; [done|]. intros seg Hs.
          rewrite dropped_app, decide_False by done. rewrite app_nil_r. eapply wrel_mono; [|by apply H5]. lia.
      + unfold counts in *. rewrite Est in *. simpl in *. rewrite app_length. simpl. lia.
    - (* skip pass *)
      lens i (CEmit 0 e rest) Hi.
      split; simpl; rewrite ?insert_length; try done; [lia| |].
      + eapply ws_local; [done|done|lia|done|]. intros seg mj dj. unfold wrel. rewrite Est. done.
      + unfold counts in *. rewrite Est in *. simpl in *. lia.
    - (* emit *)
      lens i (CLoop rest) Hi.
      split; simpl; rewrite ?insert_length; try done; [lia| | |].
      + split; [|done]. apply Forall_app. split; [done|]. constructor; [|done]. simpl. by eapply lookup_lt_Some.
      + intros j v Hj. apply list_lookup_insert_Some in Hj as [(<- & <- & _)|[Hne Hj]].
        * split; [done|]. intros seg Hs. destruct (I7 _ _ Hi) as [_ Hr]. specialize (Hr _ Hs).
          rewrite delivered_app, decide_True by done. unfold wrel in *. destruct st; simpl in *.
          -- destruct Hr as [-> Hr]. split; [done|]. by rewrite <- app_assoc.
          -- destruct Hr as [Hr1 Hr2]. split; [|by rewrite <- app_assoc].
             rewrite <- Hr1. rewrite <- app_assoc. apply Permutation_app_head.
             simpl. by rewrite Permutation_middle.
          -- destruct Hr as [-> (lost & Hr & Hl)]. split; [done|]. exists lost. split; [|done]. by rewrite <- app_assoc.
          -- destruct Hr as [-> Hr]. split; [done|]. by rewrite <- app_assoc.
        * destruct (I7 _ _ Hj) as [H4 H5]. split; [done|]. intros seg Hs.
          rewrite delivered_app, decide_False by done. rewrite app_nil_r. by apply H5.
      + unfold counts in *. simpl in *. rewrite ?app_length, ?insert_length. simpl. destruct st; simpl in *; [done|lia|lia|].
        destruct I8 as [H4 H5]. split; [|lia]. rewrite <- H4.
        rewrite (ekeys_upd_drop ws i (CLoop rest) _ _ _ Hi) by done.
        unfold keys. rewrite fmap_app, <- app_assoc. done.
    - (* done *)
      lens i (CGone : cworker T) Hi.
      split; simpl; rewrite ?insert_length; try done; [lia| | |].
      + intros Hm. specialize (I5 Hm). lia.
      + eapply ws_local; [done|done|lia|done|]. intros seg mj dj. unfold wrel. by destruct st.
      + unfold counts in *. simpl in *. rewrite ?insert_length. destruct st; simpl in *; [done|lia|lia|].
        rewrite (ekeys_upd_none _ _ _ _ Hi) by done. split; [tauto|lia].
  Qed.
  Lemma cinv_reach x : rtc (cstep st) init x -> cinv x.
  Proof.
    intros H. apply rtc_ind_r with (P := cinv) (z := x) in H; [done|apply cinv_start|].
    intros y z _ Hyz I. by eapply cinv_step.
  Qed.

  (** at return *)
  Lemma returned_facts x : rtc (cstep st) init x -> cm x = CReturned ->
    length (cws x) = length segs /\ (forall j w, cws x !! j = Some w -> w = CGone) /\
    (forall j seg, segs !! j = Some seg -> wrel (counter x) CGone seg (delivered j (clog x)) (dropped j (cdrop x))) /\
    Forall (fun e => e.1.1 < length segs) (clog x) /\ Forall (fun e => e.1 < length segs) (cdrop x) /\
    counts x /\ sum_list_with is_emit (cws x) = 0 /\ sum_list_with in_flight (cws x) = 0 /\ ekeys (cws x) = [].
  Proof.
    intros Hr Hm. destruct (cinv_reach x Hr) as [I1 I2 I3 I4 I5 [I6 I6'] I7 I8].
    assert (Hlen : length (cws x) = length segs) by (apply I3; by rewrite Hm).
    assert (Hgone : forall j w, cws x !! j = Some w -> w = CGone).
    { rewrite (I5 Hm) in I4. symmetry in I4. rewrite sum_zero in I4. intros j w Hj. specialize (I4 _ _ Hj).
      by destruct w. }
    rewrite Hlen in *. splits; try done.
    - intros j seg Hs. assert (j < length (cws x)) as Hj by (rewrite Hlen; by eapply lookup_lt_Some).
      destruct (lookup_lt_is_Some_2 _ _ Hj) as [w Hw]. rewrite <- (Hgone _ _ Hw). by apply I7.
    - apply sum_zero. intros i w Hi. by rewrite (Hgone _ _ Hi).
    - apply sum_zero. intros i w Hi. by rewrite (Hgone _ _ Hi).
    - clear -Hgone. unfold ekeys. induction (cws x) as [|w ws IH]; [done|]. simpl.
      rewrite (Hgone 0 w eq_refl). apply IH. intros j v Hj. by apply (Hgone (S j)).
  Qed.
  Lemma log_length (log : list (nat * Z * T)) : Forall (fun e => e.1.1 < length segs) log ->
    length log = sum_list_with (fun j => length (delivered j log)) (seq 0 (length segs)).
  Proof.
    intros H. rewrite <- (by_owner_sum (fun e => e.1.1) (length segs) log H). apply sum_ext.
    intros j _. unfold delivered. by rewrite fmap_length.
  Qed.
  Lemma drop_length' (dr : list (nat * T)) : Forall (fun e => e.1 < length segs) dr ->
    length dr = sum_list_with (fun j => length (dropped j dr)) (seq 0 (length segs)).
  Proof.
    intros H. rewrite <- (by_owner_sum (fun e => e.1) (length segs) dr H). apply sum_ext.
    intros j _. unfold dropped. by rewrite fmap_length.
  Qed.

  (** progress and termination, for every stage *)
  Definition cwt (w : cworker T) : nat :=
    match w with
    | CLoop r => 4 * length r + 3
    | CPull r => 4 * length r + 2
    | CHave _ r => 4 * length r + 5
    | CEmit _ _ r => 4 * length r + 4
    | CEnd => 1 | CGone => 0 end.
  Definition cmu (x : cs) : nat :=
    match cm x with CSpawn => 2 | CWait => 1 | CReturned => 0 end +
    sum_list_with (fun seg => 4 * length seg + 4) (todo x) + sum_list_with cwt (cws x).
  Lemma cmu_dec x y : cstep st x y -> cmu y < cmu x.
  Proof.
    intros Hst. destruct Hst as
      [seg td ws n c lg dr|ws n c lg dr|ws c lg dr td
      |l m td ws n c lg dr i rest Est Hi Hc|l m td ws n c lg dr i rest Est Hi Hc
      |m td ws n c lg dr i e rest Hi|m td ws n c lg dr i Hi
      |m td ws n c lg dr i e rest Est Hi|l m td ws n c lg dr i e rest Est Hi
      |l m td ws n c lg dr i e rest Est Hi Hc|l m td ws n c lg dr i e rest Est Hi Hc
      |m td ws n c lg dr i k e rest Hi|m td ws n c lg dr i Hi]; unfold cmu; simpl.
    - rewrite sum_list_with_app. simpl. lia.
    - lia.
    - lia.
    - pose proof (sum_upd cwt _ i _ (CPull rest) Hi) as H. simpl in H. lia.
    - pose proof (sum_upd cwt _ i _ CEnd Hi) as H. simpl in H. lia.
    - pose proof (sum_upd cwt _ i _ (match st with Plain => CEmit 0 e rest | _ => CHave e rest end) Hi) as H.
      destruct st; simpl in *; lia.
    - pose proof (sum_upd cwt _ i _ CEnd Hi) as H. destruct st; simpl in *; lia.
    - pose proof (sum_upd cwt _ i _ (CEmit (c + 1) e rest) Hi) as H. simpl in H. lia.
    - pose proof (sum_upd cwt _ i _ (CEmit 0 e rest) Hi) as H. simpl in H. lia.
    - pose proof (sum_upd cwt _ i _ (CLoop rest) Hi) as H. simpl in H. lia.
    - pose proof (sum_upd cwt _ i _ (CEmit 0 e rest) Hi) as H. simpl in H. lia.
    - pose proof (sum_upd cwt _ i _ (CLoop rest) Hi) as H. simpl in H. lia.
    - pose proof (sum_upd cwt _ i _ CGone Hi) as H. simpl in H. lia.
  Qed.
  Lemma collect_bounded m x : nsteps (cstep st) m init x -> m <= cmu init.
  Proof.
    assert (G : forall m x y, nsteps (cstep st) m x y -> m + cmu y <= cmu x).
    { intros m' a b H. induction H as [a|m' a b c H1 H2 IH]; [lia|]. pose proof (cmu_dec _ _ H1). lia. }
    intros H. pose proof (G _ _ _ H). lia.
  Qed.
  Lemma collect_progress x : rtc (cstep st) init x -> (exists y, cstep st x y) \/ cm x = CReturned.
  Proof.
    intros Hr. destruct (cinv_reach x Hr) as [I1 I2 I3 I4 I5 [I6 I6'] I7 I8].
    destruct x as [m td ws n c lg dr]; simpl in *. destruct m; [| |by right]; left.
    - destruct td; eexists; constructor.
    - destruct n as [|n]; [eexists; constructor|].
      assert (exists i w, ws !! i = Some w /\ w <> CGone) as (i & w & Hi & Hw).
      { clear -I4. revert n I4. induction ws as [|w ws IH]; intros n H; simpl in *; [done|].
        destruct w; try (by exists 0; eauto). simpl in H.
        destruct (IH _ H) as (i & w & ? & ?). by exists (S i), w. }
      destruct (I7 _ _ Hi) as [Hwf _]. destruct w as [rest|rest|e rest|k e rest| |]; [| | | | |done].
      + destruct st as [|l|l|] eqn:Est; rewrite <- Est.
        * destruct rest; eexists; [eapply cs_exhausted|eapply cs_pull]; rewrite Est; done.
        * destruct rest; eexists; [eapply cs_exhausted|eapply cs_pull]; rewrite Est; done.
        * destruct (decide (c < l)%Z); eexists; [eapply cs_check_pass|eapply cs_check_fail]; try done. lia.
        * destruct rest; eexists; [eapply cs_exhausted|eapply cs_pull]; rewrite Est; done.
      + simpl in Hwf. destruct st as [|l|l|] eqn:Est; try done. rewrite <- Est.
        destruct rest; eexists; [eapply cs_exhausted|eapply cs_pull]; rewrite Est; done.
      + simpl in Hwf. destruct st as [|l|l|] eqn:Est; [done| | |]; rewrite <- Est.
        * destruct (decide (c + 1 < l)%Z); eexists; [eapply cs_skip_drop|eapply cs_skip_pass]; try done. lia.
        * eexists. by eapply cs_take.
        * eexists. by eapply cs_enum.
      + eexists. by eapply cs_emit.
      + eexists. by eapply cs_done.
  Qed.
End collect.
