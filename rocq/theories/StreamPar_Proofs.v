From Verif Require Import Base Iter_Model Iter_Spec Split_Model Split_Proofs StreamPar_Model.

(** * FoldWith *)
Section fold.
  Context {T R : Type} (s : list T) (p : Z) (init : R) (f : R -> T -> R) (comb : R -> R -> R).
  Notation step := (length s / Z.to_nat p).
  Notation k := (nseg (length s) step).
  Notation res_of j := (fold_left f (chunk s step j) init).
  Notation fst := (fstep s p init f comb).
  Notation st := (fstate T R).

  Fixpoint dres (j : nat) (ws : list (fworker T R)) : list R :=
    match ws with
    | [] => []
    | FDone :: ws' => res_of j :: dres (S j) ws'
    | _ :: ws' => dres (S j) ws'
    end.
  Definition undone (w : fworker T R) : bool := match w with FDone => false | _ => true end.
  Fixpoint ures (j : nat) (ws : list (fworker T R)) : list R :=
    match ws with
    | [] => []
    | FDone :: ws' => ures (S j) ws'
    | _ :: ws' => res_of j :: ures (S j) ws'
    end.

  Lemma dres_ures j ws : dres j ws ++ ures j ws ≡ₚ (fun j => res_of j) <$> seq j (length ws).
  Proof.
    revert j. induction ws as [|w ws IH]; intros j; [done|]. simpl. destruct w; simpl.
    - rewrite <- IH. by rewrite Permutation_middle.
    - rewrite <- IH. by rewrite Permutation_middle.
    - by rewrite <- IH.
  Qed.
  Lemma dres_app j ws w : undone w = true -> dres j (ws ++ [w]) = dres j ws.
  Proof.
    intros Hw. revert j. induction ws as [|w' ws IH]; intros j; simpl; [by destruct w|].
    destruct w'; by rewrite IH.
  Qed.
  Lemma dres_upd j ws i w w' : ws !! i = Some w -> undone w = true -> undone w' = true ->
    dres j (<[i := w']> ws) = dres j ws.
  Proof.
    intros Hi Hu Hu'. revert j i Hi. induction ws as [|a ws IH]; intros j [|i] Hi; simpl in *; try done.
    - injection Hi as ->. destruct w, w'; done.
    - destruct a; by rewrite IH.
  Qed.
  Lemma dres_done j ws i w : ws !! i = Some w -> undone w = true ->
    dres j (<[i := FDone]> ws) ≡ₚ res_of (j + i) :: dres j ws.
  Proof.
    intros Hi Hu. revert j i Hi. induction ws as [|a ws IH]; intros j [|i] Hi; simpl in *; try done.
    - injection Hi as ->. rewrite Nat.add_0_r. destruct w; done.
    - replace (j + S i) with (S j + i) by lia. destruct a; rewrite (IH (S j) i Hi); try done.
      apply Permutation_swap.
  Qed.
  Lemma ures_in j ws i w : ws !! i = Some w -> undone w = true -> ures j ws <> [].
  Proof.
    revert j i. induction ws as [|a ws IH]; intros j [|i] Hi Hu; simpl in *; try done.
    - injection Hi as ->. by destruct w.
    - destruct a; try done. by eapply IH.
  Qed.
  Lemma ures_nonempty j ws : ures j ws <> [] -> exists i w, ws !! i = Some w /\ undone w = true.
  Proof.
    revert j. induction ws as [|a ws IH]; intros j Hu; simpl in *; [done|].
    destruct a; [by exists 0; eauto|by exists 0; eauto|].
    destruct (IH _ Hu) as (i & w & ? & ?). exists (S i), w. done.
  Qed.

  Definition wok (seg : list T) (w : fworker T R) : Prop :=
    match w with
    | FRun rest a => exists d, seg = d ++ rest /\ a = fold_left f d init
    | FSend a => a = fold_left f seg init
    | FDone => True
    end.
  Record finv (x : st) : Prop := {
    fi_len : length (fws x) <= k;
    fi_main : match fm x with FSpawn idx => idx = length (fws x) * step | _ => length (fws x) = k end;
    fi_ws : forall j w, fws x !! j = Some w -> wok (chunk s step j) w;
    fi_res : exists rs, rs ++ fbuf x ≡ₚ dres 0 (fws x) /\
      match fm x with
      | FSpawn _ => rs = []
      | FRecv c acc => length rs = c /\ acc = fold_left comb rs init /\ (Z.of_nat c <= p)%Z
      | FReturned acc => Z.of_nat (length rs) = p /\ acc = fold_left comb rs init
      end;
    fi_closed : fclosed x = match fm x with FReturned _ => true | _ => false end;
    fi_crash : fcrashed x = true -> fclosed x = true /\ exists i a, fws x !! i = Some (FSend a)
  }.

  Context (Hp : (1 <= p)%Z) (Hn : (p <= Z.of_nat (length s))%Z).

  Lemma finv_init : finv finit.
  Proof. split; simpl; try done; [lia|]. exists []. done. Qed.

  Lemma upd_ws (ws : list (fworker T R)) i w w' :
    ws !! i = Some w -> (forall j w, ws !! j = Some w -> wok (chunk s step j) w) ->
    wok (chunk s step i) w' ->
    forall j v, <[i := w']> ws !! j = Some v -> wok (chunk s step j) v.
  Proof.
    intros Hi Hw Hw' j v Hj. apply list_lookup_insert_Some in Hj as [(<- & <- & _)|[_ Hj]]; eauto.
  Qed.

  Lemma split_at i : i < k -> split_next s p (i * step) = Ok (Some (chunk s step i), S i * step).
  Proof. intros. by apply split_pull. Qed.
  Lemma split_end : split_next s p (k * step) = Ok (None, k * step).
  Proof. by apply split_drains. Qed.
  Lemma step_pos : 0 < step.
  Proof. apply (step_bounds (length s) p Hp Hn). Qed.

  Lemma finv_step x y : finv x -> fst x y -> finv y.
  Proof.
    intros I Hst. destruct Hst as [idx seg idx' ws buf cl E|idx idx' ws buf cl E|c acc ws r buf cl Hc
      |c acc ws buf cl Hc|m ws buf cl i x rest acc Hi|m ws buf cl i acc Hi|m ws buf i acc Hi Hl|m ws buf i acc Hi];
      destruct I as [I1 I2 I3 (rs & I4 & I4') I5 I6]; simpl in *.
    - subst idx. pose proof step_pos. pose proof (nseg_spec (length s) step ltac:(lia)) as Hk.
      assert (Hlt : length ws < k).
      { destruct (decide (length ws < k)) as [|Hge]; [done|].
        replace (length ws) with k in E by lia. rewrite split_end in E. done. }
      rewrite split_at in E by done. injection E as <- <-.
      split; simpl.
      + rewrite app_length. simpl. lia.
      + rewrite app_length. simpl. lia.
      + intros j w Hj. apply lookup_app_Some in Hj as [Hj|[Hge Hj]]; [by eauto|].
        apply list_lookup_singleton_Some in Hj as [Hj <-]. replace j with (length ws) by lia.
        exists []. done.
      + exists rs. by rewrite dres_app.
      + done.
      + intros; done.
    - subst idx. assert (length ws = k) as Hlen.
      { destruct (decide (length ws < k)) as [Hlt|]; [|lia]. rewrite split_at in E by done. done. }
      split; simpl; try done. exists rs. subst rs. splits; [done|done|done|lia].
    - destruct I4' as (<- & -> & Hcp). split; simpl; try done.
      exists (rs ++ [r]). rewrite app_length, fold_left_app. simpl. splits; [|lia|done|lia].
      by rewrite <- app_assoc.
    - destruct I4' as (<- & -> & Hcp). split; simpl; try done. exists rs. done.
    - split; simpl.
      + by rewrite insert_length.
      + by rewrite insert_length.
      + eapply upd_ws; [done|done|]. destruct (I3 _ _ Hi) as (d & Hd & ->).
        exists (d ++ [x]). split; [by rewrite <- app_assoc|by rewrite fold_left_app].
      + exists rs. rewrite (dres_upd _ _ _ _ _ Hi) by done. done.
      + done.
      + done.
    - split; simpl.
      + by rewrite insert_length.
      + by rewrite insert_length.
      + eapply upd_ws; [done|done|]. destruct (I3 _ _ Hi) as (d & Hd & ->). rewrite app_nil_r in Hd.
        by subst d.
      + exists rs. rewrite (dres_upd _ _ _ _ _ Hi) by done. done.
      + done.
      + done.
    - split; simpl.
      + by rewrite insert_length.
      + by rewrite insert_length.
      + eapply upd_ws; [done|done|done].
      + exists rs. split; [|done]. rewrite (dres_done _ _ _ _ Hi) by done. simpl.
        rewrite app_assoc, I4. pose proof (I3 _ _ Hi) as Ha. simpl in Ha. rewrite Ha.
        by rewrite Permutation_app_comm.
      + done.
      + done.
    - split; simpl; try done. { by exists rs. } intros _. split; [done|]. by exists i, acc.
  Qed.
  Lemma finv_reach x : rtc fst finit x -> finv x.
  Proof.
    intros H. apply rtc_ind_r with (P := finv) (z := x) in H; [done|apply finv_init|].
    intros y z _ Hyz I. by eapply finv_step.
  Qed.

  (** what a completed fold returned *)
  Lemma fold_returned x v : rtc fst finit x -> fm x = FReturned v ->
    exists used lost, used ++ lost ≡ₚ (fun j => res_of j) <$> seq 0 k /\
      Z.of_nat (length used) = p /\ v = fold_left comb used init.
  Proof.
    intros Hr Hm. destruct (finv_reach x Hr) as [I1 I2 I3 (rs & I4 & I4') I5 I6].
    rewrite Hm in *. destruct I4' as [Hl ->].
    exists rs, (fbuf x ++ ures 0 (fws x)). splits; [|done|done].
    rewrite <- I2. rewrite app_assoc, I4. apply dres_ures.
  Qed.

  Lemma fold_no_crash x : k = Z.to_nat p -> rtc fst finit x -> fcrashed x = false.
  Proof.
    intros Hk Hr. destruct (fcrashed x) eqn:Ec; [|done]. exfalso.
    destruct (finv_reach x Hr) as [I1 I2 I3 (rs & I4 & I4') I5 I6].
    destruct (I6 Ec) as (Hcl & i & a & Hi). rewrite I5 in Hcl.
    destruct (fm x) eqn:Hm; try done. destruct I4' as [Hl _].
    pose proof (ures_in 0 _ _ _ Hi eq_refl) as Hu.
    pose proof (Permutation_length (dres_ures 0 (fws x))) as HL.
    rewrite app_length, fmap_length, seq_length in HL.
    apply Permutation_length in I4. rewrite app_length in I4.
    destruct (ures 0 (fws x)); [done|]. simpl in HL. lia.
  Qed.

  Lemma k_ge_p : Z.to_nat p <= k.
  Proof.
    destruct (split_partitions s p Hp Hn) as (segs & fin & Hd & _ & _ & Hl & _ & _ & _ & Hge).
    rewrite Hl in Hge. exact Hge.
  Qed.
  Lemma k_eq_p : k = Z.to_nat p <-> (p | Z.of_nat (length s))%Z.
  Proof.
    destruct (split_partitions s p Hp Hn) as (segs & fin & Hd & _ & _ & Hl & _ & _ & Hiff & Hge).
    rewrite Hl in Hiff. exact Hiff.
  Qed.

  Lemma fold_progress x : rtc fst finit x -> fcrashed x = false ->
    (exists y, fst x y) \/ (exists v, fm x = FReturned v).
  Proof.
    intros Hr Hc. destruct (finv_reach x Hr) as [I1 I2 I3 (rs & I4 & I4') I5 I6].
    destruct x as [m ws buf cl cr]; simpl in *. subst cr. destruct m as [idx|c acc|v]; [| |by eauto].
    - left. subst idx. destruct (decide (length ws < k)) as [Hlt|Hge].
      + eexists. apply fs_spawn. by apply split_at.
      + eexists. eapply fs_spawned. replace (length ws) with k by lia. apply split_end.
    - left. destruct I4' as (<- & -> & Hcp). destruct (decide (Z.of_nat (length rs) = p)) as [|Hne].
      + eexists. by apply fs_return.
      + destruct buf as [|r buf]; [|by eexists; apply fs_recv].
        rewrite app_nil_r in I4. subst cl.
        pose proof (Permutation_length (dres_ures 0 ws)) as HL.
        rewrite app_length, fmap_length, seq_length in HL.
        apply Permutation_length in I4. pose proof k_ge_p as Hkp.
        assert (ures 0 ws <> []) as Hu. { destruct (ures 0 ws); [simpl in HL; lia|done]. }
        apply ures_nonempty in Hu as (i & w & Hi & Hw). destruct w as [[|x rest] a|a|]; [| | |done].
        * eexists. by eapply fs_end.
        * eexists. by eapply fs_work.
        * eexists. eapply fs_send; [done|]. simpl. lia.
  Qed.

  (** bounded schedules *)
  Definition wt (w : fworker T R) : nat := match w with FRun rest _ => length rest + 2 | FSend _ => 1 | FDone => 0 end.
  Definition wsum (ws : list (fworker T R)) : nat := sum_list_with wt ws.
  Definition spawnwt (i : nat) : nat := sum_list_with (fun j => length (chunk s step j) + 3) (seq i (k - i)).
  Definition mu (x : st) : nat :=
    match fm x with
    | FSpawn _ => spawnwt (length (fws x)) + Z.to_nat p + 3
    | FRecv c _ => (Z.to_nat p - c) + 2
    | FReturned _ => 1 end + wsum (fws x) - (if fcrashed x then 1 else 0).
  Lemma wsum_upd ws i w w' : ws !! i = Some w -> wsum (<[i := w']> ws) + wt w = wsum ws + wt w'.
  Proof.
    unfold wsum. revert i. induction ws as [|a ws IH]; intros [|i] Hi; simpl in *; try done.
    - injection Hi as ->. lia.
    - specialize (IH i Hi). lia.
  Qed.
  Lemma spawnwt_S i : i < k -> spawnwt i = (length (chunk s step i) + 3) + spawnwt (S i).
  Proof.
    intros Hi. unfold spawnwt. replace (k - i) with (S (k - S i)) by lia. done.
  Qed.
  Lemma mu_dec x y : finv x -> fst x y -> mu y < mu x.
  Proof.
    intros I Hst. destruct Hst as [idx seg idx' ws buf cl E|idx idx' ws buf cl E|c acc ws r buf cl Hc
      |c acc ws buf cl Hc|m ws buf cl i x rest acc Hi|m ws buf cl i acc Hi|m ws buf i acc Hi Hl|m ws buf i acc Hi];
      destruct I as [I1 I2 I3 (rs & I4 & I4') I5 I6]; unfold mu; simpl in *.
    - subst idx. assert (Hlt : length ws < k).
      { destruct (decide (length ws < k)) as [|Hge]; [done|].
        replace (length ws) with k in E by lia. rewrite split_end in E. done. }
      rewrite split_at in E by done. injection E as <- <-.
      rewrite (spawnwt_S (length ws)) by done. rewrite app_length. simpl. replace (length ws + 1) with (S (length ws)) by lia.
      unfold wsum. rewrite sum_list_with_app. simpl. lia.
    - lia.
    - destruct I4' as (<- & -> & Hcp). lia.
    - lia.
    - pose proof (wsum_upd ws i _ (FRun rest (f acc x)) Hi) as Hw. simpl in Hw. rewrite ?insert_length.
      destruct m; lia.
    - pose proof (wsum_upd ws i _ (FSend acc) Hi) as Hw. simpl in Hw. rewrite ?insert_length. destruct m; lia.
    - pose proof (wsum_upd ws i _ FDone Hi) as Hw. simpl in Hw. rewrite ?insert_length. destruct m; lia.
    - destruct m; lia.
  Qed.
  Lemma fold_bounded m x : nsteps fst m finit x -> m <= mu finit.
  Proof.
    assert (G : forall m x y, nsteps fst m x y -> finv x -> m + mu y <= mu x).
    { intros m' a b H. induction H as [a|m' a b c H1 H2 IH]; intros I; [lia|].
      pose proof (mu_dec _ _ I H1). pose proof (IH (finv_step _ _ I H1)). lia. }
    intros H. pose proof (G _ _ _ H finv_init). lia.
  Qed.

  (** the schedule that crashes when p does not divide n *)
  Lemma sched_spawn j : j <= k ->
    rtc fst finit (FState (FSpawn (j * step)) ((fun j => FRun (chunk s step j) init) <$> seq 0 j) [] false false).
  Proof.
    induction j as [|j IH]; intros Hj; [constructor|].
    eapply rtc_r; [apply IH; lia|]. rewrite seq_S, fmap_app. apply fs_spawn. apply split_at. lia.
  Qed.
  Lemma sched_run m buf cl ws1 seg a ws2 :
    rtc fst (FState m (ws1 ++ FRun seg a :: ws2) buf cl false)
            (FState m (ws1 ++ FSend (fold_left f seg a) :: ws2) buf cl false).
  Proof.
    revert a. induction seg as [|x seg IH]; intros a; simpl.
    - eapply rtc_l; [|constructor]. 
      pose proof (fs_end s p init f comb m (ws1 ++ FRun [] a :: ws2) buf cl (length ws1) a) as H.
      rewrite list_lookup_middle in H by done. rewrite insert_app_r_alt in H by lia.
      rewrite Nat.sub_diag in H. simpl in H. by apply H.
    - eapply rtc_l; [|apply IH].
      pose proof (fs_work s p init f comb m (ws1 ++ FRun (x :: seg) a :: ws2) buf cl (length ws1) x seg a) as H.
      rewrite list_lookup_middle in H by done. rewrite insert_app_r_alt in H by lia.
      rewrite Nat.sub_diag in H. simpl in H. by apply H.
  Qed.
  Lemma sched_run_all m buf cl (segs : list (list T)) ws1 :
    rtc fst (FState m (ws1 ++ ((fun seg => FRun seg init) <$> segs)) buf cl false)
            (FState m (ws1 ++ ((fun seg => FSend (fold_left f seg init)) <$> segs)) buf cl false).
  Proof.
    revert ws1. induction segs as [|seg segs IH]; intros ws1; [constructor|].
    etrans; [apply sched_run|]. specialize (IH (ws1 ++ [FSend (fold_left f seg init)])).
    rewrite <- !app_assoc in IH. exact IH.
  Qed.
  Lemma sched_send (vs : list R) : forall c acc ws1 ws2, (Z.of_nat (c + length vs) <= p)%Z ->
    rtc fst (FState (FRecv c acc) (ws1 ++ (FSend <$> vs) ++ ws2) [] false false)
            (FState (FRecv (c + length vs) (fold_left comb vs acc)) (ws1 ++ ((fun _ => FDone) <$> vs) ++ ws2) [] false false).
  Proof.
    induction vs as [|v vs IH]; intros c acc ws1 ws2 Hc; simpl in *.
    - rewrite Nat.add_0_r. constructor.
    - eapply rtc_l.
      { pose proof (fs_send s p init f comb (FRecv c acc) (ws1 ++ FSend v :: (FSend <$> vs) ++ ws2) [] (length ws1) v) as H.
        rewrite list_lookup_middle in H by done. rewrite insert_app_r_alt in H by lia.
        rewrite Nat.sub_diag in H. simpl in H. apply H; [done|lia]. }
      eapply rtc_l; [apply fs_recv; lia|].
      specialize (IH (c + 1) (comb acc v) (ws1 ++ [FDone]) ws2 ltac:(lia)).
      rewrite <- !app_assoc in IH. replace (c + S (length vs)) with (c + 1 + length vs) by lia. exact IH.
  Qed.
  Lemma fold_can_crash : ~ (p | Z.of_nat (length s))%Z ->
    exists x v, rtc fst finit x /\ fm x = FReturned v /\ fcrashed x = true.
  Proof.
    intros Hnd. assert (Hkp : Z.to_nat p < k).
    { pose proof k_ge_p. destruct (decide (k = Z.to_nat p)) as [E|]; [|lia]. by apply k_eq_p in E. }
    set (segs := chunk s step <$> seq 0 k).
    set (vs := (fun seg => fold_left f seg init) <$> segs).
    assert (Hlv : length vs = k). { unfold vs, segs. by rewrite !fmap_length, seq_length. }
    pose (vs1 := take (Z.to_nat p) vs). 
    destruct (drop (Z.to_nat p) vs) as [|v2 vs2] eqn:Ed.
    { apply (f_equal length) in Ed. rewrite drop_length in Ed. simpl in Ed. lia. }
    assert (Evs : vs = vs1 ++ v2 :: vs2). { unfold vs1. rewrite <- Ed. by rewrite take_drop. }
    assert (Hl1 : length vs1 = Z.to_nat p). { unfold vs1. rewrite take_length. lia. }
    eexists _, (fold_left comb vs1 init). splits.
    - etrans; [apply (sched_spawn k); lia|]. eapply rtc_l; [eapply fs_spawned, split_end|].
      etrans. { rewrite (list_fmap_compose (chunk s step) (fun seg => FRun seg init)). apply (sched_run_all _ _ _ _ []). }
      fold segs. simpl.
      replace ((fun seg => FSend (fold_left f seg init)) <$> segs) with (FSend (T:=T) <$> vs)
        by (unfold vs; by rewrite <- list_fmap_compose).
      rewrite Evs, fmap_app, fmap_cons.
      etrans. { apply (sched_send vs1 0 init [] (FSend v2 :: (FSend <$> vs2))). lia. }
      simpl. eapply rtc_l; [apply fs_return; lia|].
      eapply rtc_l; [|constructor]. eapply fs_send_closed with (i := length vs1) (acc := v2).
      rewrite lookup_app_r by (by rewrite fmap_length). by rewrite fmap_length, Nat.sub_diag.
    - done.
    - done.
  Qed.
End fold.

(** * degenerate cases *)
Section degenerate.
  Context {T R : Type} (init : R) (f : R -> T -> R) (comb : R -> R -> R).
  Lemma fold_empty_inv (p : Z) x : (1 <= p)%Z -> rtc (fstep [] p init f comb) finit x ->
    x = finit \/ x = FState (FRecv 0 init) [] [] false false.
  Proof.
    intros Hp Hr. apply rtc_ind_r with (P := fun x => x = finit \/ x = FState (FRecv 0 init) [] [] false false) (z := x) in Hr;
      [done|by left|].
    intros y z _ Hst [->| ->].
    - inversion Hst as [? ? ? ? ? ? E|? ? ? ? ? E| | |? ? ? ? ? ? ? ? H|? ? ? ? ? ? H|? ? ? ? ? H|? ? ? ? ? H]; subst; try done.
      + rewrite split_empty in E by lia. done.
      + by right.
    - inversion Hst as [? ? ? ? ? ? E|? ? ? ? ? E| | |? ? ? ? ? ? ? ? H|? ? ? ? ? ? H|? ? ? ? ? H|? ? ? ? ? H]; subst; try done.
      
  Qed.
  Lemma fold_empty (p : Z) : (1 <= p)%Z ->
    (forall x, rtc (fstep [] p init f comb) finit x -> forall v, fm x <> FReturned v) /\
    rtc (fstep [] p init f comb) finit (FState (FRecv 0 init) [] [] false false) /\
    (forall y, ~ fstep [] p init f comb (FState (FRecv 0 init) [] [] false false) y).
  Proof.
    intros Hp. splits.
    - intros x Hr v. destruct (fold_empty_inv p x Hp Hr) as [->| ->]; done.
    - eapply rtc_l; [|constructor]. eapply fs_spawned. apply split_empty. lia.
    - intros y Hst. inversion Hst; subst; try done. 
  Qed.
  Lemma fold_short (s : list T) (p : Z) x : (0 < Z.of_nat (length s) < p)%Z ->
    rtc (fstep s p init f comb) finit x -> fm x = FSpawn 0 /\ (fcrashed x = false /\ fclosed x = false) /\ exists y, fstep s p init f comb x y.
  Proof.
    intros Hp Hr.
    assert (fm x = FSpawn 0 /\ fcrashed x = false /\ fclosed x = false) as H.
    { apply rtc_ind_r with (P := fun x => fm x = FSpawn 0 /\ fcrashed x = false /\ fclosed x = false) (z := x) in Hr; [done|done|].
      intros y z _ Hst (H1 & H2 & H3).
      inversion Hst as [? ? ? ? ? ? E|? ? ? ? ? E| | |? ? ? ? ? ? ? ? H|? ? ? ? ? ? H|? ? ? ? ? H|? ? ? ? ? H]; subst; simpl in *; try done.
      - injection H1 as ->. rewrite split_stuck in E by done. injection E as <- <-. done.
      - injection H1 as ->. rewrite split_stuck in E by done. done. }
    destruct H as (H1 & H2 & H3). splits; [done|done|done|].
    destruct x as [m ws buf cl cr]. simpl in *. subst.
    eexists. apply fs_spawn. by apply split_stuck.
  Qed.
End degenerate.

(** * with a commutative monoid the result is the sequential fold *)
Section algebra.
  Context {T R : Type} (init : R) (f : R -> T -> R) (comb : R -> R -> R).
  Context (Hassoc : forall a b c, comb a (comb b c) = comb (comb a b) c).
  Context (Hcomm : forall a b, comb a b = comb b a).
  Context (Hid : forall a, comb init a = a).
  Context (Hhom : forall a b x, f (comb a b) x = comb a (f b x)).

  Lemma fold_hom l a b : fold_left f l (comb a b) = comb a (fold_left f l b).
  Proof. revert b. induction l as [|x l IH]; intros b; [done|]. simpl. by rewrite Hhom, IH. Qed.
  Lemma comb_perm l1 l2 : l1 ≡ₚ l2 -> forall a, fold_left comb l1 a = fold_left comb l2 a.
  Proof.
    induction 1 as [|x l1 l2 _ IH|x y l|l1 l2 l3 _ IH1 _ IH2]; intros a; simpl; [done|by rewrite IH| |by rewrite IH1].
    f_equal. rewrite <- !Hassoc. by rewrite (Hcomm y x).
  Qed.
  Lemma comb_segs (segs : list (list T)) a :
    fold_left comb ((fun seg => fold_left f seg init) <$> segs) a = fold_left f (concat segs) a.
  Proof.
    revert a. induction segs as [|seg segs IH]; intros a; [done|]. simpl. rewrite IH, fold_left_app.
    f_equal. rewrite <- fold_hom. f_equal. by rewrite Hcomm, Hid.
  Qed.
End algebra.
