From Verif Require Import Base Iter_Model Iter_Spec Split_Model Split_Proofs StreamPar_Model StreamPar_Proofs StreamTry_Model StreamTry_Spec.

Section seqs.
  Context {T : Type} (f : T -> T -> T * bool).
  Lemma try_seq_app l1 l2 a : try_seq f (l1 ++ l2) a =
    (let (a', ok) := try_seq f l1 a in if ok then try_seq f l2 a' else (a', false)).
  Proof.
    revert a. induction l1 as [|x l1 IH]; intros a; [done|]. cbn [app try_seq].
    destruct (f a x) as [a' [|]]; [apply IH|done].
  Qed.
End seqs.

Section tf.
  Context {T : Type} (zero : T) (s : list T) (p : Z) (init : T) (f : T -> T -> T * bool).
  Notation step := (length s / Z.to_nat p).
  Notation k := (nseg (length s) step).
  Notation sg j := (chunk s step j).
  Notation tst := (tstep zero s p init f).
  Notation tf := (try_seq f).
  Notation sv := (seg_val f init).
  Notation sok := (seg_ok f init).

  (** the segments of the goroutines that sent their result, and the others *)
  Fixpoint dsegs (j : nat) (ws : list (tworker T)) : list (list T) :=
    match ws with
    | [] => []
    | TSent :: ws' => sg j :: dsegs (S j) ws'
    | _ :: ws' => dsegs (S j) ws'
    end.
  Fixpoint usegs (j : nat) (ws : list (tworker T)) : list (list T) :=
    match ws with
    | [] => []
    | TSent :: ws' => usegs (S j) ws'
    | _ :: ws' => sg j :: usegs (S j) ws'
    end.
  Definition unsent (w : tworker T) : bool := match w with TSent => false | _ => true end.

  Lemma dsegs_usegs j ws : dsegs j ws ++ usegs j ws ≡ₚ (fun j => sg j) <$> seq j (length ws).
  Proof.
    revert j. induction ws as [|w ws IH]; intros j; [done|]. simpl. destruct w; simpl; rewrite <- IH; try done;
      by rewrite Permutation_middle.
  Qed.
  Lemma dsegs_app j ws w : unsent w = true -> dsegs j (ws ++ [w]) = dsegs j ws.
  Proof.
    intros Hw. revert j. induction ws as [|w' ws IH]; intros j; simpl; [by destruct w|].
    destruct w'; by rewrite IH.
  Qed.
  Lemma dsegs_upd j ws i w w' : ws !! i = Some w -> unsent w = true -> unsent w' = true ->
    dsegs j (<[i := w']> ws) = dsegs j ws.
  Proof.
    intros Hi Hu Hu'. revert j i Hi. induction ws as [|a ws IH]; intros j [|i] Hi; simpl in *; try done.
    - injection Hi as ->. destruct w, w'; done.
    - destruct a; by rewrite IH.
  Qed.
  Lemma dsegs_sent j ws i w : ws !! i = Some w -> unsent w = true ->
    dsegs j (<[i := TSent]> ws) ≡ₚ sg (j + i) :: dsegs j ws.
  Proof.
    intros Hi Hu. revert j i Hi. induction ws as [|a ws IH]; intros j [|i] Hi; simpl in *; try done.
    - injection Hi as ->. rewrite Nat.add_0_r. destruct w; done.
    - replace (j + S i) with (S j + i) by lia. destruct a; rewrite (IH (S j) i Hi); try done.
      apply Permutation_swap.
  Qed.
  Lemma usegs_in j ws i w : ws !! i = Some w -> unsent w = true -> usegs j ws <> [].
  Proof.
    revert j i. induction ws as [|a ws IH]; intros j [|i] Hi Hu; simpl in *; try done.
    - injection Hi as ->. by destruct w.
    - destruct a; try done. by eapply IH.
  Qed.
  Lemma usegs_nonempty j ws : usegs j ws <> [] -> exists i w, ws !! i = Some w /\ unsent w = true.
  Proof.
    revert j. induction ws as [|a ws IH]; intros j Hu; simpl in *; [done|].
    destruct a; try (by exists 0; eauto).
    destruct (IH _ Hu) as (i & w & ? & ?). exists (S i), w. done.
  Qed.

  (** somebody's segment does not fold *)
  Definition bad_seg : Prop := exists j, j < k /\ ~ sok (sg j).
  Definition wok (c : bool) (seg : list T) (w : tworker T) : Prop :=
    match w with
    | TRun rest a => exists d, seg = d ++ rest /\ tf d init = (a, true)
    | TCancel => ~ sok seg
    | TSend a => tf seg init = (a, true)
    | TSent => sok seg
    | TQuit => c = true
    end.
  Definition bad_comb (used : list (list T)) : Prop := (tf (sv <$> used) init).2 = false.
  Record tinv (x : tstate T) : Prop := {
    ti_len : length (tws x) <= k;
    ti_main : match tm x with TSpawn idx => idx = length (tws x) * step | _ => length (tws x) = k end;
    ti_ws : forall j w, tws x !! j = Some w -> wok (tcanc x) (sg j) w;
    ti_res : exists used bs, used ++ bs ≡ₚ dsegs 0 (tws x) /\ tbuf x = sv <$> bs /\
      match tm x with
      | TSpawn _ => used = []
      | TRecv c acc val => length used = c /\ tf (sv <$> used) init = (acc, true) /\ (Z.of_nat c <= p)%Z /\ val = default zero (last (sv <$> used))
      | TReturned v true => Z.of_nat (length used) = p /\ tf (sv <$> used) init = (v, true)
      | TReturned v false => Z.of_nat (length used) <= p /\ ((bad_seg /\ (tf (sv <$> used) init).2 = true /\ v = default zero (last (sv <$> used))) \/ tf (sv <$> used) init = (v, false))
      end%Z;
    ti_canc : tcanc x = true -> bad_seg \/ exists v, tm x = TReturned v false
  }.

  Context (Hp : (1 <= p)%Z) (Hn : (p <= Z.of_nat (length s))%Z).

  Lemma tsplit_at i : i < k -> split_next s p (i * step) = Ok (Some (sg i), S i * step).
  Proof. intros. by apply split_pull. Qed.
  Lemma tsplit_end : split_next s p (k * step) = Ok (None, k * step).
  Proof. by apply split_drains. Qed.

  Lemma tinv_init : tinv tinit.
  Proof. split; simpl; try done; [lia|]. by exists [], []. Qed.

  Lemma wok_mono c seg w : wok c seg w -> wok true seg w.
  Proof. by destruct w. Qed.
  Lemma upd_wok (ws : list (tworker T)) c c' i w w' :
    ws !! i = Some w -> (forall j w, ws !! j = Some w -> wok c (sg j) w) -> (c = true -> c' = true) ->
    wok c' (sg i) w' ->
    forall j v, <[i := w']> ws !! j = Some v -> wok c' (sg j) v.
  Proof.
    intros Hi Hw Hc Hw' j v Hj. apply list_lookup_insert_Some in Hj as [(<- & <- & _)|[_ Hj]]; [done|].
    specialize (Hw j v Hj). destruct v; try exact Hw. by apply Hc.
  Qed.
  Lemma fail_not_ok d x rest a a' : tf d init = (a, true) -> f a x = (a', false) -> ~ sok (d ++ x :: rest).
  Proof. intros E1 E2. unfold seg_ok. rewrite try_seq_app, E1. cbn. by rewrite E2. Qed.
  Lemma idx_lt (ws : list (tworker T)) i w : length ws <= k -> ws !! i = Some w -> i < k.
  Proof. intros ? H. apply lookup_lt_Some in H. lia. Qed.

  Lemma tinv_step x y : tinv x -> tst x y -> tinv y.
  Proof.
    intros I Hst. destruct Hst as [idx seg idx' ws buf c E|idx idx' ws buf c E|n acc val a ws r buf c Hc Ef
      |n acc val a ws r buf c Hc Ef|n acc val ws buf Hc|n acc val ws buf c Hc
      |m ws buf i x rest acc Hi|m ws buf i x rest acc a Hi Ef|m ws buf i x rest acc a Hi Ef
      |m ws buf c i Hi|m ws buf c i acc Hi|m ws buf c i acc Hi Hl];
      destruct I as [I1 I2 I3 (used & bs & I4 & I4b & I4') I5]; simpl in *.
    - subst idx. pose proof (step_bounds (length s) p Hp Hn) as [_ Hs]. pose proof (nseg_spec (length s) step Hs) as Hk.
      assert (Hlt : length ws < k).
      { destruct (decide (length ws < k)) as [|Hge]; [done|].
        replace (length ws) with k in E by lia. rewrite tsplit_end in E. done. }
      rewrite tsplit_at in E by done. injection E as <- <-. split; cbn [tm tws tbuf tcanc].
      + rewrite app_length. simpl. lia.
      + rewrite app_length. simpl. lia.
      + intros j w Hj. apply lookup_app_Some in Hj as [Hj|[Hge Hj]]; [by apply I3|].
        apply list_lookup_singleton_Some in Hj as [Hj <-]. replace j with (length ws) by lia. by exists [].
      + exists used, bs. by rewrite dsegs_app.
      + intros H. destruct (I5 H) as [|[? ?]]; [by left|done].
    - subst idx. assert (length ws = k) as Hlen.
      { destruct (decide (length ws < k)) as [Hlt|]; [|lia]. rewrite tsplit_at in E by done. done. }
      split; cbn [tm tws tbuf tcanc]; try done; [exists used, bs; subst used; splits; try done; lia|].
      intros H. destruct (I5 H) as [|[? ?]]; [by left|done].
    - destruct I4' as (<- & Ea & Hcp & Hval). destruct bs as [|b bs]; [done|]. injection I4b as -> ->.
      split; cbn [tm tws tbuf tcanc]; try done.
      + exists (used ++ [b]), bs. rewrite app_length, fmap_app, try_seq_app, Ea. cbn. rewrite Ef.
        splits; try done; [by rewrite <- app_assoc|lia|by rewrite last_snoc].
      + intros H. destruct (I5 H) as [|[? ?]]; [by left|done].
    - destruct I4' as (<- & Ea & Hcp & Hval). destruct bs as [|b bs]; [done|]. injection I4b as -> ->.
      split; cbn [tm tws tbuf tcanc]; try done.
      + intros j w Hj. by eapply wok_mono, I3.
      + exists (used ++ [b]), bs. rewrite app_length, fmap_app, try_seq_app, Ea. cbn. rewrite Ef.
        splits; try done; [by rewrite <- app_assoc|lia|by right].
      + intros _. right. by eexists.
    - destruct I4' as (<- & Ea & Hcp & ->). destruct (I5 eq_refl) as [Hb|[? ?]]; [|done].
      split; cbn [tm tws tbuf tcanc]; try done; [|by left].
      exists used, bs. splits; try done. left. splits; [done|by rewrite Ea|done].
    - destruct I4' as (<- & Ea & Hcp & ->). split; cbn [tm tws tbuf tcanc]; try done; [by exists used, bs|].
      intros H. destruct (I5 H) as [|[? ?]]; [by left|done].
    - split; cbn [tm tws tbuf tcanc]; rewrite ?insert_length; try done.
      + by eapply upd_wok.
      + exists used, bs. rewrite (dsegs_upd _ _ _ _ _ Hi) by done. done.
    - destruct (I3 _ _ Hi) as (d & Hd & Ed). split; cbn [tm tws tbuf tcanc]; rewrite ?insert_length; try done.
      + eapply upd_wok; [done..|]. exists (d ++ [x]). split; [by rewrite <- app_assoc|]. rewrite try_seq_app, Ed. cbn. by rewrite Ef.
      + exists used, bs. rewrite (dsegs_upd _ _ _ _ _ Hi) by done. done.
    - destruct (I3 _ _ Hi) as (d & Hd & Ed). split; cbn [tm tws tbuf tcanc]; rewrite ?insert_length; try done.
      + eapply upd_wok; [done..|]. cbn. rewrite Hd. by eapply fail_not_ok.
      + exists used, bs. rewrite (dsegs_upd _ _ _ _ _ Hi) by done. done.
    - pose proof (I3 _ _ Hi) as Hb. split; cbn [tm tws tbuf tcanc]; rewrite ?insert_length; try done.
      + by eapply upd_wok.
      + exists used, bs. rewrite (dsegs_upd _ _ _ _ _ Hi) by done. done.
      + intros _. left. exists i. split; [by eapply idx_lt|done].
    - destruct (I3 _ _ Hi) as (d & Hd & Ed). rewrite app_nil_r in Hd. split; cbn [tm tws tbuf tcanc]; rewrite ?insert_length; try done.
      + eapply upd_wok; [done..|]. cbn. by rewrite Hd.
      + exists used, bs. rewrite (dsegs_upd _ _ _ _ _ Hi) by done. done.
    - pose proof (I3 _ _ Hi) as Hb. cbn in Hb. split; cbn [tm tws tbuf tcanc]; rewrite ?insert_length; try done.
      + eapply upd_wok; [done..|]. cbn. unfold seg_ok. by rewrite Hb.
      + exists used, (bs ++ [sg i]). splits; [|subst buf; rewrite fmap_app; cbn; unfold seg_val at 3; by rewrite Hb|done].
        rewrite (dsegs_sent _ _ _ _ Hi) by done. rewrite app_assoc, I4. by rewrite Permutation_app_comm.
  Qed.
  Lemma tinv_reach x : rtc tst tinit x -> tinv x.
  Proof.
    intros H. apply rtc_ind_r with (P := tinv) (z := x) in H; [done|apply tinv_init|].
    intros y z _ Hyz I. by eapply tinv_step.
  Qed.

  Lemma dsegs_ok c j ws : (forall i w, ws !! i = Some w -> wok c (sg (j + i)) w) -> Forall sok (dsegs j ws).
  Proof.
    revert j. induction ws as [|w ws IH]; intros j H; [constructor|]. simpl.
    assert (F : Forall sok (dsegs (S j) ws)).
    { apply IH. intros i v Hv. replace (S j + i) with (j + S i) by lia. by apply H. }
    specialize (H 0 w eq_refl). rewrite Nat.add_0_r in H. destruct w; try done. by constructor.
  Qed.

  (** progress *)
  Lemma tf_progress x : rtc tst tinit x -> (exists y, tst x y) \/ (exists v ok, tm x = TReturned v ok).
  Proof.
    intros Hr. destruct (tinv_reach x Hr) as [I1 I2 I3 (used & bs & I4 & I4b & I4') I5].
    destruct x as [m ws buf c]; simpl in *. destruct m as [idx|n acc val|v ok]; [| |by eauto].
    - left. subst idx. destruct (decide (length ws < k)) as [Hlt|Hge].
      + eexists. apply ts_spawn. by apply tsplit_at.
      + eexists. eapply ts_spawned. replace (length ws) with k by lia. apply tsplit_end.
    - left. destruct I4' as (<- & Ea & Hcp & ->). destruct (decide (Z.of_nat (length used) = p)) as [|Hne].
      + eexists. by apply ts_return.
      + destruct c; [by eexists; apply ts_done|].
        destruct bs as [|b bs]; [|subst buf; cbn; destruct (f acc (sv b)) as [a [|]] eqn:Ef; eexists; [by eapply ts_recv|by eapply ts_recv_fail]].
        rewrite app_nil_r in I4. subst buf. cbn.
        pose proof (Permutation_length (dsegs_usegs 0 ws)) as HL.
        rewrite app_length, fmap_length, seq_length in HL.
        apply Permutation_length in I4. pose proof (k_ge_p s p Hp Hn) as Hkp.
        assert (usegs 0 ws <> []) as Hu. { destruct (usegs 0 ws); [simpl in HL; lia|done]. }
        apply usegs_nonempty in Hu as (i & w & Hi & Hw). destruct w as [[|x rest] a| |a| |]; try done.
        * eexists. by eapply ts_end.
        * destruct (f a x) as [a' [|]] eqn:Ef; eexists; [by eapply ts_work|by eapply ts_work_fail].
        * eexists. by eapply ts_cancel.
        * eexists. eapply ts_send; [done|]. simpl. lia.
        * pose proof (I3 _ _ Hi) as Hq. done.
  Qed.

  (** bounded schedules *)
  Definition twt (w : tworker T) : nat := match w with TRun rest _ => length rest + 2 | TSend _ | TCancel => 1 | _ => 0 end.
  Definition twsum (ws : list (tworker T)) : nat := sum_list_with twt ws.
  Definition tspawnwt (i : nat) : nat := sum_list_with (fun j => length (sg j) + 3) (seq i (k - i)).
  Definition tmu (x : tstate T) : nat :=
    match tm x with
    | TSpawn _ => tspawnwt (length (tws x)) + Z.to_nat p + 3
    | TRecv c _ _ => (Z.to_nat p - c) + 2
    | TReturned _ _ => 1 end + twsum (tws x).
  Lemma twsum_upd ws i w w' : ws !! i = Some w -> twsum (<[i := w']> ws) + twt w = twsum ws + twt w'.
  Proof.
    unfold twsum. revert i. induction ws as [|a ws IH]; intros [|i] Hi; simpl in *; try done.
    - injection Hi as ->. lia.
    - specialize (IH i Hi). lia.
  Qed.
  Lemma tspawnwt_S i : i < k -> tspawnwt i = (length (sg i) + 3) + tspawnwt (S i).
  Proof. intros Hi. unfold tspawnwt. replace (k - i) with (S (k - S i)) by lia. done. Qed.
  Lemma tmu_dec x y : tinv x -> tst x y -> tmu y < tmu x.
  Proof.
    intros I Hst. destruct Hst as [idx seg idx' ws buf c E|idx idx' ws buf c E|n acc val a ws r buf c Hc Ef
      |n acc val a ws r buf c Hc Ef|n acc val ws buf Hc|n acc val ws buf c Hc
      |m ws buf i x rest acc Hi|m ws buf i x rest acc a Hi Ef|m ws buf i x rest acc a Hi Ef
      |m ws buf c i Hi|m ws buf c i acc Hi|m ws buf c i acc Hi Hl];
      destruct I as [I1 I2 I3 (used & bs & I4 & I4b & I4') I5]; unfold tmu; simpl in *.
    - subst idx. assert (Hlt : length ws < k).
      { destruct (decide (length ws < k)) as [|Hge]; [done|].
        replace (length ws) with k in E by lia. rewrite tsplit_end in E. done. }
      rewrite tsplit_at in E by done. injection E as <- <-.
      rewrite (tspawnwt_S (length ws)) by done. rewrite app_length. simpl. replace (length ws + 1) with (S (length ws)) by lia.
      unfold twsum. rewrite sum_list_with_app. simpl. lia.
    - lia.
    - destruct I4' as (<- & _ & Hcp). lia.
    - destruct I4' as (<- & _ & Hcp). lia.
    - lia.
    - lia.
    - pose proof (twsum_upd ws i _ TQuit Hi) as Hw. simpl in Hw. rewrite ?insert_length. destruct m; lia.
    - pose proof (twsum_upd ws i _ (TRun rest a) Hi) as Hw. simpl in Hw. rewrite ?insert_length. destruct m; lia.
    - pose proof (twsum_upd ws i _ TCancel Hi) as Hw. simpl in Hw. rewrite ?insert_length. destruct m; lia.
    - pose proof (twsum_upd ws i _ TQuit Hi) as Hw. simpl in Hw. rewrite ?insert_length. destruct m; lia.
    - pose proof (twsum_upd ws i _ (TSend acc) Hi) as Hw. simpl in Hw. rewrite ?insert_length. destruct m; lia.
    - pose proof (twsum_upd ws i _ TSent Hi) as Hw. simpl in Hw. rewrite ?insert_length. destruct m; lia.
  Qed.
  Lemma tf_bounded m x : nsteps tst m tinit x -> m <= tmu tinit.
  Proof.
    assert (G : forall m x y, nsteps tst m x y -> tinv x -> m + tmu y <= tmu x).
    { intros m' a b H. induction H as [a|m' a b c H1 H2 IH]; intros I; [lia|].
      pose proof (tmu_dec _ _ I H1). pose proof (IH (tinv_step _ _ I H1)). lia. }
    intros H. pose proof (G _ _ _ H tinv_init). lia.
  Qed.
  Lemma tf_completes x : rtc tst tinit x -> exists y v ok, rtc tst x y /\ tm y = TReturned v ok.
  Proof.
    intros Hr. remember (tmu x) as n eqn:En. revert x Hr En. induction (lt_wf n) as [n _ IH]. intros x Hr ->.
    destruct (tf_progress x Hr) as [[y Hy]|(v & ok & H)]; [|by exists x, v, ok].
    pose proof (tmu_dec _ _ (tinv_reach x Hr) Hy) as Hm.
    destruct (IH (tmu y) Hm y) as (z & v & ok & H1 & H2); [by eapply rtc_r|done|].
    exists z, v, ok. split; [by eapply rtc_l|done].
  Qed.

  (** what was returned *)
  Definition all_segs : list (list T) := (fun j => sg j) <$> seq 0 k.
  Lemma all_segs_ok : concat all_segs = s /\ Forall (fun seg => seg <> []) all_segs /\ length all_segs = k.
  Proof.
    clear zero init f. pose proof (step_bounds (length s) p Hp Hn) as [_ Hs].
    pose proof (nseg_spec (length s) step Hs) as Hk. unfold all_segs. splits.
    - rewrite concat_chunks. apply take_ge. lia.
    - apply Forall_fmap, Forall_lookup. intros i j Hj. apply lookup_seq in Hj as [-> Hj]. simpl. unfold chunk.
      intros Hc. apply (f_equal length) in Hc. rewrite take_length, drop_length in Hc. simpl in Hc. nia.
    - by rewrite fmap_length, seq_length.
  Qed.
  Lemma tf_true x v : rtc tst tinit x -> tm x = TReturned v true ->
    exists used lost, used ++ lost ≡ₚ all_segs /\ Z.of_nat (length used) = p /\ Forall sok used
      /\ tf (sv <$> used) init = (v, true).
  Proof.
    intros Hr Hm. destruct (tinv_reach x Hr) as [I1 I2 I3 (used & bs & I4 & I4b & I4') I5].
    rewrite Hm in *. destruct I4' as [Hl Hv]. exists used, (bs ++ usegs 0 (tws x)). splits; try done.
    - unfold all_segs. rewrite <- I2. rewrite app_assoc, I4. apply dsegs_usegs.
    - pose proof (dsegs_ok (tcanc x) 0 (tws x) ltac:(done)) as F. rewrite <- I4 in F. by apply Forall_app in F as [? _].
  Qed.
  Lemma tf_false x v : rtc tst tinit x -> tm x = TReturned v false ->
    exists used lost, used ++ lost ≡ₚ all_segs /\ Forall sok used /\
      ((exists seg, seg ∈ lost /\ ~ sok seg) /\ (tf (sv <$> used) init).2 = true /\ v = default zero (last (sv <$> used))
       \/ tf (sv <$> used) init = (v, false)).
  Proof.
    intros Hr Hm. destruct (tinv_reach x Hr) as [I1 I2 I3 (used & bs & I4 & I4b & I4') I5].
    rewrite Hm in *. destruct I4' as [_ I4'].
    assert (Pm : used ++ (bs ++ usegs 0 (tws x)) ≡ₚ all_segs).
    { unfold all_segs. rewrite <- I2. rewrite app_assoc, I4. apply dsegs_usegs. }
    assert (Fo : Forall sok used).
    { pose proof (dsegs_ok (tcanc x) 0 (tws x) ltac:(done)) as F. rewrite <- I4 in F. by apply Forall_app in F as [? _]. }
    exists used, (bs ++ usegs 0 (tws x)). split; [done|]. split; [done|].
    destruct I4' as [((j & Hj & Hb) & Hu & Hv)|Hv]; [left|by right]. split; [|done]. exists (sg j). split; [|done].
    assert (Hin : sg j ∈ used ++ (bs ++ usegs 0 (tws x))).
    { rewrite Pm. apply elem_of_list_fmap. exists j. split; [done|]. apply elem_of_seq. lia. }
    apply elem_of_app in Hin as [Hin|Hin]; [|done]. rewrite Forall_forall in Fo. by destruct (Hb (Fo _ Hin)).
  Qed.

  (** when p divides n nobody is left behind *)
  Lemma tf_no_leak x : (p | Z.of_nat (length s))%Z -> rtc tst tinit x -> (forall y, ~ tst x y) ->
    forall w, w ∈ tws x -> w = TSent \/ w = TQuit.
  Proof.
    intros Hd Hr Hst w Hw. apply k_eq_p in Hd; [|done..]. destruct (tinv_reach x Hr) as [I1 I2 I3 (used & bs & I4 & I4b & I4') I5].
    apply elem_of_list_lookup in Hw as [i Hi].
    destruct x as [m ws buf c]; simpl in *. destruct w as [[|x rest] a| |a| |]; auto; exfalso.
    - eapply Hst. by eapply ts_end.
    - destruct c; [eapply Hst; by eapply ts_quit|].
      destruct (f a x) as [a' [|]] eqn:Ef; eapply Hst; [by eapply ts_work|by eapply ts_work_fail].
    - eapply Hst. by eapply ts_cancel.
    - eapply Hst. eapply ts_send; [done|].
      pose proof (usegs_in 0 _ _ _ Hi eq_refl) as Hu.
      pose proof (Permutation_length (dsegs_usegs 0 ws)) as HL. rewrite app_length, fmap_length, seq_length in HL.
      apply Permutation_length in I4. rewrite app_length in I4. subst buf. rewrite fmap_length.
      destruct (usegs 0 ws); [done|]. simpl in HL. lia.
  Qed.
End tf.
