From Verif Require Import Base Iter_Model Iter_Spec Split_Model Split_Proofs WalkSplit_Model WalkSplit_Spec WalkSplit_Proofs
  Stream_Model Stream_Spec Stream_Proofs Stream_Proofs2 ParPipe_Model ParPipe_Spec ParPipe_Proofs.

(** * Collect *)
Section log.
  Context {T : Type}.
  Lemma sent_app j l1 l2 : sent_by (T:=T) j (l1 ++ l2) = sent_by j l1 ++ sent_by j l2.
  Proof. unfold sent_by. by rewrite filter_app, fmap_app. Qed.
  Lemma sent_one j i x : sent_by (T:=T) j [(i, x)] = if decide (i = j) then [x] else [].
  Proof. unfold sent_by. rewrite filter_cons. cbn. by case_decide. Qed.
  Lemma sent_cons j i x l : sent_by (T:=T) j ((i, x) :: l) = (if decide (i = j) then [x] else []) ++ sent_by j l.
  Proof. rewrite <- sent_one, <- sent_app. done. Qed.
  Lemma concat_upd (g : nat -> list T) i x a n : a <= i < a + n ->
    concat ((fun j => (if decide (i = j) then [x] else []) ++ g j) <$> seq a n) ≡ₚ x :: concat (g <$> seq a n).
  Proof.
    revert a. induction n as [|n IH]; intros a H; [lia|]. simpl. destruct (decide (i = a)) as [->|Hne].
    - simpl. do 2 f_equiv. apply Permutation_refl'. f_equal.
      apply list_fmap_ext. intros i j Hj. apply lookup_seq in Hj as [-> Hj]. rewrite decide_False; [done|lia].
    - simpl. rewrite IH by lia. by rewrite Permutation_middle.
  Qed.
  Lemma sent_perm (n : nat) (l : list (nat * T)) : Forall (fun e => e.1 < n) l ->
    l.*2 ≡ₚ concat ((fun j => sent_by j l) <$> seq 0 n).
  Proof.
    induction 1 as [|[i x] l Hi Hl IH].
    - induction (seq 0 n) as [|j js IHj]; [done|]. exact IHj.
    - simpl in Hi. rewrite fmap_cons. cbn [snd]. rewrite IH. symmetry.
      rewrite <- (concat_upd (fun j => sent_by j l) i x 0 n) by lia.
      apply Permutation_refl'. f_equal. apply list_fmap_ext. intros _ j _. apply sent_cons.
  Qed.
  Lemma concat_seg (segs : list (list T)) : (fun j => default [] (segs !! j)) <$> seq 0 (length segs) = segs.
  Proof.
    apply list_eq. intros i. rewrite list_lookup_fmap. destruct (segs !! i) as [sg|] eqn:E.
    - rewrite lookup_seq_lt by (by eapply lookup_lt_Some). cbn. by rewrite E.
    - apply lookup_ge_None in E. by rewrite lookup_seq_ge.
  Qed.
End log.

Lemma nsum_insert (ns : list nat) i a b : ns !! i = Some a -> sum_list (<[i := b]> ns) + a = sum_list ns + b.
Proof. revert i. induction ns as [|z ns IH]; intros [|i] Hi; simpl in *; try done; [injection Hi as ->; lia|]. specialize (IH i Hi). lia. Qed.

Section collect.
  Context {U T : Type} (consume : T -> U -> U) (s : stream U T) (w0 : world U) (segs : list (list T)).
  Notation k := (length segs).
  Notation seg j := (default [] (segs !! j)).
  Notation pst := (pstep (U:=U) consume).
  Notation st := (pstate U T).

  Definition pok (lg : list (nat * T)) (j : nat) (w : pworker U T) : Prop :=
    match w with
    | PLoop it => exists rest, seg j = sent_by j lg ++ rest /\ Y it rest
    | PEmit x it => exists rest, seg j = sent_by j lg ++ x :: rest /\ Y it rest
    | PEnd | PGone => sent_by j lg = seg j
    end.
  Definition live (w : pworker U T) : nat := match w with PGone => 0 | _ => 1 end.
  Record pinv (x : st) : Prop := {
    pi_main : match pm x with PSpawn g => length (pws x) <= k /\ G g (drop (length (pws x)) segs) | _ => length (pws x) = k end;
    pi_ws : forall j w, pws x !! j = Some w -> pok (plog x) j w;
    pi_log : Forall (fun e => e.1 < length (pws x)) (plog x);
    pi_wg : pwg x = sum_list_with live (pws x);
    pi_ret : pm x = PReturned -> pwg x = 0
  }.
  Context (Hs : stable s (parallelism s) segs).
  Lemma sum_upd ws i w w' : ws !! i = Some w -> sum_list_with live (<[i := w']> ws) + live w = sum_list_with live ws + live w'.
  Proof. revert i. induction ws as [|z ws IH]; intros [|i] Hi; simpl in *; try done; [injection Hi as ->; lia|]. specialize (IH i Hi). lia. Qed.
  Lemma pinv_init : pinv (pinit s w0).
  Proof using Hs. split; simpl; try done. split; [lia|]. by rewrite drop_0. Qed.
  Lemma sent_fresh (lg : list (nat * T)) n : Forall (fun e => e.1 < n) lg -> sent_by n lg = [].
  Proof. intros H. unfold sent_by. induction H as [|e l He _ IH]; [done|]. rewrite filter_cons_False; [done|lia]. Qed.
  Lemma pinv_step x y : pinv x -> pst x y -> pinv y.
  Proof.
    intros I Hst. destruct Hst as [g it g' ws n w w' lg E|g g' ws n w w' lg E|ws w lg|m ws n w w' lg i it it' x Hi E
      |m ws n w w' lg i it it' Hi E|m ws n w lg i x it Hi|m ws n w lg i Hi];
      destruct I as [I1 I2 I3 I4 I5]; simpl in *.
    - destruct I1 as [I0 I1]. destruct (G_some _ _ _ _ _ _ I1 E) as (l & ls' & Ed & Hy & Hg). destruct (spawn_lt segs Ed) as (Hlt & Hsg & Hd).
      split; simpl.
      + rewrite app_length. cbn [length]. split; [lia|]. by rewrite Hd.
      + intros j v [Hj|[Hj Hj2]]%lookup_app_Some; [by apply I2|].
        assert (j = length ws /\ v = PLoop it) as [-> ->]. { destruct (j - length ws) eqn:Ej; [|done]. simpl in Hj2. split; [lia|congruence]. }
        exists l. rewrite (sent_fresh lg _ I3). done.
      + rewrite app_length. eapply Forall_impl; [exact I3|]. simpl. intros; lia.
      + rewrite sum_list_with_app. simpl. lia.
      + done.
    - destruct I1 as [I0 I1]. pose proof (G_none _ _ _ _ _ I1 E) as Ed. apply (f_equal length) in Ed. rewrite drop_length in Ed. simpl in Ed.
      split; simpl; try done. lia.
    - split; simpl; done.
    - split; simpl.
      + rewrite insert_length. done.
      + intros j v [(<- & <- & _)|[_ Hj]]%list_lookup_insert_Some; [|by apply I2].
        destruct (I2 _ _ Hi) as (rest & Hr & Hy). destruct (Y_some _ _ _ _ _ _ Hy E) as (l' & -> & Hy'). exists l'. done.
      + by rewrite insert_length.
      + pose proof (sum_upd ws i _ (PEmit x it') Hi) as Hsu. simpl in Hsu. lia.
      + done.
    - split; simpl.
      + rewrite insert_length. done.
      + intros j v [(<- & <- & _)|[_ Hj]]%list_lookup_insert_Some; [|by apply I2].
        destruct (I2 _ _ Hi) as (rest & Hr & Hy). pose proof (Y_none _ _ _ _ _ Hy E) as ->. simpl. by rewrite Hr, app_nil_r.
      + by rewrite insert_length.
      + pose proof (sum_upd ws i _ PEnd Hi) as Hsu. simpl in Hsu. lia.
      + done.
    - assert (Hl : i < length ws) by (by eapply lookup_lt_Some). split; simpl.
      + rewrite insert_length. done.
      + intros j v [(<- & <- & _)|[Hne Hj]]%list_lookup_insert_Some.
        * destruct (I2 _ _ Hi) as (rest & Hr & Hy). exists rest. rewrite sent_app, sent_one, decide_True by done. rewrite <- app_assoc. done.
        * specialize (I2 _ _ Hj). assert (Es : sent_by j (lg ++ [(i, x)]) = sent_by j lg).
          { rewrite sent_app, sent_one, decide_False by done. by rewrite app_nil_r. }
          destruct v; simpl in *; by rewrite Es.
      + rewrite insert_length. apply Forall_app. split; [done|]. constructor; [done|constructor].
      + pose proof (sum_upd ws i _ (PLoop it) Hi) as Hsu. simpl in Hsu. lia.
      + done.
    - split; simpl.
      + rewrite insert_length. done.
      + intros j v [(<- & <- & _)|[_ Hj]]%list_lookup_insert_Some; [|by apply I2]. exact (I2 _ _ Hi).
      + by rewrite insert_length.
      + pose proof (sum_upd ws i _ PGone Hi) as Hsu. simpl in Hsu. lia.
      + intros Hm. rewrite (I5 Hm). done.
  Qed.
  Lemma pinv_reach x : rtc pst (pinit s w0) x -> pinv x.
  Proof using Hs.
    intros H. apply rtc_ind_r with (P := pinv) (z := x) in H; [done|apply pinv_init|].
    intros y z _ Hyz I. by eapply pinv_step.
  Qed.
  Lemma collect_returned x : rtc pst (pinit s w0) x -> pm x = PReturned ->
    (forall j sg, segs !! j = Some sg -> sent_by j (plog x) = sg) /\
    Forall (fun e => e.1 < k) (plog x) /\ (plog x).*2 ≡ₚ concat segs.
  Proof using Hs.
    intros Hr Hm. destruct (pinv_reach x Hr) as [I1 I2 I3 I4 I5]. rewrite Hm in *. specialize (I5 eq_refl). rewrite I4 in I5.
    assert (Hgone : forall j v, pws x !! j = Some v -> v = PGone).
    { intros j v Hj. pose proof (sum_upd (pws x) j v PGone Hj) as Hsu. simpl in Hsu. destruct v; simpl in Hsu; [lia|lia|lia|done]. }
    assert (Hd : forall j, j < k -> sent_by j (plog x) = seg j).
    { intros j Hj. rewrite <- I1 in Hj. destruct (lookup_lt_is_Some_2 _ _ Hj) as [v Hv]. pose proof (I2 _ _ Hv) as Hok. rewrite (Hgone _ _ Hv) in Hok. done. }
    rewrite I1 in I3. splits.
    - intros j sg Hj. rewrite Hd by (by eapply lookup_lt_Some). by rewrite Hj.
    - done.
    - rewrite (sent_perm k) by done. rewrite <- (concat_seg segs) at 2. apply Permutation_refl'. f_equal.
      apply list_fmap_ext. intros i j Hj. apply lookup_seq in Hj as [-> Hj]. simpl. by apply Hd.
  Qed.
  (** at any time, what a goroutine has sent is a prefix of its segment *)
  Lemma collect_prefix x j : rtc pst (pinit s w0) x -> sent_by j (plog x) `prefix_of` seg j.
  Proof using Hs.
    intros Hr. destruct (pinv_reach x Hr) as [I1 I2 I3 I4 I5]. destruct (pws x !! j) as [v|] eqn:Ev.
    - specialize (I2 _ _ Ev). destruct v; simpl in I2.
      + destruct I2 as (rest & -> & _). by apply prefix_app_r.
      + destruct I2 as (rest & -> & _). by apply prefix_app_r.
      + by rewrite I2.
      + by rewrite I2.
    - apply lookup_ge_None in Ev. rewrite (sent_fresh (plog x) j); [apply prefix_nil|]. eapply Forall_impl; [exact I3|]. simpl. intros; lia.
  Qed.
  Lemma collect_progress x : rtc pst (pinit s w0) x -> (exists y, pst x y) \/ pm x = PReturned.
  Proof using Hs.
    intros Hr. destruct (pinv_reach x Hr) as [I1 I2 I3 I4 I5]. destruct x as [m ws n w lg]; simpl in *. destruct m as [g| |]; [| |by right].
    - left. destruct I1 as [_ I1]. destruct (G_can _ _ w I1) as ([it|] & g' & w' & E); eexists; [by eapply ps_spawn|by eapply ps_spawned].
    - left. destruct n as [|n]; [eexists; apply ps_wait|].
      assert (Hex : exists i v, ws !! i = Some v /\ live v = 1).
      { clear -I4. induction ws as [|v ws IH]; simpl in I4; [lia|]. destruct (live v) eqn:El.
        - destruct IH as (i & v' & Hi & Hv); [done|]. exists (S i), v'. done.
        - exists 0, v. split; [done|]. destruct v; simpl in *; congruence. }
      destruct Hex as (i & v & Hi & Hv). destruct v as [it|x it| |]; [| | |done].
      + destruct (I2 _ _ Hi) as (rest & _ & Hy). destruct (Y_can _ _ w Hy) as ([y|] & it' & w' & E); eexists; [by eapply ps_pull|by eapply ps_exhausted].
      + eexists. by eapply ps_emit.
      + eexists. by eapply ps_done.
  Qed.
  (** bounded schedules *)
  Definition ptogo (w : pworker U T) (n : nat) : Prop :=
    match w with
    | PLoop it => exists rest, Y it rest /\ n = 2 * length rest + 2
    | PEmit _ it => exists rest, Y it rest /\ n = 2 * length rest + 3
    | PEnd => n = 1 | PGone => n = 0 end.
  Definition pmains (x : st) : nat :=
    match pm x with
    | PSpawn _ => sum_list_with (fun sg => 2 * length sg + 3) (drop (length (pws x)) segs) + 2
    | PWait => 1
    | PReturned => 0 end.
  Definition pmeasure (x : st) (n : nat) : Prop := exists ns, Forall2 ptogo (pws x) ns /\ n = pmains x + sum_list ns.
  Lemma pmeasure_dec x y n : pinv x -> pmeasure x n -> pst x y -> exists n', pmeasure y n' /\ n' < n.
  Proof.
    intros I (ns & F & ->) Hst. destruct Hst as [g it g' ws n w w' lg E|g g' ws n w w' lg E|ws w lg|m ws n w w' lg i it it' x Hi E
      |m ws n w w' lg i it it' Hi E|m ws n w lg i x it Hi|m ws n w lg i Hi];
      destruct I as [I1 I2 I3 I4 I5]; unfold pmeasure, pmains; simpl in *.
    - destruct I1 as [I0 I1]. destruct (G_some _ _ _ _ _ _ I1 E) as (l & ls' & Ed & Hy & Hg). destruct (spawn_lt segs Ed) as (Hlt & Hsg & Hd).
      eexists. split; [exists (ns ++ [2 * length l + 2]); split; [|reflexivity]|].
      + apply Forall2_app; [done|]. constructor; [|done]. cbn [ptogo]. eauto.
      + rewrite app_length. cbn [length]. rewrite Hd, Ed, sum_list_with_app. simpl. unfold sum_list. lia.
    - eexists. split; [exists ns; split; [done|reflexivity]|]. lia.
    - eexists. split; [exists ns; split; [done|reflexivity]|]. lia.
    - destruct (Forall2_lookup_l _ _ _ _ _ F Hi) as (a & Ha & (rest2 & Hy & ->)). destruct (Y_some _ _ _ _ _ _ Hy E) as (rest' & -> & Hy').
      pose proof (nsum_insert ns i _ (2 * length rest' + 3) Ha) as Hsum. cbn [length] in Hsum.
      eexists. split; [exists (<[i := 2 * length rest' + 3]> ns); split; [|reflexivity]|].
      + apply Forall2_insert; [done|]. cbn [ptogo]. eauto.
      + rewrite insert_length. destruct m; lia.
    - destruct (Forall2_lookup_l _ _ _ _ _ F Hi) as (a & Ha & (rest2 & Hy & ->)). pose proof (Y_none _ _ _ _ _ Hy E) as ->.
      pose proof (nsum_insert ns i _ 1 Ha) as Hsum. cbn [length] in Hsum.
      eexists. split; [exists (<[i := 1]> ns); split; [|reflexivity]|].
      + by apply Forall2_insert.
      + rewrite insert_length. destruct m; lia.
    - destruct (Forall2_lookup_l _ _ _ _ _ F Hi) as (a & Ha & (rest2 & Hy & ->)).
      pose proof (nsum_insert ns i _ (2 * length rest2 + 2) Ha) as Hsum. cbn [length] in Hsum.
      eexists. split; [exists (<[i := 2 * length rest2 + 2]> ns); split; [|reflexivity]|].
      + apply Forall2_insert; [done|]. cbn [ptogo]. eauto.
      + rewrite insert_length. destruct m; lia.
    - destruct (Forall2_lookup_l _ _ _ _ _ F Hi) as (a & Ha & ->).
      pose proof (nsum_insert ns i _ 0 Ha) as Hsum. cbn [length] in Hsum.
      eexists. split; [exists (<[i := 0]> ns); split; [|reflexivity]|].
      + by apply Forall2_insert.
      + rewrite insert_length. destruct m; lia.
  Qed.
  Lemma collect_bounded : exists b, forall m x, nsteps pst m (pinit s w0) x -> m <= b.
  Proof using Hs.
    assert (Gn : forall m x y n, nsteps pst m x y -> pinv x -> pmeasure x n -> m <= n).
    { intros m x y n H. revert n. induction H as [a|m' a b c H1 H2 IH]; intros n I M; [lia|].
      destruct (pmeasure_dec _ _ _ I M H1) as (n' & M' & Hlt). pose proof (IH _ (pinv_step _ _ I H1) M'). lia. }
    eexists. intros m x H. eapply Gn; [exact H|apply pinv_init|]. exists []. split; [constructor|reflexivity].
  Qed.
  Lemma collect_completes x : rtc pst (pinit s w0) x -> exists y, rtc pst x y /\ pm y = PReturned.
  Proof using Hs.
    destruct collect_bounded as [b Hb].
    assert (Gn : forall d m x, nsteps pst m (pinit s w0) x -> b - m <= d -> exists y, rtc pst x y /\ pm y = PReturned).
    { induction d as [|d IH]; intros m z Hm Hd; (destruct (collect_progress z) as [[y Hy]|Hv]; [by eapply rtc_nsteps_2| |by exists z; split; [constructor|]]).
      - pose proof (Hb m z Hm). assert (nsteps pst (S m) (pinit s w0) y) as Hn by (by eapply nsteps_r). pose proof (Hb _ _ Hn). lia.
      - assert (nsteps pst (S m) (pinit s w0) y) as Hn by (by eapply nsteps_r). pose proof (Hb _ _ Hn).
        destruct (IH (S m) y Hn) as (z' & Hz & Hv); [lia|]. exists z'. split; [by eapply rtc_l|done]. }
    intros [m Hm]%rtc_nsteps_1. by eapply (Gn (b - m) m x).
  Qed.
End collect.
