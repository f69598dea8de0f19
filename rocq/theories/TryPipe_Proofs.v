From Verif Require Import Base Stream_Model Stream_Spec Stream_Proofs Stream_Proofs2 StreamTry_Spec StreamTry_Proofs ParPipe_Proofs TryPipe_Model.

Lemma sum_ins ns i a b : ns !! i = Some a -> sum_list (<[i := b]> ns) + a = sum_list ns + b.
Proof. revert i. induction ns as [|z ns IH]; intros [|i] Hi; simpl in *; try done; [injection Hi as ->; lia|]. specialize (IH i Hi). lia. Qed.

Section tf.
  Context {U T : Type} (zero : T) (s : stream U T) (p : Z) (init : T) (f : T -> T -> T * bool) (e : T -> T -> U -> U)
    (w0 : world U) (segs : list (list T)).
  Notation k := (length segs).
  Notation sg j := (default [] (segs !! j)).
  Notation hst := (hstep zero s p init f e).
  Notation tf := (try_seq f).
  Notation sv := (seg_val f init).
  Notation sok := (seg_ok f init).
  Notation st := (hstate U T).
  Notation wk := (hworker U T).

  Fixpoint hdone (j : nat) (ws : list wk) : list (list T) :=
    match ws with
    | [] => []
    | HSent :: ws' => sg j :: hdone (S j) ws'
    | _ :: ws' => hdone (S j) ws'
    end.
  Fixpoint hrest (j : nat) (ws : list wk) : list (list T) :=
    match ws with
    | [] => []
    | HSent :: ws' => hrest (S j) ws'
    | _ :: ws' => sg j :: hrest (S j) ws'
    end.
  Definition hun (w : wk) : bool := match w with HSent => false | _ => true end.
  Lemma hdone_hrest j ws : hdone j ws ++ hrest j ws ≡ₚ (fun j => sg j) <$> seq j (length ws).
  Proof.
    revert j. induction ws as [|w ws IH]; intros j; [done|]. simpl. destruct w; simpl; rewrite <- IH; try done;
      by rewrite Permutation_middle.
  Qed.
  Lemma hdone_app j ws w : hun w = true -> hdone j (ws ++ [w]) = hdone j ws.
  Proof.
    intros Hw. revert j. induction ws as [|w' ws IH]; intros j; simpl; [by destruct w|].
    destruct w'; by rewrite IH.
  Qed.
  Lemma hdone_upd j ws i w w' : ws !! i = Some w -> hun w = true -> hun w' = true ->
    hdone j (<[i := w']> ws) = hdone j ws.
  Proof.
    intros Hi Hu Hu'. revert j i Hi. induction ws as [|a ws IH]; intros j [|i] Hi; simpl in *; try done.
    - injection Hi as ->. destruct w, w'; done.
    - destruct a; by rewrite IH.
  Qed.
  Lemma hdone_sent j ws i w : ws !! i = Some w -> hun w = true ->
    hdone j (<[i := HSent]> ws) ≡ₚ sg (j + i) :: hdone j ws.
  Proof.
    intros Hi Hu. revert j i Hi. induction ws as [|a ws IH]; intros j [|i] Hi; simpl in *; try done.
    - injection Hi as ->. rewrite Nat.add_0_r. destruct w; done.
    - replace (j + S i) with (S j + i) by lia. destruct a; rewrite (IH (S j) i Hi); try done.
      apply Permutation_swap.
  Qed.
  Lemma hrest_in j ws i w : ws !! i = Some w -> hun w = true -> hrest j ws <> [].
  Proof.
    revert j i. induction ws as [|a ws IH]; intros j [|i] Hi Hu; simpl in *; try done.
    - injection Hi as ->. by destruct w.
    - destruct a; try done. by eapply IH.
  Qed.
  Lemma hrest_nonempty j ws : hrest j ws <> [] -> exists i w, ws !! i = Some w /\ hun w = true.
  Proof.
    revert j. induction ws as [|a ws IH]; intros j Hu; simpl in *; [done|].
    destruct a; try (by exists 0; eauto).
    destruct (IH _ Hu) as (i & w & ? & ?). exists (S i), w. done.
  Qed.
  Lemma all_sg : (fun j => sg j) <$> seq 0 k = segs.
  Proof.
    apply list_eq. intros i. rewrite !list_lookup_fmap. destruct (segs !! i) as [sg|] eqn:E.
    - rewrite lookup_seq_lt by (by eapply lookup_lt_Some). cbn. by rewrite E.
    - apply lookup_ge_None in E. by rewrite lookup_seq_ge.
  Qed.

  Definition bad : Prop := exists seg, seg ∈ segs /\ ~ sok seg.
  Definition hok (c : bool) (seg : list T) (w : wk) : Prop :=
    match w with
    | HPull it a => exists d rest, seg = d ++ rest /\ tf d init = (a, true) /\ Y it rest
    | HGot x it a => exists d rest, seg = d ++ x :: rest /\ tf d init = (a, true) /\ Y it rest
    | HCancel => ~ sok seg
    | HSend a => tf seg init = (a, true)
    | HSent => sok seg
    | HQuit => c = true
    end.
  Record hinv (x : st) : Prop := {
    hi_main : match hm x with
      | HMake => hws x = []
      | HSpawn g => length (hws x) <= k /\ G g (drop (length (hws x)) segs)
      | HPanicked => False
      | _ => length (hws x) = k end;
    hi_ws : forall j w, hws x !! j = Some w -> hok (hcanc x) (sg j) w;
    hi_res : exists used bs, used ++ bs ≡ₚ hdone 0 (hws x) /\ hbuf x = sv <$> bs /\
      match hm x with
      | HRecv c acc val => length used = c /\ tf (sv <$> used) init = (acc, true) /\ (Z.of_nat c <= p)%Z /\ val = default zero (last (sv <$> used))
      | HReturned v true => Z.of_nat (length used) = p /\ tf (sv <$> used) init = (v, true)
      | HReturned v false => Z.of_nat (length used) <= p /\ ((bad /\ (tf (sv <$> used) init).2 = true /\ v = default zero (last (sv <$> used))) \/ tf (sv <$> used) init = (v, false))
      | _ => used = []
      end%Z;
    hi_canc : hcanc x = true -> bad \/ exists v, hm x = HReturned v false
  }.

  Context (Hp : (1 <= p)%Z) (Hs : stable s p segs).

  Lemma hinv_init : hinv (hinit w0).
  Proof. split; simpl; try done. by exists [], []. Qed.
  Lemma hok_mono c seg w : hok c seg w -> hok true seg w.
  Proof. by destruct w. Qed.
  Lemma upd_hok (ws : list wk) c c' i w w' :
    ws !! i = Some w -> (forall j w, ws !! j = Some w -> hok c (sg j) w) -> (c = true -> c' = true) ->
    hok c' (sg i) w' ->
    forall j v, <[i := w']> ws !! j = Some v -> hok c' (sg j) v.
  Proof.
    intros Hi Hw Hc Hw' j v Hj. apply list_lookup_insert_Some in Hj as [(<- & <- & _)|[_ Hj]]; [done|].
    specialize (Hw j v Hj). destruct v; try exact Hw. by apply Hc.
  Qed.
  Lemma fail_bad d x rest a a' : tf d init = (a, true) -> f a x = (a', false) -> ~ sok (d ++ x :: rest).
  Proof. intros E1 E2. unfold seg_ok. rewrite try_seq_app, E1. cbn. by rewrite E2. Qed.
  Lemma sg_in (x : st) i w : hinv x -> hws x !! i = Some w -> sg i ∈ segs.
  Proof.
    intros I Hi. apply lookup_lt_Some in Hi as Hl. destruct I as [I2 _ _ _].
    assert (i < k) as Hk. { destruct (hm x); [by rewrite I2 in Hi|destruct I2; lia|lia|lia|done]. }
    destruct (lookup_lt_is_Some_2 segs i Hk) as [sg Hsg]. rewrite Hsg. simpl. by eapply elem_of_list_lookup_2.
  Qed.

  Lemma hinv_step x y : hinv x -> hst x y -> hinv y.
  Proof using Hp Hs.
    intros I Hst. pose proof (sg_in x) as HIN. destruct Hst as [ws buf c w H0|ws buf c w H0|g it g' ws buf c w w' E|g g' ws buf c w w' E|n acc val a ws r buf c w Hc Ef
      |n acc val a ws r buf c w Hc Ef|n acc val ws buf w Hc|n acc val ws buf c w Hc
      |m ws buf c i x it it' acc w w' Hi E|m ws buf c i it it' acc w w' Hi E
      |m ws buf i x it acc w Hi|m ws buf i x it acc a w Hi Ef|m ws buf i x it acc a w Hi Ef
      |m ws buf c i w Hi|m ws buf c i acc w Hi Hl];
      pose proof I as [I2 I3 (used & bs & I4 & I4b & I4') I5]; cbn [hm hws hbuf hcanc hworld] in *.
    - subst ws. split; cbn [hm hws hbuf hcanc]; try done; [split; [cbn; lia|by rewrite drop_0]|by exists used, bs|].
      intros H. destruct (I5 H) as [|[? ?]]; [by left|done].
    - lia.
    - destruct I2 as [I1 I2]. destruct (G_some _ _ _ _ _ _ I2 E) as (l & ls' & Ed & Hy & Hg). destruct (spawn_lt segs Ed) as (Hlt & Hsg & Hd).
      split; cbn [hm hws hbuf hcanc].
      + rewrite app_length. cbn [length]. rewrite Hd. split; [lia|done].
      + intros j v Hj. apply lookup_app_Some in Hj as [Hj|[Hge Hj]]; [by apply I3|].
        apply list_lookup_singleton_Some in Hj as [Hj <-]. replace j with (length ws) by lia.
        exists [], l. by rewrite Hsg.
      + exists used, bs. by rewrite hdone_app.
      + intros H. destruct (I5 H) as [|[? ?]]; [by left|done].
    - destruct I2 as [I1 I2]. pose proof (G_none _ _ _ _ _ I2 E) as Ed. apply (f_equal length) in Ed. rewrite drop_length in Ed. cbn in Ed.
      split; cbn [hm hws hbuf hcanc]; try done; [lia|exists used, bs; subst used; splits; try done; lia|].
      intros H. destruct (I5 H) as [|[? ?]]; [by left|done].
    - destruct I4' as (<- & Ea & Hcp & Hval). destruct bs as [|b bs]; [done|]. injection I4b as -> ->.
      split; cbn [hm hws hbuf hcanc]; try done.
      + exists (used ++ [b]), bs. rewrite app_length, fmap_app, try_seq_app, Ea. cbn. rewrite Ef.
        splits; try done; [by rewrite <- app_assoc|lia|by rewrite last_snoc].
      + intros H. destruct (I5 H) as [|[? ?]]; [by left|done].
    - destruct I4' as (<- & Ea & Hcp & Hval). destruct bs as [|b bs]; [done|]. injection I4b as -> ->.
      split; cbn [hm hws hbuf hcanc]; try done.
      + intros j v Hj. by eapply hok_mono, I3.
      + exists (used ++ [b]), bs. rewrite app_length, fmap_app, try_seq_app, Ea. cbn. rewrite Ef.
        splits; try done; [by rewrite <- app_assoc|lia|by right].
      + intros _. right. by eexists.
    - destruct I4' as (<- & Ea & Hcp & ->). destruct (I5 eq_refl) as [Hb|[? ?]]; [|done].
      split; cbn [hm hws hbuf hcanc]; try done; [|by left].
      exists used, bs. splits; try done. left. splits; [done|by rewrite Ea|done].
    - destruct I4' as (<- & Ea & Hcp & ->). split; cbn [hm hws hbuf hcanc]; try done; [by exists used, bs|].
      intros H. destruct (I5 H) as [|[? ?]]; [by left|done].
    - destruct (I3 _ _ Hi) as (d & rest & Hd & Ed & Hy). destruct (Y_some _ _ _ _ _ _ Hy E) as (rest' & -> & Hy').
      split; cbn [hm hws hbuf hcanc]; rewrite ?insert_length; try done.
      + destruct m; try done. by rewrite I2.
      + eapply upd_hok; [done..|]. exists d, rest'. done.
      + exists used, bs. rewrite (hdone_upd _ _ _ _ _ Hi) by done. done.
    - destruct (I3 _ _ Hi) as (d & rest & Hd & Ed & Hy). pose proof (Y_none _ _ _ _ _ Hy E) as ->. rewrite app_nil_r in Hd.
      split; cbn [hm hws hbuf hcanc]; rewrite ?insert_length; try done.
      + destruct m; try done. by rewrite I2.
      + eapply upd_hok; [done..|]. cbn. by rewrite Hd.
      + exists used, bs. rewrite (hdone_upd _ _ _ _ _ Hi) by done. done.
    - split; cbn [hm hws hbuf hcanc]; rewrite ?insert_length; try done.
      + destruct m; try done. by rewrite I2.
      + by eapply upd_hok.
      + exists used, bs. rewrite (hdone_upd _ _ _ _ _ Hi) by done. done.
    - destruct (I3 _ _ Hi) as (d & rest & Hd & Ed & Hy). split; cbn [hm hws hbuf hcanc]; rewrite ?insert_length; try done.
      + destruct m; try done. by rewrite I2.
      + eapply upd_hok; [done..|]. exists (d ++ [x]), rest. splits; [by rewrite <- app_assoc| |done]. rewrite try_seq_app, Ed. cbn. by rewrite Ef.
      + exists used, bs. rewrite (hdone_upd _ _ _ _ _ Hi) by done. done.
    - destruct (I3 _ _ Hi) as (d & rest & Hd & Ed & Hy). split; cbn [hm hws hbuf hcanc]; rewrite ?insert_length; try done.
      + destruct m; try done. by rewrite I2.
      + eapply upd_hok; [done..|]. cbn. rewrite Hd. by eapply fail_bad.
      + exists used, bs. rewrite (hdone_upd _ _ _ _ _ Hi) by done. done.
    - pose proof (I3 _ _ Hi) as Hb. split; cbn [hm hws hbuf hcanc]; rewrite ?insert_length; try done.
      + destruct m; try done. by rewrite I2.
      + by eapply upd_hok.
      + exists used, bs. rewrite (hdone_upd _ _ _ _ _ Hi) by done. done.
      + intros _. left. exists (sg i). split; [by eapply HIN|done].
    - pose proof (I3 _ _ Hi) as Hb. cbn in Hb. split; cbn [hm hws hbuf hcanc]; rewrite ?insert_length; try done.
      + destruct m; try done. by rewrite I2.
      + eapply upd_hok; [done..|]. cbn. unfold seg_ok. by rewrite Hb.
      + exists used, (bs ++ [sg i]). splits; [|subst buf; rewrite fmap_app; cbn; unfold seg_val at 3; by rewrite Hb|done].
        rewrite (hdone_sent _ _ _ _ Hi) by done. rewrite app_assoc, I4. by rewrite Permutation_app_comm.
  Qed.
  Lemma hinv_reach x : rtc hst (hinit w0) x -> hinv x.
  Proof using Hp Hs.
    intros H. apply rtc_ind_r with (P := hinv) (z := x) in H; [done|apply hinv_init|].
    intros y z _ Hyz I. by eapply hinv_step.
  Qed.
  Lemma hdone_ok c j ws : (forall i w, ws !! i = Some w -> hok c (sg (j + i)) w) -> Forall sok (hdone j ws).
  Proof.
    revert j. induction ws as [|w ws IH]; intros j H; [constructor|]. simpl.
    assert (F : Forall sok (hdone (S j) ws)).
    { apply IH. intros i v Hv. replace (S j + i) with (j + S i) by lia. by apply H. }
    specialize (H 0 w eq_refl). rewrite Nat.add_0_r in H. destruct w; try done. by constructor.
  Qed.
  Lemma hcount ws : length (hdone 0 ws) + length (hrest 0 ws) = length ws.
  Proof.
    pose proof (Permutation_length (hdone_hrest 0 ws)) as HL. by rewrite app_length, fmap_length, seq_length in HL.
  Qed.

  (** a goroutine that has not ended can move, unless it waits to send into a full channel *)
  Lemma worker_moves m ws buf c w i v : hinv (HState m ws buf c w) -> ws !! i = Some v -> v <> HSent -> v <> HQuit ->
    (exists y, hst (HState m ws buf c w) y) \/ (exists a, v = HSend a /\ (p <= Z.of_nat (length buf))%Z).
  Proof.
    intros [I2 I3 _ I5] Hi N1 N2. cbn in *. pose proof (I3 _ _ Hi) as Hv. destruct v as [it a|x it a| |a| |]; try done.
    - destruct Hv as (d & rest & _ & _ & Hy). left. destruct (Y_can _ _ w Hy) as ([y|] & it' & w' & E); eexists; [by eapply hs_pull|by eapply hs_end].
    - left. destruct c; [eexists; by eapply hs_quit|]. destruct (f a x) as [a' [|]] eqn:Ef; eexists; [by eapply hs_work|by eapply hs_work_fail].
    - left. eexists. by eapply hs_cancel.
    - destruct (decide (Z.of_nat (length buf) < p)%Z); [|right; exists a; split; [done|lia]]. left. eexists. by eapply hs_send.
  Qed.
  Lemma hprogress x : (p <= Z.of_nat k)%Z -> rtc hst (hinit w0) x -> (exists y, hst x y) \/ (exists v ok, hm x = HReturned v ok).
  Proof using Hp Hs.
    intros Hk Hr. pose proof (hinv_reach x Hr) as I. pose proof I as [I2 I3 (used & bs & I4 & I4b & I4') I5].
    destruct x as [m ws buf c w]; cbn [hm hws hbuf hcanc] in *. destruct m as [|g|n acc val|v ok|]; [| | |by eauto|done].
    - left. eexists. apply hs_make. lia.
    - left. destruct I2 as [_ I2]. destruct (G_can _ _ w I2) as ([it|] & g' & w' & E); eexists; [by eapply hs_spawn|by eapply hs_spawned].
    - left. destruct I4' as (<- & Ea & Hcp & ->). destruct (decide (Z.of_nat (length used) = p)) as [|Hne].
      + eexists. by apply hs_return.
      + destruct c; [by eexists; apply hs_done|].
        destruct bs as [|b bs]; [|subst buf; cbn; destruct (f acc (sv b)) as [a [|]] eqn:Ef; eexists; [by eapply hs_recv|by eapply hs_recv_fail]].
        rewrite app_nil_r in I4. apply Permutation_length in I4. pose proof (hcount ws) as HL.
        assert (hrest 0 ws <> []) as Hu. { intros Hu. rewrite Hu in HL. cbn in HL. lia. }
        apply hrest_nonempty in Hu as (i & v & Hi & Hw).
        destruct (worker_moves _ _ _ _ _ i v I Hi) as [H|(a & -> & Hl)]; [by intros ->| |done|].
        * intros ->. by pose proof (I3 _ _ Hi) as Hq.
        * subst buf. cbn in Hl. lia.
  Qed.
  Lemma hno_leak x : (Z.of_nat k <= p)%Z -> rtc hst (hinit w0) x -> (forall y, ~ hst x y) ->
    forall v, v ∈ hws x -> v = HSent \/ v = HQuit.
  Proof using Hp Hs.
    intros Hk Hr Hst v Hv. pose proof (hinv_reach x Hr) as I. pose proof I as [I2 I3 (used & bs & I4 & I4b & I4') I5].
    apply elem_of_list_lookup in Hv as [i Hi]. destruct x as [m ws buf c w]; cbn [hm hws hbuf hcanc] in *.
    assert (Hd : v = HSent \/ v = HQuit \/ (v <> HSent /\ v <> HQuit)) by (destruct v; auto).
    destruct Hd as [->|[->|[N1 N2]]]; [by left|by right|]. exfalso.
    destruct (worker_moves _ _ _ _ _ i v I Hi N1 N2) as [[y Hy]|(a & -> & Hl)]; [by eapply Hst|].
    pose proof (hrest_in 0 _ _ _ Hi eq_refl) as Hu. pose proof (hcount ws) as HL. apply Permutation_length in I4. rewrite app_length in I4.
    subst buf. rewrite fmap_length in Hl. destruct (hrest 0 ws); [done|]. cbn [length] in HL.
    assert (length ws <= k). { destruct m; [by rewrite I2 in Hi|destruct I2; lia|lia|lia|done]. } lia.
  Qed.

  (** bounded schedules *)
  Definition htogo (w : wk) (n : nat) : Prop :=
    match w with HPull it _ => exists rest, Y it rest /\ n = 2 * length rest + 2 | HGot _ it _ => exists rest, Y it rest /\ n = 2 * length rest + 3
      | HSend _ | HCancel => n = 1 | _ => n = 0 end.
  Definition hmains (x : st) : nat :=
    match hm x with
    | HMake => sum_list_with (fun sg => 2 * length sg + 3) segs + Z.to_nat p + 4
    | HSpawn _ => sum_list_with (fun sg => 2 * length sg + 3) (drop (length (hws x)) segs) + Z.to_nat p + 3
    | HRecv c _ _ => (Z.to_nat p - c) + 2
    | HReturned _ _ | HPanicked => 1 end.
  Definition hmeasure (x : st) (n : nat) : Prop := exists ns, Forall2 htogo (hws x) ns /\ n = hmains x + sum_list ns.
  Lemma hmeasure_dec x y n : hinv x -> hmeasure x n -> hst x y -> exists n', hmeasure y n' /\ n' < n.
  Proof using Hp Hs.
    intros I (ns & F & ->) Hst. destruct Hst as [ws buf c w H0|ws buf c w H0|g it g' ws buf c w w' E|g g' ws buf c w w' E|n acc val a ws r buf c w Hc Ef
      |n acc val a ws r buf c w Hc Ef|n acc val ws buf w Hc|n acc val ws buf c w Hc
      |m ws buf c i x it it' acc w w' Hi E|m ws buf c i it it' acc w w' Hi E
      |m ws buf i x it acc w Hi|m ws buf i x it acc a w Hi Ef|m ws buf i x it acc a w Hi Ef
      |m ws buf c i w Hi|m ws buf c i acc w Hi Hl];
      pose proof I as [I2 I3 (used & bs & I4 & I4b & I4') I5]; unfold hmeasure, hmains; cbn [hm hws hbuf hcanc hworld] in *.
    - subst ws. eexists. split; [exists ns; split; [done|reflexivity]|]. cbn [length]. rewrite drop_0. lia.
    - lia.
    - destruct I2 as [I1 I2]. destruct (G_some _ _ _ _ _ _ I2 E) as (l & ls' & Ed & Hy & Hg). destruct (spawn_lt segs Ed) as (Hlt & Hsg & Hd).
      eexists. split; [exists (ns ++ [2 * length l + 2]); split; [|reflexivity]|].
      + apply Forall2_app; [done|]. constructor; [|done]. cbn. eauto.
      + rewrite app_length. cbn [length]. rewrite Hd, Ed, sum_list_with_app. simpl. unfold sum_list. lia.
    - eexists. split; [exists ns; split; [done|reflexivity]|]. lia.
    - destruct I4' as (<- & _ & Hcp & _). eexists. split; [exists ns; split; [done|reflexivity]|]. lia.
    - destruct I4' as (<- & _ & Hcp & _). eexists. split; [exists ns; split; [done|reflexivity]|]. lia.
    - eexists. split; [exists ns; split; [done|reflexivity]|]. lia.
    - eexists. split; [exists ns; split; [done|reflexivity]|]. lia.
    - destruct (Forall2_lookup_l _ _ _ _ _ F Hi) as (a & Ha & (rest2 & Hy & ->)). destruct (Y_some _ _ _ _ _ _ Hy E) as (rest' & -> & Hy').
      pose proof (sum_ins ns i _ (2 * length rest' + 3) Ha) as Hsum. cbn [length] in Hsum.
      eexists. split; [exists (<[i := 2 * length rest' + 3]> ns); split; [|reflexivity]|].
      + apply Forall2_insert; [done|]. cbn. eauto.
      + rewrite insert_length. destruct m; lia.
    - destruct (Forall2_lookup_l _ _ _ _ _ F Hi) as (a & Ha & (rest2 & Hy & ->)). pose proof (Y_none _ _ _ _ _ Hy E) as ->.
      pose proof (sum_ins ns i _ 1 Ha) as Hsum. cbn [length] in Hsum.
      eexists. split; [exists (<[i := 1]> ns); split; [|reflexivity]|].
      + by apply Forall2_insert.
      + rewrite insert_length. destruct m; lia.
    - destruct (Forall2_lookup_l _ _ _ _ _ F Hi) as (a & Ha & (rest2 & Hy & ->)).
      pose proof (sum_ins ns i _ 0 Ha) as Hsum.
      eexists. split; [exists (<[i := 0]> ns); split; [|reflexivity]|].
      + by apply Forall2_insert.
      + rewrite insert_length. destruct m; lia.
    - destruct (Forall2_lookup_l _ _ _ _ _ F Hi) as (b & Ha & (rest2 & Hy & ->)).
      pose proof (sum_ins ns i _ (2 * length rest2 + 2) Ha) as Hsum.
      eexists. split; [exists (<[i := 2 * length rest2 + 2]> ns); split; [|reflexivity]|].
      + apply Forall2_insert; [done|]. cbn. eauto.
      + rewrite insert_length. destruct m; lia.
    - destruct (Forall2_lookup_l _ _ _ _ _ F Hi) as (b & Ha & (rest2 & Hy & ->)).
      pose proof (sum_ins ns i _ 1 Ha) as Hsum.
      eexists. split; [exists (<[i := 1]> ns); split; [|reflexivity]|].
      + by apply Forall2_insert.
      + rewrite insert_length. destruct m; lia.
    - destruct (Forall2_lookup_l _ _ _ _ _ F Hi) as (b & Ha & ->).
      pose proof (sum_ins ns i _ 0 Ha) as Hsum.
      eexists. split; [exists (<[i := 0]> ns); split; [|reflexivity]|].
      + by apply Forall2_insert.
      + rewrite insert_length. destruct m; lia.
    - destruct (Forall2_lookup_l _ _ _ _ _ F Hi) as (b & Ha & ->).
      pose proof (sum_ins ns i _ 0 Ha) as Hsum.
      eexists. split; [exists (<[i := 0]> ns); split; [|reflexivity]|].
      + by apply Forall2_insert.
      + rewrite insert_length. destruct m; lia.
  Qed.
  Lemma hbounded : exists b, forall m x, nsteps hst m (hinit w0) x -> m <= b.
  Proof using Hp Hs.
    assert (Gn : forall m x y n, nsteps hst m x y -> hinv x -> hmeasure x n -> m <= n).
    { intros m x y n H. revert n. induction H as [a|m' a b c H1 H2 IH]; intros n I M; [lia|].
      destruct (hmeasure_dec _ _ _ I M H1) as (n' & M' & Hlt). pose proof (IH _ (hinv_step _ _ I H1) M'). lia. }
    eexists. intros m x H. eapply Gn; [exact H|apply hinv_init|]. exists []. split; [constructor|reflexivity].
  Qed.
  Lemma hcompletes x : (p <= Z.of_nat k)%Z -> rtc hst (hinit w0) x -> exists y v ok, rtc hst x y /\ hm y = HReturned v ok.
  Proof using Hp Hs.
    intros Hk Hr. assert (M : exists n, hmeasure x n).
    { apply rtc_ind_r with (P := fun x => exists n, hmeasure x n) (z := x) in Hr; [done| |].
      - eexists. exists []. split; [constructor|reflexivity].
      - intros y z Hy Hyz [n M]. destruct (hmeasure_dec _ _ _ (hinv_reach y Hy) M Hyz) as (n' & M' & _). eauto. }
    destruct M as [n M]. revert x Hr M. induction (lt_wf n) as [n _ IH]. intros x Hr M.
    destruct (hprogress x Hk Hr) as [[y Hy]|(v & ok & H)]; [|by exists x, v, ok].
    destruct (hmeasure_dec _ _ _ (hinv_reach x Hr) M Hy) as (n' & M' & Hlt).
    destruct (IH n' Hlt y) as (z & v & ok & H1 & H2); [by eapply rtc_r|done|].
    exists z, v, ok. split; [by eapply rtc_l|done].
  Qed.

  (** what was returned *)
  Lemma hparts x used bs : hinv x -> length (hws x) = k -> used ++ bs ≡ₚ hdone 0 (hws x) ->
    used ++ (bs ++ hrest 0 (hws x)) ≡ₚ segs /\ Forall sok used.
  Proof.
    intros [I2 I3 _ I5] Hl I4. split.
    - rewrite <- all_sg, <- Hl at 1. rewrite app_assoc, I4. apply hdone_hrest.
    - pose proof (hdone_ok (hcanc x) 0 (hws x) ltac:(done)) as F. rewrite <- I4 in F. by apply Forall_app in F as [? _].
  Qed.
  Lemma htrue x v : rtc hst (hinit w0) x -> hm x = HReturned v true ->
    exists used lost, used ++ lost ≡ₚ segs /\ Z.of_nat (length used) = p /\ Forall sok used
      /\ tf (sv <$> used) init = (v, true).
  Proof using Hp Hs.
    intros Hr Hm. pose proof (hinv_reach x Hr) as I. pose proof I as [I2 I3 (used & bs & I4 & I4b & I4') I5].
    rewrite Hm in *. destruct I4' as [Hl Hv]. destruct (hparts x used bs I I2 I4) as [Pm Fo].
    exists used, (bs ++ hrest 0 (hws x)). done.
  Qed.
  Lemma hfalse x v : rtc hst (hinit w0) x -> hm x = HReturned v false ->
    exists used lost, used ++ lost ≡ₚ segs /\ (Z.of_nat (length used) <= p)%Z /\ Forall sok used /\
      (tf (sv <$> used) init = (v, false)
       \/ (exists seg, seg ∈ lost /\ ~ sok seg) /\ (tf (sv <$> used) init).2 = true /\ v = default zero (last (sv <$> used))).
  Proof using Hp Hs.
    intros Hr Hm. pose proof (hinv_reach x Hr) as I. pose proof I as [I2 I3 (used & bs & I4 & I4b & I4') I5].
    rewrite Hm in *. destruct I4' as [Hl I4']. destruct (hparts x used bs I I2 I4) as [Pm Fo].
    exists used, (bs ++ hrest 0 (hws x)). split; [done|]. split; [done|]. split; [done|].
    destruct I4' as [((seg & Hj & Hb) & Hu & Hv)|Hv]; [right|by left]. split; [|done]. exists seg. split; [|done].
    rewrite <- Pm in Hj. apply elem_of_app in Hj as [Hin|Hin]; [|done]. rewrite Forall_forall in Fo. by destruct (Hb (Fo _ Hin)).
  Qed.
  Lemma hnot_panicked x : rtc hst (hinit w0) x -> hm x <> HPanicked.
  Proof using Hp Hs. intros Hr Hm. pose proof (hinv_reach x Hr) as [I2 _ _ _]. by rewrite Hm in I2. Qed.
End tf.
