From Verif Require Import Base Iter_Model Iter_Spec Split_Model Split_Proofs WalkSplit_Model WalkSplit_Spec WalkSplit_Proofs
  Stream_Model Stream_Spec Stream_Proofs Stream_Proofs2 StreamPar_Model StreamPar_Proofs ParPipe_Model.

Notation Any := (fun _ _ => True).
Notation Y := (Stream_Spec.yields Any).
Notation G := (gyields Any).

Lemma returns_det {U T} (it : iter U T) w o1 i1 w1 o2 i2 w2 :
  returns it w o1 i1 w1 -> returns it w o2 i2 w2 -> o1 = o2 /\ i1 = i2 /\ w1 = w2.
Proof. intros [n H1] [m H2]. specialize (H1 (n + m) ltac:(lia)). specialize (H2 (n + m) ltac:(lia)). rewrite H1 in H2. by injection H2 as <- <- <-. Qed.
Lemma greturns_det {U T} (g : gen U T) w o1 i1 w1 o2 i2 w2 :
  greturns g w o1 i1 w1 -> greturns g w o2 i2 w2 -> o1 = o2 /\ i1 = i2 /\ w1 = w2.
Proof. intros [n H1] [m H2]. specialize (H1 (n + m) ltac:(lia)). specialize (H2 (n + m) ltac:(lia)). rewrite H1 in H2. by injection H2 as <- <- <-. Qed.

(** what a call says about the elements to come *)
Lemma Y_some {U T} (it : iter U T) l w x it' w' : Y it l -> returns it w (Some x) it' w' -> exists l', l = x :: l' /\ Y it' l'.
Proof.
  intros H R. destruct (yields_inv _ _ _ H w) as (o & i & w1 & R1 & _ & Ho). destruct (returns_det _ _ _ _ _ _ _ _ R R1) as (<- & <- & <-).
  destruct l as [|v l]; [done|]. destruct Ho as [[= ->] Ho]. eauto.
Qed.
Lemma Y_none {U T} (it : iter U T) l w it' w' : Y it l -> returns it w None it' w' -> l = [].
Proof.
  intros H R. destruct (yields_inv _ _ _ H w) as (o & i & w1 & R1 & _ & Ho). destruct (returns_det _ _ _ _ _ _ _ _ R R1) as (<- & <- & <-).
  destruct l as [|v l]; [done|]. by destruct Ho.
Qed.
Lemma G_some {U T} (g : gen U T) ls w it g' w' : G g ls -> greturns g w (Some it) g' w' -> exists l ls', ls = l :: ls' /\ Y it l /\ G g' ls'.
Proof.
  intros H R. destruct (gyields_inv _ _ _ H w) as (o & i & w1 & R1 & _ & Ho). destruct (greturns_det _ _ _ _ _ _ _ _ R R1) as (<- & <- & <-).
  destruct ls as [|l ls]; [by destruct Ho|]. destruct Ho as (it0 & [= ->] & ? & ?). eauto 10.
Qed.
Lemma G_none {U T} (g : gen U T) ls w g' w' : G g ls -> greturns g w None g' w' -> ls = [].
Proof.
  intros H R. destruct (gyields_inv _ _ _ H w) as (o & i & w1 & R1 & _ & Ho). destruct (greturns_det _ _ _ _ _ _ _ _ R R1) as (<- & <- & <-).
  destruct ls as [|l ls]; [done|]. by destruct Ho as (? & ? & _).
Qed.
Lemma Y_can {U T} (it : iter U T) l w : Y it l -> exists o it' w', returns it w o it' w'.
Proof. intros H. destruct (yields_inv _ _ _ H w) as (o & i & w1 & R1 & _). eauto. Qed.
Lemma G_can {U T} (g : gen U T) ls w : G g ls -> exists o g' w', greturns g w o g' w'.
Proof. intros H. destruct (gyields_inv _ _ _ H w) as (o & i & w1 & R1 & _). eauto. Qed.

(** * FoldWith *)
Section fold.
  Context {U T R : Type} (p : Z) (init : R) (f : R -> T -> R) (comb : R -> R -> R) (s : stream U T) (w0 : world U) (segs : list (list T)).
  Notation k := (length segs).
  Notation seg j := (default [] (segs !! j)).
  Notation res_of j := (fold_left f (seg j) init).
  Notation gst := (gstep (U:=U) p init f comb).
  Notation st := (gstate U T R).

  Fixpoint dres (j : nat) (ws : list (gworker U T R)) : list R :=
    match ws with
    | [] => []
    | GDone :: ws' => res_of j :: dres (S j) ws'
    | _ :: ws' => dres (S j) ws'
    end.
  Definition undone (w : gworker U T R) : bool := match w with GDone => false | _ => true end.
  Fixpoint ures (j : nat) (ws : list (gworker U T R)) : list R :=
    match ws with
    | [] => []
    | GDone :: ws' => ures (S j) ws'
    | _ :: ws' => res_of j :: ures (S j) ws'
    end.
  Lemma dres_ures j ws : dres j ws ++ ures j ws ≡ₚ (fun j => res_of j) <$> seq j (length ws).
  Proof.
    revert j. induction ws as [|w ws IH]; intros j; [done|]. simpl. destruct w; simpl.
    - rewrite <- IH. by rewrite Permutation_middle.
    - rewrite <- IH. by rewrite Permutation_middle.
    - by rewrite <- IH.
  Qed.
  Lemma dres_app j ws w : undone w = true -> dres j (ws ++ [w]) = dres j ws.
  Proof.
    intros Hw. revert j. induction ws as [|w' ws IH]; intros j; simpl; [by destruct w|].
    destruct w'; by rewrite IH.
  Qed.
  Lemma dres_upd j ws i w w' : ws !! i = Some w -> undone w = true -> undone w' = true ->
    dres j (<[i := w']> ws) = dres j ws.
  Proof.
    intros Hi Hu Hu'. revert j i Hi. induction ws as [|a ws IH]; intros j [|i] Hi; simpl in *; try done.
    - injection Hi as ->. destruct w, w'; done.
    - destruct a; by rewrite IH.
  Qed.
  Lemma dres_done j ws i w : ws !! i = Some w -> undone w = true ->
    dres j (<[i := GDone]> ws) ≡ₚ res_of (j + i) :: dres j ws.
  Proof.
    intros Hi Hu. revert j i Hi. induction ws as [|a ws IH]; intros j [|i] Hi; simpl in *; try done.
    - injection Hi as ->. rewrite Nat.add_0_r. destruct w; done.
    - replace (j + S i) with (S j + i) by lia. destruct a; rewrite (IH (S j) i Hi); try done.
      apply Permutation_swap.
  Qed.
  Lemma ures_in j ws i w : ws !! i = Some w -> undone w = true -> ures j ws <> [].
  Proof.
    revert j i. induction ws as [|a ws IH]; intros j [|i] Hi Hu; simpl in *; try done.
    - injection Hi as ->. by destruct w.
    - destruct a; try done. by eapply IH.
  Qed.
  Lemma ures_nonempty j ws : ures j ws <> [] -> exists i w, ws !! i = Some w /\ undone w = true.
  Proof.
    revert j. induction ws as [|a ws IH]; intros j Hu; simpl in *; [done|].
    destruct a; [by exists 0; eauto|by exists 0; eauto|].
    destruct (IH _ Hu) as (i & w & ? & ?). exists (S i), w. done.
  Qed.
  Lemma all_res : (fun j => res_of j) <$> seq 0 k = (fun sg => fold_left f sg init) <$> segs.
  Proof.
    apply list_eq. intros i. rewrite !list_lookup_fmap. destruct (segs !! i) as [sg|] eqn:E.
    - rewrite lookup_seq_lt by (by eapply lookup_lt_Some). cbn. by rewrite E.
    - apply lookup_ge_None in E. by rewrite lookup_seq_ge.
  Qed.

  Definition wok (sg : list T) (w : gworker U T R) : Prop :=
    match w with
    | GRun it a => exists d rest, sg = d ++ rest /\ a = fold_left f d init /\ Y it rest
    | GSend a => a = fold_left f sg init
    | GDone => True
    end.
  Record ginv (x : st) : Prop := {
    gi_main : match gm x with GSpawn g => length (gws x) <= k /\ G g (drop (length (gws x)) segs) | _ => length (gws x) = k end;
    gi_ws : forall j w, gws x !! j = Some w -> wok (seg j) w;
    gi_res : exists rs, rs ++ gbuf x ≡ₚ dres 0 (gws x) /\
      match gm x with
      | GSpawn _ => rs = []
      | GRecv c acc => length rs = c /\ acc = fold_left comb rs init /\ (Z.of_nat c <= p)%Z
      | GReturned acc => Z.of_nat (length rs) = p /\ acc = fold_left comb rs init
      end;
    gi_closed : gclosed x = match gm x with GReturned _ => true | _ => false end;
    gi_crash : gcrashed x = true -> gclosed x = true /\ exists i a, gws x !! i = Some (GSend a)
  }.
  Context (Hp : (1 <= p)%Z) (Hs : stable s p segs).
  Lemma ginv_init : ginv (ginit p s w0).
  Proof using Hs. split; simpl; try done; [|by exists []]. split; [lia|]. by rewrite drop_0. Qed.
  Lemma upd_ws (ws : list (gworker U T R)) i w w' :
    ws !! i = Some w -> (forall j w, ws !! j = Some w -> wok (seg j) w) -> wok (seg i) w' ->
    forall j v, <[i := w']> ws !! j = Some v -> wok (seg j) v.
  Proof. intros Hi Hw Hw' j v Hj. apply list_lookup_insert_Some in Hj as [(<- & <- & _)|[_ Hj]]; eauto. Qed.
  Lemma spawn_lt {i sg ls'} : drop i segs = sg :: ls' -> i < k /\ seg i = sg /\ drop (i + 1) segs = ls'.
  Proof.
    intros E. assert (segs !! i = Some sg) as Hi by (by rewrite <- (Nat.add_0_r i), <- lookup_drop, E).
    splits; [by eapply lookup_lt_Some|by rewrite Hi|]. by rewrite <- drop_drop, E.
  Qed.
  Lemma ginv_step x y : ginv x -> gst x y -> ginv y.
  Proof using Hp.
    intros I Hst. destruct Hst as [g it g' ws buf cl w w' E|g g' ws buf cl w w' E|c acc ws r buf cl w Hc
      |c acc ws buf cl w Hc|m ws buf cl i x it it' acc w w' Hi E|m ws buf cl i it it' acc w w' Hi E|m ws buf i acc w Hi Hl|m ws buf i acc w Hi];
      destruct I as [I2 I3 (rs & I4 & I4') I5 I6]; simpl in *.
    - destruct I2 as [I1 I2]. destruct (G_some _ _ _ _ _ _ I2 E) as (l & ls' & Ed & Hy & Hg). destruct (spawn_lt Ed) as (Hlt & Hsg & Hd).
      split; simpl.
      + rewrite app_length. cbn [length]. rewrite Hd. split; [lia|done].
      + intros j v Hj. apply lookup_app_Some in Hj as [Hj|[Hge Hj]]; [by eauto|].
        apply list_lookup_singleton_Some in Hj as [Hj <-]. replace j with (length ws) by lia.
        exists [], l. by rewrite Hsg.
      + exists rs. by rewrite dres_app.
      + done.
      + intros; done.
    - destruct I2 as [I1 I2]. pose proof (G_none _ _ _ _ _ I2 E) as Ed. apply (f_equal length) in Ed. rewrite drop_length in Ed. cbn in Ed.
      split; simpl; try done; [lia|]. exists rs. subst rs. splits; [done|done|done|lia].
    - destruct I4' as (<- & -> & Hcp). split; simpl; try done.
      exists (rs ++ [r]). rewrite app_length, fold_left_app. simpl. splits; [|lia|done|lia].
      by rewrite <- app_assoc.
    - destruct I4' as (<- & -> & Hcp). split; simpl; try done. exists rs. done.
    - split; simpl.
      + by rewrite insert_length.
      + eapply upd_ws; [done|done|]. destruct (I3 _ _ Hi) as (d & rest & Hd & -> & Hy). destruct (Y_some _ _ _ _ _ _ Hy E) as (rest' & -> & Hy').
        exists (d ++ [x]), rest'. splits; [by rewrite <- app_assoc|by rewrite fold_left_app|done].
      + exists rs. rewrite (dres_upd _ _ _ _ _ Hi) by done. done.
      + done.
      + done.
    - split; simpl.
      + by rewrite insert_length.
      + eapply upd_ws; [done|done|]. destruct (I3 _ _ Hi) as (d & rest & Hd & -> & Hy). pose proof (Y_none _ _ _ _ _ Hy E) as ->. rewrite app_nil_r in Hd. by rewrite Hd.
      + exists rs. rewrite (dres_upd _ _ _ _ _ Hi) by done. done.
      + done.
      + done.
    - split; simpl.
      + by rewrite insert_length.
      + eapply upd_ws; [done|done|done].
      + exists rs. split; [|done]. rewrite (dres_done _ _ _ _ Hi) by done. simpl.
        rewrite app_assoc, I4. pose proof (I3 _ _ Hi) as Ha. simpl in Ha. rewrite Ha.
        by rewrite Permutation_app_comm.
      + done.
      + done.
    - split; simpl; try done. { by exists rs. } intros _. split; [done|]. by exists i, acc.
  Qed.
  Lemma ginv_reach x : rtc gst (ginit p s w0) x -> ginv x.
  Proof using Hp Hs.
    intros H. apply rtc_ind_r with (P := ginv) (z := x) in H; [done|apply ginv_init|].
    intros y z _ Hyz I. by eapply ginv_step.
  Qed.
  Lemma gfold_value x v : rtc gst (ginit p s w0) x -> gm x = GReturned v ->
    exists used lost, used ++ lost ≡ₚ segs /\ Z.of_nat (length used) = p /\
      v = fold_left comb ((fun sg => fold_left f sg init) <$> used) init.
  Proof using Hp Hs.
    intros Hr Hm. destruct (ginv_reach x Hr) as [I2 I3 (rs & I4 & I4') I5 I6].
    rewrite Hm in *. destruct I4' as [Hl ->].
    assert (P : rs ++ (gbuf x ++ ures 0 (gws x)) ≡ₚ (fun sg => fold_left f sg init) <$> segs).
    { rewrite <- all_res, <- I2, app_assoc, I4. apply dres_ures. }
    apply Permutation_map_inv in P as (l & E & P). symmetry in E. apply map_eq_app in E as (u & v & -> & <- & _).
    exists u, v. splits; [by symmetry|by rewrite map_length in Hl|done].
  Qed.
  Lemma gfold_no_crash x : Z.of_nat k = p -> rtc gst (ginit p s w0) x -> gcrashed x = false.
  Proof using Hp Hs.
    intros Hk Hr. destruct (gcrashed x) eqn:Ec; [|done]. exfalso.
    destruct (ginv_reach x Hr) as [I2 I3 (rs & I4 & I4') I5 I6].
    destruct (I6 Ec) as (Hcl & i & a & Hi). rewrite I5 in Hcl.
    destruct (gm x) eqn:Hm; try done. destruct I4' as [Hl _].
    pose proof (ures_in 0 _ _ _ Hi eq_refl) as Hu.
    pose proof (Permutation_length (dres_ures 0 (gws x))) as HL.
    rewrite app_length, fmap_length, seq_length in HL.
    apply Permutation_length in I4. rewrite app_length in I4.
    destruct (ures 0 (gws x)); [done|]. simpl in HL. lia.
  Qed.
  Lemma gfold_progress x : (p <= Z.of_nat k)%Z -> rtc gst (ginit p s w0) x -> gcrashed x = false ->
    (exists y, gst x y) \/ (exists v, gm x = GReturned v).
  Proof using Hp Hs.
    intros Hk Hr Hc. destruct (ginv_reach x Hr) as [I2 I3 (rs & I4 & I4') I5 I6].
    destruct x as [m ws buf cl cr w]; simpl in *. subst cr. destruct m as [g|c acc|v]; [| |by eauto].
    - left. destruct I2 as [_ I2]. destruct (G_can _ _ w I2) as ([it|] & g' & w' & E); eexists; [by eapply gs_spawn|by eapply gs_spawned].
    - left. destruct I4' as (<- & -> & Hcp). destruct (decide (Z.of_nat (length rs) = p)) as [|Hne].
      + eexists. by apply gs_return.
      + destruct buf as [|r buf]; [|by eexists; apply gs_recv].
        rewrite app_nil_r in I4. subst cl.
        pose proof (Permutation_length (dres_ures 0 ws)) as HL.
        rewrite app_length, fmap_length, seq_length in HL.
        apply Permutation_length in I4.
        assert (ures 0 ws <> []) as Hu. { destruct (ures 0 ws); [simpl in HL; lia|done]. }
        apply ures_nonempty in Hu as (i & v & Hi & Hv). destruct v as [it a|a|]; [| |done].
        * pose proof (I3 _ _ Hi) as (d & rest & _ & _ & Hy). destruct (Y_can _ _ w Hy) as ([y|] & it' & w' & E); eexists; [by eapply gs_work|by eapply gs_end].
        * eexists. eapply gs_send; [done|]. simpl. lia.
  Qed.

  (** bounded schedules: the number of elements a goroutine has still to pull
      is that of its segment minus those folded *)
  Definition togo (w : gworker U T R) (n : nat) : Prop :=
    match w with GRun it _ => exists rest, Y it rest /\ n = length rest + 2 | GSend _ => n = 1 | GDone => n = 0 end.
  Definition mains (x : st) : nat :=
    match gm x with
    | GSpawn _ => sum_list_with (fun sg => length sg + 3) (drop (length (gws x)) segs) + Z.to_nat p + 3
    | GRecv c _ => (Z.to_nat p - c) + 2
    | GReturned _ => 1 end.
  Definition measure (x : st) (n : nat) : Prop :=
    exists ns, Forall2 togo (gws x) ns /\ n = mains x + sum_list ns - (if gcrashed x then 1 else 0).
  Lemma sum_insert ns i a b : ns !! i = Some a -> sum_list (<[i := b]> ns) + a = sum_list ns + b.
  Proof. revert i. induction ns as [|z ns IH]; intros [|i] Hi; simpl in *; try done; [injection Hi as ->; lia|]. specialize (IH i Hi). lia. Qed.
  Lemma meas_upd ws ns i w w' b : Forall2 togo ws ns -> ws !! i = Some w -> togo w' b ->
    exists a ns', togo w a /\ Forall2 togo (<[i := w']> ws) ns' /\ sum_list ns' + a = sum_list ns + b.
  Proof.
    intros F Hi Hb. destruct (Forall2_lookup_l _ _ _ _ _ F Hi) as (a & Ha & Hw). exists a, (<[i := b]> ns). splits; [done| |by apply sum_insert].
    by apply Forall2_insert.
  Qed.
  Lemma measure_dec x y n : ginv x -> measure x n -> gst x y -> exists n', measure y n' /\ n' < n.
  Proof using Hp.
    intros I (ns & F & ->) Hst. destruct Hst as [g it g' ws buf cl w w' E|g g' ws buf cl w w' E|c acc ws r buf cl w Hc
      |c acc ws buf cl w Hc|m ws buf cl i x it it' acc w w' Hi E|m ws buf cl i it it' acc w w' Hi E|m ws buf i acc w Hi Hl|m ws buf i acc w Hi];
      destruct I as [I2 I3 (rs & I4 & I4') I5 I6]; unfold measure, mains; simpl in *.
    - destruct I2 as [I1 I2]. destruct (G_some _ _ _ _ _ _ I2 E) as (l & ls' & Ed & Hy & Hg). destruct (spawn_lt Ed) as (Hlt & Hsg & Hd).
      eexists. split; [exists (ns ++ [length l + 2]); split; [|reflexivity]|].
      + apply Forall2_app; [done|]. constructor; [|done]. cbn. eauto.
      + rewrite app_length. cbn [length]. rewrite Hd, Ed, sum_list_with_app. simpl. unfold sum_list. lia.
    - eexists. split; [exists ns; split; [done|reflexivity]|]. lia.
    - destruct I4' as (<- & -> & Hcp). eexists. split; [exists ns; split; [done|reflexivity]|]. lia.
    - eexists. split; [exists ns; split; [done|reflexivity]|]. lia.
    - destruct (I3 _ _ Hi) as (d & rest & Hd & -> & Hy0).
      destruct (Forall2_lookup_l _ _ _ _ _ F Hi) as (a & Ha & (rest2 & Hy & ->)). destruct (Y_some _ _ _ _ _ _ Hy E) as (rest' & -> & Hy').
      pose proof (sum_insert ns i _ (length rest' + 2) Ha) as Hsum. cbn [length] in Hsum.
      eexists. split; [exists (<[i := length rest' + 2]> ns); split; [|reflexivity]|].
      + apply Forall2_insert; [done|]. cbn. eauto.
      + rewrite insert_length. destruct m; lia.
    - destruct (Forall2_lookup_l _ _ _ _ _ F Hi) as (a & Ha & (rest2 & Hy & ->)). pose proof (Y_none _ _ _ _ _ Hy E) as ->.
      pose proof (sum_insert ns i _ 1 Ha) as Hsum. cbn [length] in Hsum.
      eexists. split; [exists (<[i := 1]> ns); split; [|reflexivity]|].
      + by apply Forall2_insert.
      + rewrite insert_length. destruct m; lia.
    - destruct (Forall2_lookup_l _ _ _ _ _ F Hi) as (a & Ha & ->).
      pose proof (sum_insert ns i _ 0 Ha) as Hsum. cbn [length] in Hsum.
      eexists. split; [exists (<[i := 0]> ns); split; [|reflexivity]|].
      + by apply Forall2_insert.
      + rewrite insert_length. destruct m; lia.
    - eexists. split; [exists ns; split; [done|reflexivity]|]. destruct m; lia.
  Qed.
  Lemma gfold_bounded : exists b, forall m x, nsteps gst m (ginit p s w0) x -> m <= b.
  Proof using Hp Hs.
    assert (Gn : forall m x y n, nsteps gst m x y -> ginv x -> measure x n -> m <= n).
    { intros m x y n H. revert n. induction H as [a|m' a b c H1 H2 IH]; intros n I M; [lia|].
      destruct (measure_dec _ _ _ I M H1) as (n' & M' & Hlt). pose proof (IH _ (ginv_step _ _ I H1) M'). lia. }
    eexists. intros m x H. eapply Gn; [exact H|apply ginv_init|]. exists []. split; [constructor|reflexivity].
  Qed.
  Lemma gfold_ok : Z.of_nat k = p ->
    (forall x, rtc gst (ginit p s w0) x -> gcrashed x = false /\ ((exists y, gst x y) \/ (exists v, gm x = GReturned v))) /\
    (forall x, rtc gst (ginit p s w0) x -> exists y v, rtc gst x y /\ gm y = GReturned v).
  Proof using Hp Hs.
    intros Hk. assert (P : forall x, rtc gst (ginit p s w0) x -> gcrashed x = false /\ ((exists y, gst x y) \/ (exists v, gm x = GReturned v))).
    { intros x Hr. pose proof (gfold_no_crash x Hk Hr) as Hc. split; [done|]. apply gfold_progress; [lia|done|done]. }
    split; [exact P|]. destruct gfold_bounded as [b Hb].
    assert (Gn : forall d m x, nsteps gst m (ginit p s w0) x -> b - m <= d -> exists y v, rtc gst x y /\ gm y = GReturned v).
    { induction d as [|d IH]; intros m x Hm Hd; (destruct (P x) as [_ [[y Hy]|[v Hv]]]; [by eapply rtc_nsteps_2| |by exists x, v; split; [constructor|]]).
      - pose proof (Hb (S m) y). pose proof (Hb m x Hm). assert (nsteps gst (S m) (ginit p s w0) y) as Hn by (by eapply nsteps_r). specialize (H Hn). lia.
      - assert (nsteps gst (S m) (ginit p s w0) y) as Hn by (by eapply nsteps_r). pose proof (Hb _ _ Hn).
        destruct (IH (S m) y Hn) as (z & v & Hz & Hv); [lia|]. exists z, v. split; [by eapply rtc_l|done]. }
    intros x [m Hm]%rtc_nsteps_1. by eapply (Gn (b - m) m x).
  Qed.
  (** too few segments: it never returns *)
  Lemma gfold_too_few x : (Z.of_nat k < p)%Z -> rtc gst (ginit p s w0) x -> gcrashed x = false /\ forall v, gm x <> GReturned v.
  Proof using Hp Hs.
    intros Hk Hr. assert (N : forall v, gm x <> GReturned v).
    { intros v Hm. destruct (gfold_value x v Hr Hm) as (u & l & P & Hl & _). apply Permutation_length in P. rewrite app_length in P. lia. }
    split; [|done]. destruct (gcrashed x) eqn:Ec; [|done]. exfalso. destruct (ginv_reach x Hr) as [I2 I3 _ I5 I6].
    destruct (I6 Ec) as (Hcl & _). rewrite I5 in Hcl. destruct (gm x) eqn:Hm; try done. by eapply N.
  Qed.

  (** a schedule for too many segments *)
  Notation res := (fun sg : list T => fold_left f sg init).
  Lemma sched_spawn n : n <= k -> exists g ws w, rtc gst (ginit p s w0) (GState (GSpawn g) ws [] false false w) /\
    G g (drop n segs) /\ Forall2 (fun v sg => exists it, v = GRun it init /\ Y it sg) ws (take n segs).
  Proof using Hs.
    induction n as [|n IH]; intros Hn.
    - exists (activate s p), [], w0. splits; [constructor|by rewrite drop_0|constructor].
    - destruct IH as (g & ws & w & Hr & Hg & Hw); [lia|]. destruct (lookup_lt_is_Some_2 segs n) as [sg Hsg]; [lia|].
      rewrite (drop_S _ _ _ Hsg) in Hg. destruct (gyields_inv _ _ _ Hg w) as (o & g' & w1 & R1 & _ & it & -> & Hy & Hg').
      exists g', (ws ++ [GRun it init]), w1. splits; [eapply rtc_r; [exact Hr|by eapply gs_spawn]|done|].
      rewrite (take_S_r _ _ _ Hsg). apply Forall2_app; [done|]. constructor; [|done]. eauto.
  Qed.
  Lemma sched_run m buf cl ws1 it sg a ws2 w : Y it sg -> exists w',
    rtc gst (GState m (ws1 ++ GRun it a :: ws2) buf cl false w) (GState m (ws1 ++ GSend (fold_left f sg a) :: ws2) buf cl false w').
  Proof.
    revert it a w. induction sg as [|x sg IH]; intros it a w Hy; destruct (yields_inv _ _ _ Hy w) as (o & it' & w' & R1 & _ & Ho).
    - subst o. exists w'. eapply rtc_l; [|constructor].
      pose proof (gs_end p init f comb m (ws1 ++ GRun it a :: ws2) buf cl (length ws1) it it' a w w') as H.
      rewrite list_lookup_middle in H by done. rewrite insert_app_r_alt in H by lia.
      rewrite Nat.sub_diag in H. simpl in H. by apply H.
    - destruct Ho as [-> Hy']. destruct (IH it' (f a x) w' Hy') as [w2 H2]. exists w2. eapply rtc_l; [|exact H2].
      pose proof (gs_work p init f comb m (ws1 ++ GRun it a :: ws2) buf cl (length ws1) x it it' a w w') as H.
      rewrite list_lookup_middle in H by done. rewrite insert_app_r_alt in H by lia.
      rewrite Nat.sub_diag in H. simpl in H. by apply H.
  Qed.
  Lemma sched_run_all m buf cl sgs : forall ws ws1 w, Forall2 (fun v sg => exists it, v = GRun it init /\ Y it sg) ws sgs ->
    exists w', rtc gst (GState m (ws1 ++ ws) buf cl false w) (GState m (ws1 ++ ((fun sg => GSend (res sg)) <$> sgs)) buf cl false w').
  Proof.
    induction sgs as [|sg sgs IH]; intros ws ws1 w F; inversion F as [|v ? ws' ? (it & -> & Hy) F' E1 E2]; subst.
    - exists w. constructor.
    - destruct (sched_run m buf cl ws1 it sg init ws' w Hy) as [w1 H1].
      destruct (IH ws' (ws1 ++ [GSend (res sg)]) w1 F') as [w2 H2]. exists w2. etrans; [exact H1|].
      rewrite <- !app_assoc in H2. exact H2.
  Qed.
  Lemma sched_send (vs : list R) : forall c acc ws1 ws2 w, (Z.of_nat (c + length vs) <= p)%Z ->
    rtc gst (GState (GRecv c acc) (ws1 ++ (GSend <$> vs) ++ ws2) [] false false w)
            (GState (GRecv (c + length vs) (fold_left comb vs acc)) (ws1 ++ ((fun _ => GDone) <$> vs) ++ ws2) [] false false w).
  Proof.
    induction vs as [|v vs IH]; intros c acc ws1 ws2 w Hc; simpl in *.
    - rewrite Nat.add_0_r. constructor.
    - eapply rtc_l.
      { pose proof (gs_send p init f comb (GRecv c acc) (ws1 ++ GSend v :: (GSend <$> vs) ++ ws2) [] (length ws1) v w) as H.
        rewrite list_lookup_middle in H by done. rewrite insert_app_r_alt in H by lia.
        rewrite Nat.sub_diag in H. simpl in H. apply H; [done|lia]. }
      eapply rtc_l; [apply gs_recv; lia|].
      specialize (IH (c + 1) (comb acc v) (ws1 ++ [GDone]) ws2 w ltac:(lia)).
      rewrite <- !app_assoc in IH. replace (c + S (length vs)) with (c + 1 + length vs) by lia. exact IH.
  Qed.
  Lemma gfold_too_many : (p < Z.of_nat k)%Z -> exists x v, rtc gst (ginit p s w0) x /\ gm x = GReturned v /\ gcrashed x = true.
  Proof using Hp Hs.
    intros Hk. destruct (sched_spawn k ltac:(lia)) as (g & ws & w & Hr & Hg & Hw). rewrite drop_all in Hg. rewrite firstn_all in Hw.
    destruct (gyields_inv _ _ _ Hg w) as (o & g' & w1 & R1 & _ & -> & _).
    destruct (sched_run_all (GRecv 0 init) [] false segs ws [] w1 Hw) as [w2 H2].
    set (vs := res <$> segs). pose (vs1 := take (Z.to_nat p) vs).
    assert (Hlv : length vs = k). { unfold vs. by rewrite fmap_length. }
    destruct (drop (Z.to_nat p) vs) as [|v2 vs2] eqn:Ed.
    { apply (f_equal length) in Ed. rewrite drop_length in Ed. simpl in Ed. lia. }
    assert (Evs : vs = vs1 ++ v2 :: vs2). { unfold vs1. rewrite <- Ed. by rewrite take_drop. }
    assert (Hl1 : length vs1 = Z.to_nat p). { unfold vs1. rewrite take_length. lia. }
    eexists _, (fold_left comb vs1 init). splits.
    - etrans; [exact Hr|]. eapply rtc_l; [by eapply gs_spawned|]. etrans; [exact H2|]. cbn [app].
      replace ((fun sg => GSend (res sg)) <$> segs) with (GSend (U:=U) (T:=T) <$> vs) by (unfold vs; by rewrite <- list_fmap_compose).
      rewrite Evs, fmap_app, fmap_cons.
      etrans. { apply (sched_send vs1 0 init [] (GSend v2 :: (GSend <$> vs2))). lia. }
      simpl. eapply rtc_l; [apply gs_return; lia|].
      eapply rtc_l; [|constructor]. eapply gs_send_closed with (i := length vs1) (acc := v2).
      rewrite lookup_app_r by (by rewrite fmap_length). by rewrite fmap_length, Nat.sub_diag.
    - done.
    - done.
  Qed.
End fold.
