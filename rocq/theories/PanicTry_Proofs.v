From Verif Require Import Base Stream_Model Stream_Spec ParPipe_Proofs PanicPar_Model PanicPar_Spec PanicPar_Proofs PanicTry_Model PanicTry_Spec.

Lemma trying_app {T} (f : T -> T -> option (T * bool)) d : forall acc rest,
  trying f acc (d ++ rest) = match trying f acc d with Accepts a => trying f a rest | o => o end.
Proof. induction d as [|x d IH]; intros acc rest; [done|]. cbn. destruct (f acc x) as [[a [|]]|]; done. Qed.
Lemma sum_ins ns i a b : ns !! i = Some a -> sum_list (<[i := b]> ns) + a = sum_list ns + b.
Proof. revert i. induction ns as [|z ns IH]; intros [|i] Hi; simpl in *; try done; [injection Hi as ->; lia|]. specialize (IH i Hi). lia. Qed.

Section tf.
  Context {U T : Type} (zero : T) (s : stream U T) (p : Z) (init : T) (f : T -> T -> option (T * bool)) (e : T -> T -> U -> U)
    (w0 : world U) (cs : list (course T)).
  Notation k := (length cs).
  Notation sg j := (default (Course [] false) (cs !! j)).
  Notation hst := (zstep zero s p init f e).
  Notation tf l := (trying f init l).
  Notation tc c := (try_course f init c).
  Definition sv (c : course T) : T := match tc c with Accepts v => v | _ => init end.
  Definition sok (c : course T) : Prop := exists v, tc c = Accepts v.
  Notation st := (zstate U T).
  Notation wk := (zworker U T).

  Fixpoint hdone (j : nat) (ws : list wk) : list (course T) :=
    match ws with
    | [] => []
    | ZSent :: ws' => sg j :: hdone (S j) ws'
    | _ :: ws' => hdone (S j) ws'
    end.
  Fixpoint hrest (j : nat) (ws : list wk) : list (course T) :=
    match ws with
    | [] => []
    | ZSent :: ws' => hrest (S j) ws'
    | _ :: ws' => sg j :: hrest (S j) ws'
    end.
  Definition hun (w : wk) : bool := match w with ZSent => false | _ => true end.
  Lemma hdone_hrest j ws : hdone j ws ++ hrest j ws ≡ₚ (fun j => sg j) <$> seq j (length ws).
  Proof.
    revert j. induction ws as [|w ws IH]; intros j; [done|]. simpl. destruct w; simpl; rewrite <- IH; try done;
      by rewrite Permutation_middle.
  Qed.
  Lemma hdone_app j ws w : hun w = true -> hdone j (ws ++ [w]) = hdone j ws.
  Proof.
    intros Hw. revert j. induction ws as [|w' ws IH]; intros j; simpl; [by destruct w|].
    destruct w'; by rewrite IH.
  Qed.
  Lemma hdone_upd j ws i w w' : ws !! i = Some w -> hun w = true -> hun w' = true ->
    hdone j (<[i := w']> ws) = hdone j ws.
  Proof.
    intros Hi Hu Hu'. revert j i Hi. induction ws as [|a ws IH]; intros j [|i] Hi; simpl in *; try done.
    - injection Hi as ->. destruct w, w'; done.
    - destruct a; by rewrite IH.
  Qed.
  Lemma hdone_sent j ws i w : ws !! i = Some w -> hun w = true ->
    hdone j (<[i := ZSent]> ws) ≡ₚ sg (j + i) :: hdone j ws.
  Proof.
    intros Hi Hu. revert j i Hi. induction ws as [|a ws IH]; intros j [|i] Hi; simpl in *; try done.
    - injection Hi as ->. rewrite Nat.add_0_r. destruct w; done.
    - replace (j + S i) with (S j + i) by lia. destruct a; rewrite (IH (S j) i Hi); try done.
      apply Permutation_swap.
  Qed.
  Lemma hrest_in j ws i w : ws !! i = Some w -> hun w = true -> hrest j ws <> [].
  Proof.
    revert j i. induction ws as [|a ws IH]; intros j [|i] Hi Hu; simpl in *; try done.
    - injection Hi as ->. by destruct w.
    - destruct a; try done. by eapply IH.
  Qed.
  Lemma hrest_nonempty j ws : hrest j ws <> [] -> exists i w, ws !! i = Some w /\ hun w = true.
  Proof.
    revert j. induction ws as [|a ws IH]; intros j Hu; simpl in *; [done|].
    destruct a; try (by exists 0; eauto).
    destruct (IH _ Hu) as (i & w & ? & ?). exists (S i), w. done.
  Qed.
  Lemma all_sg : (fun j => sg j) <$> seq 0 k = cs.
  Proof.
    apply list_eq. intros i. rewrite !list_lookup_fmap. destruct (cs !! i) as [sg|] eqn:E.
    - rewrite lookup_seq_lt by (by eapply lookup_lt_Some). cbn. by rewrite E.
    - apply lookup_ge_None in E. by rewrite lookup_seq_ge.
  Qed.

  Definition refused : Prop := exists c v, c ∈ cs /\ tc c = Refuses v.
  Definition zok (c : bool) (seg : course T) (w : wk) : Prop :=
    match w with
    | ZPull it a => exists d rest, elems seg = d ++ rest /\ tf d = Accepts a /\ runs it rest (booms seg)
    | ZGot x it a | ZCall x it a => exists d rest, elems seg = d ++ x :: rest /\ tf d = Accepts a /\ runs it rest (booms seg)
    | ZCancel => exists v, tc seg = Refuses v
    | ZSend a => tc seg = Accepts a
    | ZSent => sok seg
    | ZQuit => c = true
    end.
  Record zinv (x : st) : Prop := {
    zi_main : match zm x with
      | ZMake => zws x = []
      | ZSpawn g => length (zws x) <= k /\ gruns g (drop (length (zws x)) cs)
      | _ => length (zws x) = k end;
    zi_ws : forall j w, zws x !! j = Some w -> zok (zcanc x) (sg j) w;
    zi_res : exists used bs, used ++ bs ≡ₚ hdone 0 (zws x) /\ zbuf x = sv <$> bs /\
      match zm x with
      | ZRecv c acc val => length used = c /\ tf (sv <$> used) = Accepts acc /\ (Z.of_nat c <= p)%Z /\ val = default zero (last (sv <$> used))
      | ZReturned v true => Z.of_nat (length used) = p /\ tf (sv <$> used) = Accepts v
      | ZReturned v false => Z.of_nat (length used) <= p /\ ((refused /\ (exists a, tf (sv <$> used) = Accepts a) /\ v = default zero (last (sv <$> used))) \/ tf (sv <$> used) = Refuses v)
      | ZPanicked => Z.of_nat (length used) <= p /\ tf (sv <$> used) = Panics
      | _ => used = []
      end%Z;
    zi_canc : zcanc x = true -> refused \/ exists v, zm x = ZReturned v false;
    zi_crash : zcrashed x = true -> exists i w, zws x !! i = Some w /\ w <> ZSent /\ tc (sg i) = Panics;
  }.

  Context (Hp : (1 <= p)%Z) (Hs : segments s p cs).

  Lemma zinv_init : zinv (zinit w0).
  Proof. split; simpl; try done. by exists [], []. Qed.
  Lemma zok_mono c seg w : zok c seg w -> zok true seg w.
  Proof. by destruct w. Qed.
  Lemma upd_zok (ws : list wk) c c' i w w' :
    ws !! i = Some w -> (forall j w, ws !! j = Some w -> zok c (sg j) w) -> (c = true -> c' = true) ->
    zok c' (sg i) w' ->
    forall j v, <[i := w']> ws !! j = Some v -> zok c' (sg j) v.
  Proof.
    intros Hi Hw Hc Hw' j v Hj. apply list_lookup_insert_Some in Hj as [(<- & <- & _)|[_ Hj]]; [done|].
    specialize (Hw j v Hj). destruct v; try exact Hw. by apply Hc.
  Qed.
  Lemma sg_in (x : st) i w : zinv x -> zws x !! i = Some w -> sg i ∈ cs.
  Proof.
    intros I Hi. apply lookup_lt_Some in Hi as Hl. pose proof (zi_main _ I) as I2.
    assert (i < k) as Hk. { destruct (zm x); [by rewrite I2 in Hi|destruct I2; lia|lia|lia|lia]. }
    destruct (lookup_lt_is_Some_2 cs i Hk) as [sg Hsg]. rewrite Hsg. simpl. by eapply elem_of_list_lookup_2.
  Qed.
  Lemma spawn_lt (j : nat) c (cs' : list (course T)) : drop j cs = c :: cs' -> j < k /\ sg j = c /\ drop (j + 1) cs = cs'.
  Proof.
    intros E. assert (Hc : cs !! j = Some c) by by rewrite <-(Nat.add_0_r j), <-lookup_drop, E.
    split; [by eapply lookup_lt_Some|]. split; [by rewrite Hc|]. by rewrite <-drop_drop, E.
  Qed.
  Lemma tc_step seg d x rest a o : elems seg = d ++ x :: rest -> tf d = Accepts a -> f a x = o ->
    match o with Some (a', true) => tf (d ++ [x]) = Accepts a' | Some (a', false) => tc seg = Refuses a' | None => tc seg = Panics end.
  Proof.
    intros E1 E2 E3.
    assert (Es : tf (d ++ [x]) = match o with Some (a', true) => Accepts a' | Some (a', false) => Refuses a' | None => Panics end) by (rewrite trying_app, E2; cbn; by rewrite E3).
    unfold try_course. rewrite E1. change (x :: rest) with ([x] ++ rest). rewrite app_assoc, (trying_app _ (d ++ [x])).
    destruct o as [[a' [|]]|]; by rewrite Es.
  Qed.

  Lemma zinv_step x y : zinv x -> hst x y -> zinv y.
  Proof using Hp Hs.
    intros I Hst. pose proof (sg_in x) as HIN. destruct Hst as [ws buf c w H0|ws buf c w H0|g it g' ws buf c w w' E|g g' ws buf c w w' E|n acc val a ws r buf c w Hc Ef
      |n acc val a ws r buf c w Hc Ef|n acc val ws r buf c w Hc Ef|n acc val ws buf w Hc|n acc val ws buf c w Hc
      |m ws buf c i x it it' acc w w' Hi E|m ws buf c i it acc w Hi E|m ws buf c i it it' acc w w' Hi E
      |m ws buf i x it acc w Hi|m ws buf i x it acc w Hi|m ws buf c i x it acc a w Hi Ef|m ws buf c i x it acc a w Hi Ef|m ws buf c i x it acc w Hi Ef
      |m ws buf c i w Hi|m ws buf c i acc w Hi Hl];
      pose proof I as [I2 I3 (used & bs & I4 & I4b & I4') I5 I6]; cbn [zm zws zbuf zcanc zcrashed zworld] in *.
    - subst ws. split; cbn [zm zws zbuf zcanc zcrashed]; try done; [split; [cbn; lia|by rewrite drop_0]|by exists used, bs|].
      intros H. destruct (I5 H) as [|[? ?]]; [by left|done].
    - lia.
    - destruct I2 as [I1 I2]. destruct (gruns_some _ _ _ _ _ _ I2 E) as (l & ls' & Ed & Hy & Hg). destruct (spawn_lt _ _ _ Ed) as (Hlt & Hsg & Hd).
      split; cbn [zm zws zbuf zcanc zcrashed].
      + rewrite app_length. cbn [length]. rewrite Hd. split; [lia|done].
      + intros j v Hj. apply lookup_app_Some in Hj as [Hj|[Hge Hj]]; [by apply I3|].
        apply list_lookup_singleton_Some in Hj as [Hj <-]. replace j with (length ws) by lia.
        exists [], (elems l). by rewrite Hsg.
      + exists used, bs. by rewrite hdone_app.
      + intros H. destruct (I5 H) as [|[? ?]]; [by left|done].
      + done.
    - destruct I2 as [I1 I2]. pose proof (gruns_none _ _ _ _ _ I2 E) as Ed. apply (f_equal length) in Ed. rewrite drop_length in Ed. cbn in Ed.
      split; cbn [zm zws zbuf zcanc zcrashed]; try done; [lia|exists used, bs; subst used; splits; try done; lia|].
      intros H. destruct (I5 H) as [|[? ?]]; [by left|done].
    - destruct I4' as (<- & Ea & Hcp & Hval). destruct bs as [|b bs]; [done|]. injection I4b as -> ->.
      split; cbn [zm zws zbuf zcanc zcrashed]; try done.
      + exists (used ++ [b]), bs. rewrite app_length, fmap_app, trying_app, Ea. cbn. rewrite Ef.
        splits; try done; [by rewrite <- app_assoc|lia|by rewrite last_snoc].
      + intros H. destruct (I5 H) as [|[? ?]]; [by left|done].
    - destruct I4' as (<- & Ea & Hcp & Hval). destruct bs as [|b bs]; [done|]. injection I4b as -> ->.
      split; cbn [zm zws zbuf zcanc zcrashed]; try done.
      + intros j v Hj. by eapply zok_mono, I3.
      + exists (used ++ [b]), bs. rewrite app_length, fmap_app, trying_app, Ea. cbn. rewrite Ef.
        splits; try done; [by rewrite <- app_assoc|lia|by right].
      + intros _. right. by eexists.
    - destruct I4' as (<- & Ea & Hcp & Hval). destruct bs as [|b bs]; [done|]. injection I4b as -> ->.
      split; cbn [zm zws zbuf zcanc zcrashed]; try done.
      + exists (used ++ [b]), bs. rewrite app_length, fmap_app, trying_app, Ea. cbn. rewrite Ef.
        splits; try done; [by rewrite <- app_assoc|lia].
      + intros H. destruct (I5 H) as [|[? ?]]; [by left|done].
    - destruct I4' as (<- & Ea & Hcp & ->). destruct (I5 eq_refl) as [Hb|[? ?]]; [|done].
      split; cbn [zm zws zbuf zcanc zcrashed]; try done; [|by left].
      exists used, bs. splits; try done. left. splits; [done|by eexists|done].
    - destruct I4' as (<- & Ea & Hcp & ->). split; cbn [zm zws zbuf zcanc zcrashed]; try done; [by exists used, bs|].
      intros H. destruct (I5 H) as [|[? ?]]; [by left|done].
    - destruct (I3 _ _ Hi) as (d & rest & Hd & Ed & Hy). destruct (runs_some _ _ _ _ _ _ _ Hy E) as (rest' & -> & Hy').
      split; cbn [zm zws zbuf zcanc zcrashed]; rewrite ?insert_length; try done.
      + destruct m; try done. by rewrite I2.
      + eapply upd_zok; [done..|]. exists d, rest'. done.
      + exists used, bs. rewrite (hdone_upd _ _ _ _ _ Hi) by done. done.
    - destruct (I3 _ _ Hi) as (d & rest & Hd & Ed & Hy). destruct (runs_panics _ _ _ _ Hy E) as [-> Hb].
      split; cbn [zm zws zbuf zcanc zcrashed]; try done; [by exists used, bs|]. intros _. exists i, (ZPull it acc). splits; [done|done|].
      unfold try_course. by rewrite Hd, app_nil_r, Ed, Hb.
    - destruct (I3 _ _ Hi) as (d & rest & Hd & Ed & Hy). destruct (runs_none _ _ _ _ _ _ Hy E) as [-> Hb]. rewrite app_nil_r in Hd.
      split; cbn [zm zws zbuf zcanc zcrashed]; rewrite ?insert_length; try done.
      + destruct m; try done. by rewrite I2.
      + eapply upd_zok; [done..|]. cbn. unfold try_course. by rewrite Hd, Ed, Hb.
      + exists used, bs. rewrite (hdone_upd _ _ _ _ _ Hi) by done. done.
    - split; cbn [zm zws zbuf zcanc zcrashed]; rewrite ?insert_length; try done.
      + destruct m; try done. by rewrite I2.
      + by eapply upd_zok.
      + exists used, bs. rewrite (hdone_upd _ _ _ _ _ Hi) by done. done.
    - pose proof (I3 _ _ Hi) as Hg. split; cbn [zm zws zbuf zcanc zcrashed]; rewrite ?insert_length; try done.
      + destruct m; try done. by rewrite I2.
      + by eapply upd_zok.
      + exists used, bs. rewrite (hdone_upd _ _ _ _ _ Hi) by done. done.
    - destruct (I3 _ _ Hi) as (d & rest & Hd & Ed & Hy). split; cbn [zm zws zbuf zcanc zcrashed]; rewrite ?insert_length; try done.
      + destruct m; try done. by rewrite I2.
      + eapply upd_zok; [done..|]. exists (d ++ [x]), rest. splits; [by rewrite <- app_assoc| |done]. exact (tc_step _ _ _ _ _ _ Hd Ed Ef).
      + exists used, bs. rewrite (hdone_upd _ _ _ _ _ Hi) by done. done.
    - destruct (I3 _ _ Hi) as (d & rest & Hd & Ed & Hy). split; cbn [zm zws zbuf zcanc zcrashed]; rewrite ?insert_length; try done.
      + destruct m; try done. by rewrite I2.
      + eapply upd_zok; [done..|]. exists a. exact (tc_step _ _ _ _ _ _ Hd Ed Ef).
      + exists used, bs. rewrite (hdone_upd _ _ _ _ _ Hi) by done. done.
    - destruct (I3 _ _ Hi) as (d & rest & Hd & Ed & Hy). split; cbn [zm zws zbuf zcanc zcrashed]; try done; [by exists used, bs|].
      intros _. exists i, (ZCall x it acc). splits; [done|done|]. exact (tc_step _ _ _ _ _ _ Hd Ed Ef).
    - pose proof (I3 _ _ Hi) as Hb. split; cbn [zm zws zbuf zcanc zcrashed]; rewrite ?insert_length; try done.
      + destruct m; try done. by rewrite I2.
      + by eapply upd_zok.
      + exists used, bs. rewrite (hdone_upd _ _ _ _ _ Hi) by done. done.
      + intros _. left. destruct Hb as [v Hb]. exists (sg i), v. split; [by eapply HIN|done].
    - pose proof (I3 _ _ Hi) as Hb. cbn in Hb. split; cbn [zm zws zbuf zcanc zcrashed]; rewrite ?insert_length; try done.
      + destruct m; try done. by rewrite I2.
      + eapply upd_zok; [done..|]. cbn. by exists acc.
      + exists used, (bs ++ [sg i]). splits; [|subst buf; rewrite fmap_app; cbn; unfold sv at 3; by rewrite Hb|done].
        rewrite (hdone_sent _ _ _ _ Hi) by done. rewrite app_assoc, I4. by rewrite Permutation_app_comm.
  Qed.
  Lemma zinv_reach x : rtc hst (zinit w0) x -> zinv x.
  Proof using Hp Hs.
    intros H. apply rtc_ind_r with (P := zinv) (z := x) in H; [done|apply zinv_init|].
    intros y z _ Hyz I. by eapply zinv_step.
  Qed.
  Lemma hdone_ok c j ws : (forall i w, ws !! i = Some w -> zok c (sg (j + i)) w) -> Forall sok (hdone j ws).
  Proof.
    revert j. induction ws as [|w ws IH]; intros j H; [constructor|]. simpl.
    assert (F : Forall sok (hdone (S j) ws)).
    { apply IH. intros i v Hv. replace (S j + i) with (j + S i) by lia. by apply H. }
    specialize (H 0 w eq_refl). rewrite Nat.add_0_r in H. destruct w; try done. by constructor.
  Qed.
  Lemma hcount ws : length (hdone 0 ws) + length (hrest 0 ws) = length ws.
  Proof.
    pose proof (Permutation_length (hdone_hrest 0 ws)) as HL. by rewrite app_length, fmap_length, seq_length in HL.
  Qed.
  (** a goroutine that has not ended can move, unless it waits to send into a full channel *)
  Lemma worker_moves m ws buf c w i v : zinv (ZState m ws buf c false w) -> ws !! i = Some v -> v <> ZSent -> v <> ZQuit ->
    (exists y, hst (ZState m ws buf c false w) y) \/ (exists a, v = ZSend a /\ (p <= Z.of_nat (length buf))%Z).
  Proof.
    intros [I2 I3 _ I5 _] Hi N1 N2. cbn [zm zws zbuf zcanc] in *. pose proof (I3 _ _ Hi) as Hv. destruct v as [it a|x it a|x it a| |a| |]; try done.
    - destruct Hv as (d & rest & _ & _ & Hy). left. destruct (runs_can _ _ _ w Hy) as [([y|] & it' & w' & E)|E]; eexists; [by eapply zs_pull|by eapply zs_end|by eapply zs_pull_boom].
    - left. destruct c; eexists; [by eapply zs_quit|by eapply zs_select].
    - left. destruct (f a x) as [[a' [|]]|] eqn:Ef; eexists; [by eapply zs_work|by eapply zs_work_fail|by eapply zs_work_boom].
    - left. eexists. by eapply zs_cancel.
    - destruct (decide (Z.of_nat (length buf) < p)%Z); [|right; exists a; split; [done|lia]]. left. eexists. by eapply zs_send.
  Qed.
  Lemma zprogress x : (p <= Z.of_nat k)%Z -> zinv x -> zcrashed x = false -> (exists y, hst x y) \/ (exists v ok, zm x = ZReturned v ok) \/ zm x = ZPanicked.
  Proof using Hp Hs.
    intros Hk I Hcr. pose proof I as [I2 I3 (used & bs & I4 & I4b & I4') I5 I6].
    destruct x as [m ws buf c cr w]; cbn [zm zws zbuf zcanc zcrashed] in *. subst cr. destruct m as [|g|n acc val|v ok|]; [| | |by eauto|by eauto].
    - left. eexists. apply zs_make. lia.
    - left. destruct I2 as [_ I2]. destruct (gruns_can _ _ w I2) as ([it|] & g' & w' & E); eexists; [by eapply zs_spawn|by eapply zs_spawned].
    - left. destruct I4' as (<- & Ea & Hcp & ->). destruct (decide (Z.of_nat (length used) = p)) as [|Hne].
      + eexists. by apply zs_return.
      + destruct c; [by eexists; apply zs_done|].
        destruct bs as [|b bs]; [|subst buf; cbn; destruct (f acc (sv b)) as [[a [|]]|] eqn:Ef; eexists; [by eapply zs_recv|by eapply zs_recv_fail|by eapply zs_recv_boom]].
        rewrite app_nil_r in I4. apply Permutation_length in I4. pose proof (hcount ws) as HL.
        assert (hrest 0 ws <> []) as Hu. { intros Hu. rewrite Hu in HL. cbn in HL. lia. }
        apply hrest_nonempty in Hu as (i & v & Hi & Hw).
        destruct (worker_moves _ _ _ _ _ i v I Hi) as [H|(a & -> & Hl)]; [by intros ->| |done|].
        * intros ->. by pose proof (I3 _ _ Hi) as Hq.
        * subst buf. cbn in Hl. lia.
  Qed.
  Lemma zno_leak x i v : (Z.of_nat k <= p)%Z -> zinv x -> zcrashed x = false -> zws x !! i = Some v ->
    (exists y, hst x y) \/ v = ZSent \/ v = ZQuit.
  Proof using Hp Hs.
    intros Hk I Hcr Hi. pose proof I as [I2 I3 (used & bs & I4 & I4b & I4') I5 I6].
    destruct x as [m ws buf c cr w]; cbn [zm zws zbuf zcanc zcrashed] in *. subst cr.
    assert (Hd : v = ZSent \/ v = ZQuit \/ (v <> ZSent /\ v <> ZQuit)) by (destruct v; auto).
    destruct Hd as [->|[->|[N1 N2]]]; [by right; left|by right; right|]. left.
    destruct (worker_moves _ _ _ _ _ i v I Hi N1 N2) as [[y Hy]|(a & -> & Hl)]; [by eexists|]. exfalso.
    pose proof (hrest_in 0 _ _ _ Hi eq_refl) as Hu. pose proof (hcount ws) as HL. apply Permutation_length in I4. rewrite app_length in I4.
    subst buf. rewrite fmap_length in Hl. destruct (hrest 0 ws); [done|]. cbn [length] in HL.
    assert (length ws <= k). { destruct m; [by rewrite I2 in Hi|destruct I2; lia|lia|lia|lia]. } lia.
  Qed.

  (** bounded schedules *)
  Definition ztogo (w : wk) (n : nat) : Prop :=
    match w with
    | ZPull it _ => exists rest b, runs it rest b /\ n = 3 * length rest + 2
    | ZGot _ it _ => exists rest b, runs it rest b /\ n = 3 * length rest + 4
    | ZCall _ it _ => exists rest b, runs it rest b /\ n = 3 * length rest + 3
    | ZSend _ | ZCancel => n = 1 | _ => n = 0 end.
  Definition zmains (x : st) : nat :=
    match zm x with
    | ZMake => sum_list_with (fun sg => 3 * length (elems sg) + 3) cs + Z.to_nat p + 4
    | ZSpawn _ => sum_list_with (fun sg => 3 * length (elems sg) + 3) (drop (length (zws x)) cs) + Z.to_nat p + 3
    | ZRecv c _ _ => (Z.to_nat p - c) + 2
    | ZReturned _ _ | ZPanicked => 1 end.
  Definition zmeasure (x : st) (n : nat) : Prop := exists ns, Forall2 ztogo (zws x) ns /\ n = zmains x + sum_list ns - (if zcrashed x then 1 else 0).
  Lemma zmeasure_dec x y n : zinv x -> zmeasure x n -> hst x y -> exists n', zmeasure y n' /\ n' < n.
  Proof using Hp Hs.
    intros I (ns & F & ->) Hst. destruct Hst as [ws buf c w H0|ws buf c w H0|g it g' ws buf c w w' E|g g' ws buf c w w' E|n acc val a ws r buf c w Hc Ef
      |n acc val a ws r buf c w Hc Ef|n acc val ws r buf c w Hc Ef|n acc val ws buf w Hc|n acc val ws buf c w Hc
      |m ws buf c i x it it' acc w w' Hi E|m ws buf c i it acc w Hi E|m ws buf c i it it' acc w w' Hi E
      |m ws buf i x it acc w Hi|m ws buf i x it acc w Hi|m ws buf c i x it acc a w Hi Ef|m ws buf c i x it acc a w Hi Ef|m ws buf c i x it acc w Hi Ef
      |m ws buf c i w Hi|m ws buf c i acc w Hi Hl];
      pose proof I as [I2 I3 (used & bs & I4 & I4b & I4') I5 I6]; unfold zmeasure, zmains; cbn [zm zws zbuf zcanc zcrashed zworld] in *.
    - subst ws. eexists. split; [exists ns; split; [done|reflexivity]|]. cbn [length]. rewrite drop_0. lia.
    - lia.
    - destruct I2 as [I1 I2]. destruct (gruns_some _ _ _ _ _ _ I2 E) as (l & ls' & Ed & Hy & Hg). destruct (spawn_lt _ _ _ Ed) as (Hlt & Hsg & Hd).
      eexists. split; [exists (ns ++ [3 * length (elems l) + 2]); split; [|reflexivity]|].
      + apply Forall2_app; [done|]. constructor; [|done]. cbn. eauto.
      + rewrite app_length. cbn [length]. rewrite Hd, Ed, sum_list_with_app. simpl. unfold sum_list. lia.
    - eexists. split; [exists ns; split; [done|reflexivity]|]. lia.
    - destruct I4' as (<- & _ & Hcp & _). eexists. split; [exists ns; split; [done|reflexivity]|]. lia.
    - destruct I4' as (<- & _ & Hcp & _). eexists. split; [exists ns; split; [done|reflexivity]|]. lia.
    - destruct I4' as (<- & _ & Hcp & _). eexists. split; [exists ns; split; [done|reflexivity]|]. lia.
    - eexists. split; [exists ns; split; [done|reflexivity]|]. lia.
    - eexists. split; [exists ns; split; [done|reflexivity]|]. lia.
    - destruct (Forall2_lookup_l _ _ _ _ _ F Hi) as (a & Ha & (rest2 & b & Hy & ->)). destruct (runs_some _ _ _ _ _ _ _ Hy E) as (rest' & -> & Hy').
      pose proof (sum_ins ns i _ (3 * length rest' + 4) Ha) as Hsum. cbn [length] in Hsum.
      eexists. split; [exists (<[i := 3 * length rest' + 4]> ns); split; [|reflexivity]|].
      + apply Forall2_insert; [done|]. cbn. eauto.
      + rewrite insert_length. destruct m; lia.
    - eexists. split; [exists ns; split; [done|reflexivity]|]. destruct m; lia.
    - destruct (Forall2_lookup_l _ _ _ _ _ F Hi) as (a & Ha & (rest2 & b & Hy & ->)). destruct (runs_none _ _ _ _ _ _ Hy E) as [-> ->].
      pose proof (sum_ins ns i _ 1 Ha) as Hsum. cbn [length] in Hsum.
      eexists. split; [exists (<[i := 1]> ns); split; [|reflexivity]|].
      + by apply Forall2_insert.
      + rewrite insert_length. destruct m; lia.
    - destruct (Forall2_lookup_l _ _ _ _ _ F Hi) as (a & Ha & (rest2 & b & Hy & ->)).
      pose proof (sum_ins ns i _ 0 Ha) as Hsum.
      eexists. split; [exists (<[i := 0]> ns); split; [|reflexivity]|].
      + by apply Forall2_insert.
      + rewrite insert_length. destruct m; lia.
    - destruct (Forall2_lookup_l _ _ _ _ _ F Hi) as (a & Ha & (rest2 & b & Hy & ->)).
      pose proof (sum_ins ns i _ (3 * length rest2 + 3) Ha) as Hsum.
      eexists. split; [exists (<[i := 3 * length rest2 + 3]> ns); split; [|reflexivity]|].
      + apply Forall2_insert; [done|]. cbn. eauto.
      + rewrite insert_length. destruct m; lia.
    - destruct (Forall2_lookup_l _ _ _ _ _ F Hi) as (b & Ha & (rest2 & b2 & Hy & ->)).
      pose proof (sum_ins ns i _ (3 * length rest2 + 2) Ha) as Hsum.
      eexists. split; [exists (<[i := 3 * length rest2 + 2]> ns); split; [|reflexivity]|].
      + apply Forall2_insert; [done|]. cbn. eauto.
      + rewrite insert_length. destruct m; lia.
    - destruct (Forall2_lookup_l _ _ _ _ _ F Hi) as (b & Ha & (rest2 & b2 & Hy & ->)).
      pose proof (sum_ins ns i _ 1 Ha) as Hsum.
      eexists. split; [exists (<[i := 1]> ns); split; [|reflexivity]|].
      + by apply Forall2_insert.
      + rewrite insert_length. destruct m; lia.
    - eexists. split; [exists ns; split; [done|reflexivity]|]. destruct m; lia.
    - destruct (Forall2_lookup_l _ _ _ _ _ F Hi) as (b & Ha & ->).
      pose proof (sum_ins ns i _ 0 Ha) as Hsum.
      eexists. split; [exists (<[i := 0]> ns); split; [|reflexivity]|].
      + by apply Forall2_insert.
      + rewrite insert_length. destruct m; lia.
    - destruct (Forall2_lookup_l _ _ _ _ _ F Hi) as (b & Ha & ->).
      pose proof (sum_ins ns i _ 0 Ha) as Hsum.
      eexists. split; [exists (<[i := 0]> ns); split; [|reflexivity]|].
      + by apply Forall2_insert.
      + rewrite insert_length. destruct m; lia.
  Qed.
  Lemma zbounded : exists b, forall m x, nsteps hst m (zinit w0) x -> m <= b.
  Proof using Hp Hs.
    assert (Gn : forall m x y n, nsteps hst m x y -> zinv x -> zmeasure x n -> m <= n).
    { intros m x y n H. revert n. induction H as [a|m' a b c H1 H2 IH]; intros n I M; [lia|].
      destruct (zmeasure_dec _ _ _ I M H1) as (n' & M' & Hlt). pose proof (IH _ (zinv_step _ _ I H1) M'). lia. }
    eexists. intros m x H. eapply Gn; [exact H|apply zinv_init|]. exists []. split; [constructor|reflexivity].
  Qed.

  (** what was returned *)
  Lemma sok_accepted used : Forall sok used -> accepted f init used (sv <$> used).
  Proof. induction 1 as [|c used [v Hv] _ IH]; cbn; constructor; [|done]. unfold sv. by rewrite Hv. Qed.
  Lemma zparts x used bs : zinv x -> length (zws x) = k -> used ++ bs ≡ₚ hdone 0 (zws x) ->
    used ++ (bs ++ hrest 0 (zws x)) ≡ₚ cs /\ Forall sok used.
  Proof.
    intros [I2 I3 _ I5 _] Hl I4. split.
    - rewrite <- all_sg, <- Hl at 1. rewrite app_assoc, I4. apply hdone_hrest.
    - pose proof (hdone_ok (zcanc x) 0 (zws x) ltac:(done)) as F. rewrite <- I4 in F. by apply Forall_app in F as [? _].
  Qed.
  Lemma zresult x : zinv x -> match zm x with ZReturned _ _ | ZPanicked => True | _ => False end ->
    exists used lost, used ++ lost ≡ₚ cs /\ accepted f init used (sv <$> used) /\
    match zm x with
    | ZReturned v true => Z.of_nat (length used) = p /\ tf (sv <$> used) = Accepts v
    | ZReturned v false => (Z.of_nat (length used) <= p)%Z /\
        (tf (sv <$> used) = Refuses v \/ refused /\ (exists a, tf (sv <$> used) = Accepts a) /\ v = default zero (last (sv <$> used)))
    | _ => (Z.of_nat (length used) <= p)%Z /\ tf (sv <$> used) = Panics
    end.
  Proof.
    intros I Hm. pose proof I as [I2 I3 (used & bs & I4 & I4b & I4') I5 I6]. destruct (zm x) as [| | |v ok|] eqn:Em; try done.
    - destruct (zparts x used bs I I2 I4) as [Pm Fo]. exists used, (bs ++ hrest 0 (zws x)). split; [done|]. split; [by apply sok_accepted|].
      destruct ok; [done|]. destruct I4' as [? [?|?]]; auto.
    - destruct (zparts x used bs I I2 I4) as [Pm Fo]. exists used, (bs ++ hrest 0 (zws x)). split; [done|]. by split; [apply sok_accepted|].
  Qed.
  (** as many segments as the parallelism says, one that panics: never true *)
  Lemma znot_true x v c : zinv x -> Z.of_nat k = p -> c ∈ cs -> tc c = Panics -> zm x <> ZReturned v true.
  Proof.
    intros I Hk Hc Hb Hm. destruct (zresult x I) as (used & lost & Pm & Ac & H); [by rewrite Hm|]. rewrite Hm in H. destruct H as [Hl _].
    assert (lost = []) as ->. { apply Permutation_length in Pm. rewrite app_length in Pm. destruct lost; [done|]. cbn in Pm. lia. }
    rewrite app_nil_r in Pm. rewrite <- Pm in Hc. apply elem_of_list_lookup in Hc as [i Hi]. destruct (Forall2_lookup_l _ _ _ _ _ Ac Hi) as (v' & _ & E). congruence.
  Qed.
  Lemma zcrash_in x : zinv x -> zcrashed x = true -> exists c, c ∈ cs /\ tc c = Panics.
  Proof. intros I Hc. destruct (zi_crash _ I Hc) as (i & w & Hi & _ & Hp'). exists (sg i). split; [by eapply sg_in|done]. Qed.
  Lemma zdone_panics x c : zinv x -> c ∈ cs -> tc c = Panics -> length (zws x) = k -> (forall i v, zws x !! i = Some v -> v = ZSent \/ v = ZQuit) -> zcanc x = true.
  Proof.
    intros I Hc Hb Hl Hd. apply elem_of_list_lookup in Hc as [i Hi]. destruct (lookup_lt_is_Some_2 (zws x) i) as [w Hw]; [rewrite Hl; by eapply lookup_lt_Some|].
    pose proof (zi_ws _ I i w Hw) as Hk. rewrite Hi in Hk. cbn in Hk. destruct (Hd i w Hw) as [->| ->]; [|done]. destruct Hk as [v Hv]. congruence.
  Qed.

  (** a return followed by the end of the process *)
  Definition brink (i : nat) (v : wk) : Prop := v <> ZSent /\
    forall m ws buf c w, ws !! i = Some v -> exists w', hst (ZState m ws buf c false w) (ZState m ws buf c true w').
  Lemma to_brink i rest : forall it a b m ws buf w, ws !! i = Some (ZPull it a) -> runs it rest b -> try_course f a (Course rest b) = Panics ->
    exists v w', rtc hst (ZState m ws buf false false w) (ZState m (<[i := v]> ws) buf false false w') /\ brink i v.
  Proof.
    induction rest as [|x rest IH]; intros it a b m ws buf w Hi Hy Hv.
    - cbn in Hv. destruct b; [|done]. exists (ZPull it a), w. rewrite list_insert_id by done. split; [done|]. split; [done|].
      intros m' ws' buf' c w' Hi'. exists w'. by eapply zs_pull_boom.
    - cbn in Hy. destruct (Hy w) as (it' & w1 & R1 & Hy'). pose proof (lookup_lt_Some _ _ _ Hi) as Li.
      assert (St : rtc hst (ZState m ws buf false false w) (ZState m (<[i := ZCall x it' a]> ws) buf false false w1)).
      { eapply rtc_l; [by eapply zs_pull|]. eapply rtc_l; [eapply zs_select; by apply list_lookup_insert|]. by rewrite list_insert_insert. }
      cbn in Hv. unfold try_course in Hv. cbn in Hv. destruct (f a x) as [[a' [|]]|] eqn:Ef.
      + destruct (IH it' a' b m (<[i := ZPull it' a']> ws) buf (zcall e a x w1)) as (v & w2 & H1 & H2); [by apply list_lookup_insert|done|exact Hv|].
        exists v, w2. rewrite list_insert_insert in H1. split; [|done]. etrans; [exact St|]. eapply rtc_l; [|exact H1].
        pose proof (zs_work zero s p init f e m (<[i := ZCall x it' a]> ws) buf false i x it' a a' w1) as Z. rewrite list_insert_insert in Z.
        apply Z; [by apply list_lookup_insert|done].
      + done.
      + exists (ZCall x it' a), w1. split; [done|]. split; [done|]. intros m' ws' buf' c w' Hi'. eexists. by eapply zs_work_boom.
  Qed.
  Lemma to_cancel i rest : forall it a b m ws buf w v, ws !! i = Some (ZPull it a) -> runs it rest b -> try_course f a (Course rest b) = Refuses v ->
    exists w', rtc hst (ZState m ws buf false false w) (ZState m (<[i := ZQuit]> ws) buf true false w').
  Proof.
    induction rest as [|x rest IH]; intros it a b m ws buf w v Hi Hy Hv.
    - cbn in Hv. by destruct b.
    - cbn in Hy. destruct (Hy w) as (it' & w1 & R1 & Hy'). pose proof (lookup_lt_Some _ _ _ Hi) as Li.
      assert (St : rtc hst (ZState m ws buf false false w) (ZState m (<[i := ZCall x it' a]> ws) buf false false w1)).
      { eapply rtc_l; [by eapply zs_pull|]. eapply rtc_l; [eapply zs_select; by apply list_lookup_insert|]. by rewrite list_insert_insert. }
      unfold try_course in Hv. cbn in Hv. destruct (f a x) as [[a' [|]]|] eqn:Ef.
      + destruct (IH it' a' b m (<[i := ZPull it' a']> ws) buf (zcall e a x w1) v) as (w2 & H1); [by apply list_lookup_insert|done|exact Hv|].
        exists w2. rewrite list_insert_insert in H1. etrans; [exact St|]. eapply rtc_l; [|exact H1].
        pose proof (zs_work zero s p init f e m (<[i := ZCall x it' a]> ws) buf false i x it' a a' w1) as Z. rewrite list_insert_insert in Z.
        apply Z; [by apply list_lookup_insert|done].
      + exists (zcall e a x w1). etrans; [exact St|].
        pose proof (zs_work_fail zero s p init f e m (<[i := ZCall x it' a]> ws) buf false i x it' a a' w1) as Z1.
        pose proof (zs_cancel zero s p init f e m (<[i := ZCancel]> ws) buf false i (zcall e a x w1)) as Z2. rewrite list_insert_insert in Z1, Z2.
        eapply rtc_l; [apply Z1; [by apply list_lookup_insert|done]|]. apply rtc_once. apply Z2. by apply list_lookup_insert.
      + done.
  Qed.
  Lemma to_spawned cs' : forall g ws w, gruns g cs' -> exists its w', rtc hst (ZState (ZSpawn g) ws [] false false w)
    (ZState (ZRecv 0 init zero) (ws ++ ((fun it => ZPull it init) <$> its)) [] false false w') /\ Forall2 (fun it c => runs it (elems c) (booms c)) its cs'.
  Proof.
    induction cs' as [|c cs' IH]; intros g ws w Hg; cbn in Hg.
    - destruct (Hg w) as (g' & w' & R). exists [], w'. rewrite app_nil_r. split; [|constructor]. apply rtc_once. by eapply zs_spawned.
    - destruct (Hg w) as (it & g' & w1 & R & Hy & Hg'). destruct (IH g' (ws ++ [ZPull it init]) w1 Hg') as (its & w2 & H1 & H2).
      exists (it :: its), w2. split; [|by constructor]. eapply rtc_l; [by eapply zs_spawn|]. by rewrite <-app_assoc in H1.
  Qed.
  Lemma crash_after_return c1 c2 v : c1 ∈ cs -> c2 ∈ cs -> tc c1 = Refuses v -> tc c2 = Panics ->
    exists x y, rtc hst (zinit w0) x /\ zm x = ZReturned zero false /\ zcrashed x = false /\ rtc hst x y /\ zm y = ZReturned zero false /\ zcrashed y = true.
  Proof using Hp Hs.
    intros H1 H2 E1 E2. apply elem_of_list_lookup in H1 as [i1 H1], H2 as [i2 H2].
    assert (Ne : i1 <> i2). { intros ->. rewrite H1 in H2. injection H2 as ->. congruence. }
    destruct (to_spawned cs (activate s p) [] w0 Hs) as (its & w1 & R & F). cbn [app] in R.
    set (ws := (fun it => ZPull it init) <$> its) in *.
    destruct (Forall2_lookup_r _ _ _ _ _ F H1) as (it1 & Hi1 & Y1). destruct (Forall2_lookup_r _ _ _ _ _ F H2) as (it2 & Hi2 & Y2).
    assert (W1 : ws !! i1 = Some (ZPull it1 init)) by (unfold ws; by rewrite list_lookup_fmap, Hi1).
    assert (W2 : ws !! i2 = Some (ZPull it2 init)) by (unfold ws; by rewrite list_lookup_fmap, Hi2).
    destruct (to_brink i2 (elems c2) it2 init (booms c2) (ZRecv 0 init zero) ws [] w1 W2 Y2) as (vb & w2 & R2 & Nb & Hb); [by destruct c2|].
    destruct (to_cancel i1 (elems c1) it1 init (booms c1) (ZRecv 0 init zero) (<[i2 := vb]> ws) [] w2 v) as (w3 & R3); [by rewrite list_lookup_insert_ne by done|done|by destruct c1|].
    set (ws3 := <[i1 := ZQuit]> (<[i2 := vb]> ws)) in *.
    assert (W3 : ws3 !! i2 = Some vb). { unfold ws3. rewrite list_lookup_insert_ne by done. apply list_lookup_insert. by eapply lookup_lt_Some. }
    destruct (Hb (ZReturned zero false) ws3 [] true w3 W3) as [w4 St].
    exists (ZState (ZReturned zero false) ws3 [] true false w3), (ZState (ZReturned zero false) ws3 [] true true w4). splits; try done; [|by apply rtc_once].
    eapply rtc_l; [apply zs_make; lia|]. etrans; [exact R|]. etrans; [exact R2|]. etrans; [exact R3|]. apply rtc_once. apply zs_done. lia.
  Qed.
End tf.

(** parallelism 0 *)
Lemma tryP_seg_ok {U T} (f : T -> T -> option (T * bool)) l : forall (it : iter U T) b acc w, runs it l b -> exists n,
  forall m m', n <= m -> n <= m' -> tryP_seg f m it acc m' w = Ok (tried f acc l, result (try_course f acc (Course l b))).
Proof.
  induction l as [|x l IH]; intros it b acc w H; cbn in H.
  - destruct b.
    + destruct (H w) as [n Hn]. exists (S n). intros [|m] m' L1 L2; [lia|]. cbn. by rewrite Hn by lia.
    + destruct (H w) as (it' & w' & n & Hn). exists (S n). intros [|m] m' L1 L2; [lia|]. cbn. by rewrite Hn by lia.
  - destruct (H w) as (it' & w' & [n Hn] & H'). destruct (f acc x) as [[a [|]]|] eqn:Ef.
    + destruct (IH it' b a w' H') as [n2 Hn2]. exists (S (n + n2)). intros [|m] m' L1 L2; [lia|]. cbn. rewrite Hn by lia. rewrite Ef, Hn2 by lia.
      unfold try_course. cbn. by rewrite Ef.
    + exists (S n). intros [|m] m' L1 L2; [lia|]. cbn. rewrite Hn by lia. unfold try_course. cbn. by rewrite Ef.
    + exists (S n). intros [|m] m' L1 L2; [lia|]. cbn. rewrite Hn by lia. unfold try_course. cbn. by rewrite Ef.
Qed.
