From Verif Require Import Base Stream_Model Stream_Spec ParPipe_Proofs PanicPar_Model PanicPar_Spec PanicPar_Proofs.

Section collect.
  Context {U T : Type} (consume : T -> U -> option U) (bad : T -> Prop) (s : stream U T) (w0 : world U) (cs : list (course T)).
  (** whether the consumer panics depends on the element alone *)
  Hypothesis Hbad : forall x u, bad x <-> consume x u = None.
  Hypothesis Hsegs : segments s (parallelism s) cs.
  Notation k := (length cs).
  Notation go := (ystep (U:=U) consume).
  Notation wk := (yworker U T).
  Definition fails (c : course T) : Prop := booms c = true \/ Exists bad (elems c).

  Definition alive (w : wk) : bool := match w with YGone => false | _ => true end.
  Definition count (ws : list wk) : nat := sum_list_with (fun w => if alive w then 1 else 0) ws.
  Lemma count_insert ws i w w' : ws !! i = Some w -> count (<[i := w']> ws) + (if alive w then 1 else 0) = count ws + (if alive w' then 1 else 0).
  Proof. unfold count. revert i. induction ws as [|z ws IH]; intros [|i] Hi; simpl in *; try done; [injection Hi as ->; lia|]. specialize (IH i Hi). lia. Qed.
  Lemma count_zero ws i w : count ws = 0 -> ws !! i = Some w -> alive w = false.
  Proof. unfold count. revert i. induction ws as [|z ws IH]; intros [|i] H Hi; simpl in *; try done; [injection Hi as ->; destruct (alive w); [lia|done]|]. apply (IH i); [lia|done]. Qed.

  Definition wok (c : course T) (h : list T) (w : wk) : Prop :=
    match w with
    | YLoop it => exists rest, elems c = h ++ rest /\ runs it rest (booms c)
    | YEmit x it => exists rest, elems c = h ++ x :: rest /\ runs it rest (booms c)
    | YEnd | YGone => elems c = h /\ booms c = false
    end.
  Record inv (x : ystate U T) : Prop := {
    i_main : match ym x with YSpawn g => length (yws x) <= k /\ gruns g (drop (length (yws x)) cs) | _ => length (yws x) = k end;
    i_ws : forall j w, yws x !! j = Some w -> exists c, cs !! j = Some c /\ wok c (handed j (ylog x)) w;
    i_good : forall j e, e ∈ handed j (ylog x) -> ~ bad e;
    i_none : forall j, length (yws x) <= j -> handed j (ylog x) = [];
    i_wg : ywg x = count (yws x);
    i_ret : ym x = YReturned -> ywg x = 0;
    i_crash : ycrashed x = true -> exists c, c ∈ cs /\ fails c;
  }.
  Lemma inv_init : inv (yinit s w0).
  Proof. split; cbn; try done; [split; [lia|exact Hsegs]|]. intros j e He. by apply elem_of_nil in He. Qed.
  Lemma handed_snoc j i x (lg : list (nat * T)) : handed j (lg ++ [(i, x)]) = handed j lg ++ (if decide (i = j) then [x] else []).
  Proof. unfold handed. rewrite filter_app, fmap_app. f_equal. rewrite filter_cons. cbn. by case_decide. Qed.
  Lemma inv_upd m ws n w lg i w1 w2 cr w' (x := YState m ws n cr w lg) : inv x -> ws !! i = Some w1 -> alive w1 = true -> alive w2 = true ->
    (forall c, cs !! i = Some c -> wok c (handed i lg) w1 -> wok c (handed i lg) w2) -> inv (YState m (<[i := w2]> ws) n cr w' lg).
  Proof.
    subst x. intros [I1 I2 I3 I4 I5 I6 I7] Hi A1 A2 Hw; cbn [ym yws ywg ycrashed yworld ylog] in *. split; cbn [ym yws ywg ycrashed yworld ylog]; rewrite ?insert_length; try done.
    - intros j w3 Hj. destruct (decide (j = i)) as [->|Ne].
      + rewrite list_lookup_insert in Hj by by eapply lookup_lt_Some. injection Hj as <-. destruct (I2 i w1 Hi) as (c & Hc & Hk). exists c. split; [done|]. by apply Hw.
      + rewrite list_lookup_insert_ne in Hj by done. by apply I2.
    - pose proof (count_insert ws i w1 w2 Hi) as C. rewrite A1, A2 in C. lia.
  Qed.
  Lemma inv_step x y : inv x -> go x y -> inv y.
  Proof using Hbad.
    intros I St. pose proof I as [I1 I2 I3 I4 I5 I6 I7].
    destruct St as [g it g' ws n w w' lg Hg|g g' ws n w w' lg Hg|ws w lg|m ws n w w' lg i it it' x Hi Hr|m ws n w lg i it Hi Hr|m ws n w w' lg i it it' Hi Hr
      |m ws n w lg i x it Hi|m ws n w lg i Hi]; cbn [ym yws ywg ycrashed yworld ylog] in *.
    - destruct I1 as [L HG]. destruct (gruns_some _ _ _ _ _ _ HG Hg) as (c & cs' & Ec & HY & HG').
      assert (Hc : cs !! length ws = Some c) by by rewrite <-(Nat.add_0_r (length ws)), <-lookup_drop, Ec.
      pose proof (lookup_lt_Some _ _ _ Hc). split; cbn [ym yws ywg ycrashed yworld ylog]; try done.
      + rewrite app_length. cbn. split; [lia|]. rewrite <-drop_drop, Ec. exact HG'.
      + intros j w1 [Hj|[Hj1 Hj2]]%lookup_app_Some; [by apply I2|]. destruct (j - length ws) eqn:E; cbn in Hj2; [|by destruct n0]. injection Hj2 as <-.
        exists c. replace j with (length ws) by lia. split; [done|]. exists (elems c). by rewrite I4.
      + intros j Hj. rewrite app_length in Hj. cbn in Hj. apply I4. lia.
      + unfold count in *. rewrite sum_list_with_app. cbn. lia.
    - destruct I1 as [L HG]. pose proof (gruns_none _ _ _ _ _ HG Hg) as Ed. assert (length (drop (length ws) cs) = 0) as El by by rewrite Ed.
      rewrite drop_length in El. split; cbn [ym yws ywg ycrashed yworld ylog]; try done; lia.
    - split; cbn [ym yws ywg ycrashed yworld ylog]; done.
    - eapply inv_upd; [exact I|exact Hi|done|done|]. cbn. intros c Hc (rest & E & HY). destruct (runs_some _ _ _ _ _ _ _ HY Hr) as (rest' & -> & HY'). eauto.
    - split; cbn [ym yws ywg ycrashed yworld ylog]; try done. intros _. destruct (I2 i _ Hi) as (c & Hc & rest & E & HY). destruct (runs_panics _ _ _ _ HY Hr) as (-> & Hb).
      exists c. split; [by eapply elem_of_list_lookup_2|by left].
    - eapply inv_upd; [exact I|exact Hi|done|done|]. cbn. intros c Hc (rest & E & HY). destruct (runs_none _ _ _ _ _ _ HY Hr) as (-> & Hb).
      by rewrite app_nil_r in E.
    - destruct (I2 i _ Hi) as (c & Hc & rest & E & HY). pose proof (lookup_lt_Some _ _ _ Hi) as Li. destruct (consume x (usr w)) as [u|] eqn:Ec.
      + split; cbn [ym yws ywg ycrashed yworld ylog]; rewrite ?insert_length; try done.
        * intros j w3 Hj. rewrite handed_snoc. destruct (decide (j = i)) as [->|Ne].
          -- rewrite list_lookup_insert in Hj by done. injection Hj as <-. exists c. split; [done|]. rewrite decide_True by done.
             exists rest. by rewrite <-app_assoc.
          -- rewrite list_lookup_insert_ne in Hj by done. rewrite decide_False by done. rewrite app_nil_r. by apply I2.
        * intros j e. rewrite handed_snoc, elem_of_app. intros [He|He]; [by eapply I3|]. case_decide; [|by apply elem_of_nil in He].
          apply elem_of_list_singleton in He as ->. rewrite (Hbad x (usr w)). by rewrite Ec.
        * intros j Hj. rewrite handed_snoc, decide_False by lia. by rewrite I4.
        * pose proof (count_insert ws i _ (YLoop it) Hi) as C. cbn in C. lia.
      + split; cbn [ym yws ywg ycrashed yworld ylog]; try done. intros _. exists c. split; [by eapply elem_of_list_lookup_2|]. right. rewrite E. apply Exists_app. right. constructor.
        by rewrite (Hbad x (usr w)).
    - split; cbn [ym yws ywg ycrashed yworld ylog]; rewrite ?insert_length; try done.
      + intros j w3 Hj. destruct (decide (j = i)) as [->|Ne].
        * rewrite list_lookup_insert in Hj by by eapply lookup_lt_Some. injection Hj as <-. exact (I2 i _ Hi).
        * rewrite list_lookup_insert_ne in Hj by done. by apply I2.
      + pose proof (count_insert ws i _ YGone Hi) as C. cbn in C. lia.
      + intros E. specialize (I6 E). lia.
  Qed.
  Lemma inv_reach x : rtc go (yinit s w0) x -> inv x.
  Proof using Hbad Hsegs.
    intros H. cut (forall a b, rtc go a b -> inv a -> inv b); [intros G; eapply G; [exact H|apply inv_init]|].
    clear H. intros a b H. induction H as [|a b c Hab _ IH]; [done|]. intros I. apply IH. by eapply inv_step.
  Qed.
  Lemma handed_prefix x j : inv x -> handed j (ylog x) `prefix_of` default [] (elems <$> cs !! j).
  Proof.
    intros I. destruct (yws x !! j) as [w|] eqn:Ew.
    - destruct (i_ws _ I j w Ew) as (c & Hc & Hw). rewrite Hc. cbn. destruct w; cbn in Hw.
      + destruct Hw as (rest & -> & _). by exists rest.
      + destruct Hw as (rest & -> & _). by eexists.
      + destruct Hw as [-> _]. done.
      + destruct Hw as [-> _]. done.
    - rewrite (i_none _ I j); [apply prefix_nil|]. by apply lookup_ge_None.
  Qed.
  Lemma returned_ok x : inv x -> ym x = YReturned -> Forall (fun c => ~ fails c) cs /\ forall j c, cs !! j = Some c -> handed j (ylog x) = elems c.
  Proof.
    intros I E. pose proof (i_ret _ I E) as Hz. rewrite (i_wg _ I) in Hz. pose proof (i_main _ I) as L. rewrite E in L.
    assert (G : forall j c, cs !! j = Some c -> elems c = handed j (ylog x) /\ booms c = false).
    { intros j c Hc. destruct (lookup_lt_is_Some_2 (yws x) j) as [w Hw]; [rewrite L; by eapply lookup_lt_Some|].
      pose proof (count_zero _ _ _ Hz Hw) as A. destruct w; try done. destruct (i_ws _ I j _ Hw) as (c' & Hc' & Hk). by simplify_eq. }
    split; [|intros j c Hc; by destruct (G j c Hc)]. apply Forall_lookup. intros j c Hc [Hb|Hb]; destruct (G j c Hc) as [G1 G2]; [congruence|].
    apply Exists_exists in Hb as (e & He & Hb). rewrite G1 in He. by destruct (i_good _ I j e He).
  Qed.
  Lemma worker_steps x i w : inv x -> ycrashed x = false -> yws x !! i = Some w -> alive w = true -> exists y, go x y.
  Proof.
    intros I Hcr Hi Hu. destruct (i_ws _ I i w Hi) as (c & Hc & Hw). destruct x as [m ws n cr w1 lg]; cbn [ym yws ywg ycrashed yworld ylog] in *. subst cr. destruct w as [it|v it| |]; [| | |done].
    - destruct Hw as (rest & Ed & HY). destruct (runs_can it rest (booms c) w1 HY) as [(o & it' & w' & Hr)|Hr].
      + destruct o as [v|]; eexists; [by eapply ys_pull|by eapply ys_exhausted].
      + eexists. by eapply ys_boom.
    - eexists. by eapply ys_emit.
    - eexists. by eapply ys_done.
  Qed.
  Lemma progress x : inv x -> ycrashed x = false -> (exists y, go x y) \/ ym x = YReturned.
  Proof.
    intros I Hcr. destruct (decide (Exists (fun w => alive w = true) (yws x))) as [E|E].
    { apply Exists_exists in E as (w & Hw & Hu). apply elem_of_list_lookup in Hw as [i Hi]. left. by eapply worker_steps. }
    destruct (ym x) as [g| |] eqn:Em; [| |by right].
    - left. pose proof (i_main _ I) as Im. rewrite Em in Im. destruct Im as [L HG]. destruct (gruns_can g _ (yworld x) HG) as (o & g' & w' & Hg).
      destruct x as [m ws n cr w lg]; cbn [ym yws ywg ycrashed yworld ylog] in *. subst. destruct o as [it|]; eexists; [by eapply ys_spawn|by eapply ys_spawned].
    - left. assert (Hz : ywg x = 0).
      { rewrite (i_wg _ I). clear -E. unfold count. induction (yws x) as [|w ws IH]; [done|]. rewrite Exists_cons in E. cbn. rewrite IH by naive_solver.
        destruct (alive w) eqn:A; [|done]. naive_solver. }
      destruct x as [m ws n cr w lg]; cbn [ym yws ywg ycrashed yworld ylog] in *. subst. eexists. apply ys_wait.
  Qed.
  Definition togo (w : wk) (n : nat) : Prop :=
    match w with
    | YLoop it => exists rest b, runs it rest b /\ n = 2 * length rest + 2
    | YEmit _ it => exists rest b, runs it rest b /\ n = 2 * length rest + 3
    | YEnd => n = 1 | YGone => n = 0 end.
  Definition mains (x : ystate U T) : nat :=
    match ym x with
    | YSpawn _ => sum_list_with (fun c => 2 * length (elems c) + 3) (drop (length (yws x)) cs) + 3
    | YWait => 2
    | YReturned => 1 end.
  Definition measure (x : ystate U T) (n : nat) : Prop :=
    exists ns, Forall2 togo (yws x) ns /\ n = mains x + sum_list ns - (if ycrashed x then 1 else 0).
  Lemma sum_insert ns i a b : ns !! i = Some a -> sum_list (<[i := b]> ns) + a = sum_list ns + b.
  Proof. revert i. induction ns as [|z ns IH]; intros [|i] Hi; simpl in *; try done; [injection Hi as ->; lia|]. specialize (IH i Hi). lia. Qed.
  Lemma measure_dec x y n : inv x -> measure x n -> go x y -> exists n', measure y n' /\ n' < n.
  Proof.
    intros [I1 I2 I3 I4 I5 I6 I7] (ns & F & ->) St. destruct St as [g it g' ws n w w' lg Hg|g g' ws n w w' lg Hg|ws w lg|m ws n w w' lg i it it' x Hi Hr|m ws n w lg i it Hi Hr|m ws n w w' lg i it it' Hi Hr
      |m ws n w lg i x it Hi|m ws n w lg i Hi]; unfold measure, mains; cbn [ym yws ywg ycrashed yworld ylog] in *.
    - destruct I1 as [L HG]. destruct (gruns_some _ _ _ _ _ _ HG Hg) as (c & cs' & Ec & HY & HG').
      eexists. split; [exists (ns ++ [2 * length (elems c) + 2]); split; [|reflexivity]|].
      + apply Forall2_app; [done|]. constructor; [|done]. cbn. eauto.
      + rewrite app_length. cbn [length]. rewrite <-drop_drop, Ec, sum_list_with_app. change (drop 1 (c :: cs')) with cs'. simpl. unfold sum_list. lia.
    - eexists. split; [exists ns; split; [done|reflexivity]|]. lia.
    - eexists. split; [exists ns; split; [done|reflexivity]|]. lia.
    - destruct (Forall2_lookup_l _ _ _ _ _ F Hi) as (a & Ha & (rest2 & b & Hy & ->)). destruct (runs_some _ _ _ _ _ _ _ Hy Hr) as (rest' & -> & Hy').
      pose proof (sum_insert ns i _ (2 * length rest' + 3) Ha) as Hsum. cbn [length] in Hsum.
      eexists. split; [exists (<[i := 2 * length rest' + 3]> ns); split; [|reflexivity]|].
      + apply Forall2_insert; [done|]. cbn. eauto.
      + rewrite insert_length. destruct m; lia.
    - eexists. split; [exists ns; split; [done|reflexivity]|]. destruct m; lia.
    - destruct (Forall2_lookup_l _ _ _ _ _ F Hi) as (a & Ha & (rest2 & b & Hy & ->)). destruct (runs_none _ _ _ _ _ _ Hy Hr) as [-> ->].
      pose proof (sum_insert ns i _ 1 Ha) as Hsum. cbn [length] in Hsum.
      eexists. split; [exists (<[i := 1]> ns); split; [|reflexivity]|].
      + by apply Forall2_insert.
      + rewrite insert_length. destruct m; lia.
    - destruct (Forall2_lookup_l _ _ _ _ _ F Hi) as (a & Ha & (rest2 & b & Hy & ->)). destruct (consume x (usr w)) as [u|]; cbn [ym yws ycrashed].
      + pose proof (sum_insert ns i _ (2 * length rest2 + 2) Ha) as Hsum.
        eexists. split; [exists (<[i := 2 * length rest2 + 2]> ns); split; [|reflexivity]|].
        * apply Forall2_insert; [done|]. cbn. eauto.
        * rewrite insert_length. destruct m; lia.
      + eexists. split; [exists ns; split; [done|reflexivity]|]. destruct m; lia.
    - destruct (Forall2_lookup_l _ _ _ _ _ F Hi) as (a & Ha & ->).
      pose proof (sum_insert ns i _ 0 Ha) as Hsum. cbn [length] in Hsum.
      eexists. split; [exists (<[i := 0]> ns); split; [|reflexivity]|].
      + by apply Forall2_insert.
      + rewrite insert_length. destruct m; lia.
  Qed.
  Lemma bounded : exists b, forall m x, nsteps go m (yinit s w0) x -> m <= b.
  Proof using Hbad Hsegs.
    assert (Gn : forall m x y n, nsteps go m x y -> inv x -> measure x n -> m <= n).
    { intros m x y n H. revert n. induction H as [a|m' a b c H1 H2 IH]; intros n I M; [lia|].
      destruct (measure_dec _ _ _ I M H1) as (n' & M' & Hlt). pose proof (IH _ (inv_step _ _ I H1) M'). lia. }
    eexists. intros m x H. eapply Gn; [exact H|apply inv_init|]. exists []. split; [constructor|reflexivity].
  Qed.
End collect.
