From Verif Require Import Base Stream_Model Stream_Spec ParPipe_Proofs PanicPar_Model PanicPar_Spec PanicPar_Proofs.

Lemma folding_app {T R} (f : R -> T -> option R) d : forall acc rest,
  (folding f acc (d ++ rest)).2 = match (folding f acc d).2 with Some a => (folding f a rest).2 | None => None end.
Proof.
  induction d as [|x d IH]; intros acc rest; [done|]. cbn. destruct (f acc x) as [a|]; [|done]. specialize (IH a rest).
  destruct (folding f a (d ++ rest)), (folding f a d). cbn in *. exact IH.
Qed.
Lemma folding_snoc {T R} (f : R -> T -> option R) d acc a x : (folding f acc d).2 = Some a -> (folding f acc (d ++ [x])).2 = f a x.
Proof. intros H. rewrite folding_app, H. cbn. by destruct (f a x). Qed.
Lemma combining_snoc {R} (comb : R -> R -> option R) rs : forall acc a r, combining comb acc rs = Some a -> combining comb acc (rs ++ [r]) = comb a r.
Proof.
  induction rs as [|x rs IH]; intros acc a r; cbn; [intros [= ->]; by destruct (comb a r)|]. destruct (comb acc x) as [b|]; [|done]. apply IH.
Qed.

Section fold.
  Context {U T R : Type} (p : Z) (init : R) (f : R -> T -> option R) (comb : R -> R -> option R) (s : stream U T) (w0 : world U) (cs : list (course T)).
  Notation k := (length cs).
  Notation out := (fold_course f init).
  Notation go := (xstep (U:=U) p init f comb).
  Notation wk := (xworker U T R).

  Fixpoint dres (ws : list wk) (cs : list (course T)) : list R :=
    match ws, cs with
    | XDone :: ws, c :: cs => match out c with Some a => a :: dres ws cs | None => dres ws cs end
    | _ :: ws, _ :: cs => dres ws cs
    | _, _ => []
    end.
  Lemma dres_nil ws : dres ws [] = [].
  Proof. by destruct ws as [|[] ws]. Qed.
  Lemma dres_snoc ws it a : forall cs', dres (ws ++ [XRun it a]) cs' = dres ws cs'.
  Proof. induction ws as [|w ws IH]; intros [|c cs']; rewrite ?dres_nil; [done|by destruct cs'|done|]. cbn. by rewrite IH. Qed.
  Definition undone (w : wk) : bool := match w with XDone => false | _ => true end.
  Lemma dres_upd ws : forall cs' i w w', ws !! i = Some w -> undone w = true -> undone w' = true -> dres (<[i := w']> ws) cs' = dres ws cs'.
  Proof.
    induction ws as [|a ws IH]; intros [|c cs'] i w w' Hi Hu Hu'; [done|done|by rewrite !dres_nil|]. destruct i as [|i]; simpl in *.
    - injection Hi as ->. by destruct w, w'.
    - by rewrite (IH cs' i w w').
  Qed.
  Lemma dres_done ws : forall cs' i w c a, ws !! i = Some w -> undone w = true -> cs' !! i = Some c -> out c = Some a ->
    dres (<[i := XDone]> ws) cs' ≡ₚ a :: dres ws cs'.
  Proof.
    induction ws as [|w0' ws IH]; intros [|c0 cs'] [|i] w c a Hi Hu Hc Ho; simpl in *; try done.
    - injection Hi as ->. injection Hc as ->. rewrite Ho. by destruct w.
    - pose proof (IH cs' i w c a Hi Hu Hc Ho) as P. destruct w0'; try done. destruct (out c0); [|done]. rewrite P. apply Permutation_swap.
  Qed.
  Lemma dres_sub ws : forall cs', dres ws cs' `sublist_of` omap out cs'.
  Proof.
    induction ws as [|w ws IH]; intros [|c cs']; rewrite ?dres_nil; try apply sublist_nil_l. simpl.
    specialize (IH cs'). destruct w, (out c); try done; by constructor.
  Qed.
  Lemma dres_full ws : (forall i w, ws !! i = Some w -> undone w = false) -> length ws = k -> dres ws cs = omap out cs.
  Proof.
    generalize cs. induction ws as [|w ws IH]; intros [|c cs'] Hu Hl; cbn in *; try done. specialize (Hu 0 w eq_refl) as Hw. destruct w; try done.
    rewrite IH; [done| |lia]. intros i w Hi. by apply (Hu (S i)).
  Qed.
  Lemma dres_len ws : forall cs' i w, ws !! i = Some w -> undone w = true -> length ws <= length cs' -> length (dres ws cs') < length cs'.
  Proof.
    assert (G : forall ws cs', length (dres ws cs') <= length cs').
    { clear. intros ws cs'. pose proof (sublist_length _ _ (dres_sub ws cs')). assert (length (omap out cs') <= length cs'); [|lia].
      clear. induction cs' as [|c cs' IH]; cbn; [lia|]. destruct (out c); cbn; lia. }
    induction ws as [|a ws IH]; intros [|c cs'] [|i] w Hi Hu Hl; cbn in *; try done; try lia.
    - injection Hi as ->. specialize (G ws cs'). destruct w; try done; lia.
    - specialize (IH cs' i w Hi Hu ltac:(lia)). destruct a, (out c); cbn; lia.
  Qed.
  Lemma omap_missing c : c ∈ cs -> out c = None -> length (omap out cs) < k.
  Proof.
    assert (G : forall cs', length (omap out cs') <= length cs').
    { clear. induction cs' as [|c cs' IH]; cbn; [lia|]. destruct (out c); cbn; lia. }
    generalize cs. induction cs0 as [|c' cs' IH]; intros Hc Ho; [by apply elem_of_nil in Hc|]. apply elem_of_cons in Hc as [<-|Hc]; cbn.
    - rewrite Ho. specialize (G cs'). lia.
    - specialize (IH Hc Ho). destruct (out c'); cbn; lia.
  Qed.

  Definition wok (c : course T) (w : wk) : Prop :=
    match w with
    | XRun it a => exists d rest, elems c = d ++ rest /\ (folding f init d).2 = Some a /\ runs it rest (booms c)
    | XSend a => out c = Some a
    | XDone => is_Some (out c)
    end.
  Record inv (x : xstate U T R) : Prop := {
    i_main : match xm x with XSpawn g => length (xws x) <= k /\ gruns g (drop (length (xws x)) cs) | _ => length (xws x) = k end;
    i_ws : forall j w, xws x !! j = Some w -> exists c, cs !! j = Some c /\ wok c w;
    i_res : exists rs, rs ++ xbuf x ≡ₚ dres (xws x) cs /\
      match xm x with
      | XSpawn _ => rs = []
      | XRecv n acc => n = length rs /\ (Z.of_nat n <= p)%Z /\ combining comb init rs = Some acc
      | XReturned acc => combining comb init rs = Some acc /\ Z.of_nat (length rs) = p
      | XPanicked => combining comb init rs = None
      end;
    i_cap : (Z.of_nat (length (xbuf x)) <= Z.max p 0)%Z;
    i_closed : xclosed x = match xm x with XReturned _ => true | _ => false end;
    i_crash : xcrashed x = true -> match xm x with XReturned _ => exists i w, xws x !! i = Some w /\ undone w = true | _ => exists c, c ∈ cs /\ out c = None end;
  }.
  Hypothesis Hp : (1 <= p)%Z.
  Hypothesis Hsegs : segments s p cs.
  Lemma inv_init : inv (xinit p s w0).
  Proof.
    split; cbn; try done; [split; [lia|exact Hsegs]| |lia]. exists []. done.
  Qed.
  Lemma inv_step x y : inv x -> go x y -> inv y.
  Proof.
    intros [I1 I2 I3 I4 I5 I6] St. destruct St as [g it g' ws buf cl w w' Hg|g g' ws buf cl w w' Hg|n acc ws r buf cl w Hn|n acc ws buf cl w Hn
      |m ws buf cl i v it it' acc w w' Hi Hr|m ws buf cl i it acc w Hi Hr|m ws buf cl i it it' acc w w' Hi Hr|m ws buf i acc w Hi Hb|m ws buf i acc w Hi]; cbn in *.
    - destruct I1 as [L HG]. destruct (gruns_some _ _ _ _ _ _ HG Hg) as (c & cs' & Ec & HY & HG').
      assert (Hc : cs !! length ws = Some c) by by rewrite <-(Nat.add_0_r (length ws)), <-lookup_drop, Ec.
      pose proof (lookup_lt_Some _ _ _ Hc). split; cbn; try done.
      + rewrite app_length. cbn. split; [lia|]. rewrite <-drop_drop, Ec. exact HG'.
      + intros j w1 [Hj|[Hj1 Hj2]]%lookup_app_Some; [by apply I2|]. destruct (j - length ws) eqn:E; cbn in Hj2; [|by destruct n]. injection Hj2 as <-.
        exists c. replace j with (length ws) by lia. split; [done|]. exists [], (elems c). done.
      + destruct I3 as (rs & P & ->). exists []. split; [|done]. by rewrite dres_snoc.
    - destruct I1 as [L HG]. pose proof (gruns_none _ _ _ _ _ HG Hg) as Ed. assert (length (drop (length ws) cs) = 0) as El by by rewrite Ed.
      rewrite drop_length in El. split; cbn; try done; [lia|]. destruct I3 as (rs & P & ->). exists []. splits; try done. lia.
    - destruct I3 as (rs & P & -> & Hle & Hc). split; cbn; try done.
      + by destruct (comb acc r).
      + exists (rs ++ [r]). split; [by rewrite <-app_assoc|]. pose proof (combining_snoc comb rs init acc r Hc) as Hs.
        destruct (comb acc r); [|done]. rewrite app_length. cbn. splits; [done|lia|done].
      + lia.
      + by destruct (comb acc r).
    - destruct I3 as (rs & P & -> & Hle & Hc). split; cbn; try done. by exists rs.
    - destruct (I2 i _ Hi) as (c & Hc & d & rest & Ed & Ef & HY). destruct (runs_some _ _ _ _ _ _ _ HY Hr) as (rest' & -> & HY').
      pose proof (folding_snoc f d init acc v Ef) as Fs. destruct (f acc v) as [a|] eqn:Ea.
      + split; cbn; try done.
        * rewrite insert_length. done.
        * intros j w1 Hj. destruct (decide (j = i)) as [->|Ne].
          -- rewrite list_lookup_insert in Hj by by eapply lookup_lt_Some. injection Hj as <-. exists c. split; [done|].
             exists (d ++ [v]), rest'. splits; [by rewrite <-app_assoc|done|done].
          -- rewrite list_lookup_insert_ne in Hj by done. by apply I2.
        * destruct I3 as (rs & P & Hm). exists rs. split; [|done]. by rewrite (dres_upd ws cs i (XRun it acc)).
      + split; cbn; try done. intros _. assert (Ho : out c = None).
        { unfold fold_course. destruct (booms c); [done|]. rewrite Ed. change (v :: rest') with ([v] ++ rest').
          by rewrite app_assoc, folding_app, Fs. }
        destruct m; [| |by eexists _, _|]; exists c; (split; [by eapply elem_of_list_lookup_2|done]).
    - destruct (I2 i _ Hi) as (c & Hc & d & rest & Ed & Ef & HY). destruct (runs_panics _ _ _ _ HY Hr) as (-> & Hb).
      split; cbn; try done. intros _. assert (Ho : out c = None) by (unfold fold_course; by rewrite Hb).
      destruct m; [| |by eexists _, _|]; exists c; (split; [by eapply elem_of_list_lookup_2|done]).
    - destruct (I2 i _ Hi) as (c & Hc & d & rest & Ed & Ef & HY). destruct (runs_none _ _ _ _ _ _ HY Hr) as (-> & Hb).
      assert (Ho : out c = Some acc) by (unfold fold_course; rewrite Hb, Ed, app_nil_r; exact Ef).
      split; cbn; try done.
      + rewrite insert_length. done.
      + intros j w1 Hj. destruct (decide (j = i)) as [->|Ne].
        * rewrite list_lookup_insert in Hj by by eapply lookup_lt_Some. injection Hj as <-. by exists c.
        * rewrite list_lookup_insert_ne in Hj by done. by apply I2.
      + destruct I3 as (rs & P & Hm). exists rs. split; [|done]. by rewrite (dres_upd ws cs i (XRun it acc)).
    - destruct (I2 i _ Hi) as (c & Hc & Ho). cbn in Ho. split; cbn; try done.
      + rewrite insert_length. done.
      + intros j w1 Hj. destruct (decide (j = i)) as [->|Ne].
        * rewrite list_lookup_insert in Hj by by eapply lookup_lt_Some. injection Hj as <-. exists c. split; [done|]. cbn. by rewrite Ho.
        * rewrite list_lookup_insert_ne in Hj by done. by apply I2.
      + destruct I3 as (rs & P & Hm). exists rs. split; [|done]. rewrite (dres_done ws cs i (XSend acc) c acc) by done.
        rewrite app_assoc, P. by rewrite Permutation_app_comm.
      + rewrite app_length. cbn. lia.
    - split; cbn; try done. intros _. destruct m; try done. by eexists _, _.
  Qed.
  Lemma inv_reach x : rtc go (xinit p s w0) x -> inv x.
  Proof.
    intros H. cut (forall a b, rtc go a b -> inv a -> inv b); [intros G; eapply G; [exact H|apply inv_init]|].
    clear H. intros a b H. induction H as [|a b c Hab _ IH]; [done|]. intros I. apply IH. by eapply inv_step.
  Qed.

  Lemma returned_value x v : inv x -> xm x = XReturned v ->
    exists rs, rs ⊆+ omap out cs /\ Z.of_nat (length rs) = p /\ combining comb init rs = Some v.
  Proof.
    intros I E. destruct (i_res _ I) as (rs & P & Hm). rewrite E in Hm. destruct Hm as [Hc Hl]. exists rs. splits; try done.
    etrans; [|apply sublist_submseteq, (dres_sub (xws x))]. rewrite <-P. by apply submseteq_inserts_r.
  Qed.
  Lemma panicked_value x : inv x -> xm x = XPanicked -> exists rs, rs ⊆+ omap out cs /\ combining comb init rs = None.
  Proof.
    intros I E. destruct (i_res _ I) as (rs & P & Hm). rewrite E in Hm. exists rs. splits; try done.
    etrans; [|apply sublist_submseteq, (dres_sub (xws x))]. rewrite <-P. by apply submseteq_inserts_r.
  Qed.
  Lemma never_returns x v c : inv x -> Z.of_nat k = p -> c ∈ cs -> out c = None -> xm x <> XReturned v.
  Proof.
    intros I Hk Hc Ho E. destruct (returned_value x v I E) as (rs & Sb & L & _). apply submseteq_length in Sb.
    pose proof (omap_missing c Hc Ho). lia.
  Qed.

  (** progress *)
  Lemma no_crash x : inv x -> Z.of_nat k = p -> (forall c, c ∈ cs -> out c <> None) -> xcrashed x = false.
  Proof.
    intros I Hk Hno. destruct (xcrashed x) eqn:E; [|done]. pose proof (i_crash _ I E) as Hc. pose proof (i_main _ I) as Im.
    destruct (i_res _ I) as (rs & P & Hr). destruct (xm x); try (destruct Hc as (c & Hc & Ho); by destruct (Hno c Hc)).
    destruct Hc as (i & w & Hi & Hu). destruct Hr as [_ Hl]. pose proof (dres_len (xws x) cs i w Hi Hu ltac:(lia)) as L.
    apply Permutation_length in P. rewrite app_length in P. lia.
  Qed.
  Lemma worker_steps x i w : inv x -> Z.of_nat k = p -> xcrashed x = false -> xws x !! i = Some w -> undone w = true -> exists y, go x y.
  Proof.
    intros I Hk Hcr Hi Hu. destruct (i_ws _ I i w Hi) as (c & Hc & Hw). destruct w as [it a|a|]; [| |done].
    - destruct Hw as (d & rest & Ed & Ef & HY). destruct x as [m ws buf cl cr w]; cbn in *. subst cr.
      destruct (runs_can it rest (booms c) w HY) as [(o & it' & w' & Hr)|Hr].
      + destruct o as [v|]; eexists; [by eapply xs_work|by eapply xs_end].
      + eexists. by eapply xs_boom.
    - destruct (i_res _ I) as (rs & P & Hm). apply Permutation_length in P. rewrite app_length in P.
      assert (Lw : length (xws x) <= k) by (pose proof (i_main _ I) as Im; destruct (xm x); [lia|lia|lia|lia]).
      pose proof (dres_len (xws x) cs i (XSend a) Hi Hu Lw) as L. pose proof (i_closed _ I) as Cl.
      destruct x as [m ws buf cl cr w]; cbn in *. subst cr. destruct cl.
      + eexists. by eapply xs_send_closed.
      + eexists. apply xs_send; [done|]. lia.
  Qed.
  Lemma progress x : inv x -> Z.of_nat k = p -> xcrashed x = false ->
    (exists y, go x y) \/ ((exists v, xm x = XReturned v) \/ xm x = XPanicked) /\ forall i w, xws x !! i = Some w -> w = XDone.
  Proof.
    intros I Hk Hcr. destruct (decide (Exists (fun w => undone w = true) (xws x))) as [E|E].
    { apply Exists_exists in E as (w & Hw & Hu). apply elem_of_list_lookup in Hw as [i Hi]. left. by eapply worker_steps. }
    assert (Hd : forall i w, xws x !! i = Some w -> w = XDone).
    { intros i w Hi. destruct w; try done; destruct E; apply Exists_exists; eexists; (split; [by eapply elem_of_list_lookup_2|done]). }
    pose proof (i_main _ I) as Im. destruct (xm x) as [g|n acc|v|] eqn:Em.
    - left. destruct Im as [L HG]. destruct (gruns_can g _ (xworld x) HG) as (o & g' & w' & Hg). destruct x as [m ws buf cl cr w]; cbn in *. subst.
      destruct o as [it|]; eexists; [by eapply xs_spawn|by eapply xs_spawned].
    - left. destruct (i_res _ I) as (rs & P & Hm). rewrite Em in Hm. destruct Hm as (-> & Hle & Hc).
      destruct x as [m ws buf cl cr w]; cbn in *. subst m cr. destruct (decide (Z.of_nat (length rs) = p)) as [Ep|Np]; [eexists; by apply xs_return|].
      destruct buf as [|r buf]; [|eexists; by apply xs_recv]. exfalso. rewrite app_nil_r in P. rewrite dres_full in P; [|intros i w1 Hi; by rewrite (Hd i w1 Hi)|done].
      apply Permutation_length in P. assert (length (omap out cs) = k); [|lia].
      assert (F : Forall (fun c => is_Some (out c)) cs).
      { apply Forall_lookup. intros j c Hj. destruct (lookup_lt_is_Some_2 ws j) as [w1 Hw1]; [rewrite Im; by eapply lookup_lt_Some|].
        pose proof (Hd j w1 Hw1) as ->. destruct (i_ws _ I j _ Hw1) as (c' & Hc' & Hw'). by simplify_eq. }
      clear -F. induction F as [|c cs' [a Ha] F IH]; cbn; [done|]. rewrite Ha. cbn. lia.
    - right. split; [left; by exists v|done].
    - right. split; [by right|done].
  Qed.
  Lemma some_worker x c : inv x -> c ∈ cs -> out c = None -> (forall g, xm x <> XSpawn g) -> exists i w, xws x !! i = Some w /\ undone w = true.
  Proof.
    intros I Hc Ho Hm. apply elem_of_list_lookup in Hc as [j Hj].
    assert (L : length (xws x) = k) by (pose proof (i_main _ I) as Im; destruct (xm x); [by edestruct Hm|done|done|done]).
    destruct (lookup_lt_is_Some_2 (xws x) j) as [w Hw]; [rewrite L; by eapply lookup_lt_Some|]. exists j, w. split; [done|].
    destruct (i_ws _ I j w Hw) as (c' & Hc' & Hw'). simplify_eq. destruct w; try done. cbn in Hw'. rewrite Ho in Hw'. by destruct Hw'.
  Qed.

  (** termination *)
  Definition togo (w : wk) (n : nat) : Prop :=
    match w with XRun it _ => exists rest b, runs it rest b /\ n = length rest + 2 | XSend _ => n = 1 | XDone => n = 0 end.
  Definition mains (x : xstate U T R) : nat :=
    match xm x with
    | XSpawn _ => sum_list_with (fun c => length (elems c) + 3) (drop (length (xws x)) cs) + Z.to_nat p + 3
    | XRecv c _ => (Z.to_nat p - c) + 2
    | XReturned _ | XPanicked => 1 end.
  Definition measure (x : xstate U T R) (n : nat) : Prop :=
    exists ns, Forall2 togo (xws x) ns /\ n = mains x + sum_list ns - (if xcrashed x then 1 else 0).
  Lemma sum_insert ns i a b : ns !! i = Some a -> sum_list (<[i := b]> ns) + a = sum_list ns + b.
  Proof. revert i. induction ns as [|z ns IH]; intros [|i] Hi; simpl in *; try done; [injection Hi as ->; lia|]. specialize (IH i Hi). lia. Qed.
  Lemma measure_dec x y n : inv x -> measure x n -> go x y -> exists n', measure y n' /\ n' < n.
  Proof using Hp.
    intros [I1 I2 (rs & I3 & I3') I4 I5 I6] (ns & F & ->) St. destruct St as [g it g' ws buf cl w w' Hg|g g' ws buf cl w w' Hg|c acc ws r buf cl w Hn|c acc ws buf cl w Hn
      |m ws buf cl i v it it' acc w w' Hi Hr|m ws buf cl i it acc w Hi Hr|m ws buf cl i it it' acc w w' Hi Hr|m ws buf i acc w Hi Hb|m ws buf i acc w Hi];
      unfold measure, mains; cbn [xm xws xbuf xclosed xcrashed xworld] in *.
    - destruct I1 as [L HG]. destruct (gruns_some _ _ _ _ _ _ HG Hg) as (c & cs' & Ec & HY & HG').
      eexists. split; [exists (ns ++ [length (elems c) + 2]); split; [|reflexivity]|].
      + apply Forall2_app; [done|]. constructor; [|done]. cbn. eauto.
      + rewrite app_length. cbn [length]. rewrite <-drop_drop, Ec, sum_list_with_app. change (drop 1 (c :: cs')) with cs'. simpl. unfold sum_list. lia.
    - eexists. split; [exists ns; split; [done|reflexivity]|]. lia.
    - destruct I3' as (-> & Hl & _). eexists. split; [exists ns; split; [done|reflexivity]|]. cbn [xm]. destruct (comb acc r); lia.
    - eexists. split; [exists ns; split; [done|reflexivity]|]. lia.
    - destruct (Forall2_lookup_l _ _ _ _ _ F Hi) as (a & Ha & (rest2 & b & Hy & ->)). destruct (runs_some _ _ _ _ _ _ _ Hy Hr) as (rest' & -> & Hy').
      pose proof (sum_insert ns i _ (length rest' + 2) Ha) as Hsum. cbn [length] in Hsum. destruct (f acc v) as [a|]; cbn [xws xcrashed xm].
      + eexists. split; [exists (<[i := length rest' + 2]> ns); split; [|reflexivity]|].
        * apply Forall2_insert; [done|]. cbn. eauto.
        * rewrite insert_length. destruct m; lia.
      + eexists. split; [exists ns; split; [done|reflexivity]|]. destruct m; lia.
    - eexists. split; [exists ns; split; [done|reflexivity]|]. destruct m; lia.
    - destruct (Forall2_lookup_l _ _ _ _ _ F Hi) as (a & Ha & (rest2 & b & Hy & ->)). destruct (runs_none _ _ _ _ _ _ Hy Hr) as [-> ->].
      pose proof (sum_insert ns i _ 1 Ha) as Hsum. cbn [length] in Hsum.
      eexists. split; [exists (<[i := 1]> ns); split; [|reflexivity]|].
      + by apply Forall2_insert.
      + rewrite insert_length. destruct m; lia.
    - destruct (Forall2_lookup_l _ _ _ _ _ F Hi) as (a & Ha & ->).
      pose proof (sum_insert ns i _ 0 Ha) as Hsum. cbn [length] in Hsum.
      eexists. split; [exists (<[i := 0]> ns); split; [|reflexivity]|].
      + by apply Forall2_insert.
      + rewrite insert_length. destruct m; lia.
    - eexists. split; [exists ns; split; [done|reflexivity]|]. destruct m; lia.
  Qed.
  Lemma bounded : exists b, forall m x, nsteps go m (xinit p s w0) x -> m <= b.
  Proof using Hp Hsegs.
    assert (Gn : forall m x y n, nsteps go m x y -> inv x -> measure x n -> m <= n).
    { intros m x y n H. revert n. induction H as [a|m' a b c H1 H2 IH]; intros n I M; [lia|].
      destruct (measure_dec _ _ _ I M H1) as (n' & M' & Hlt). pose proof (IH _ (inv_step _ _ I H1) M'). lia. }
    eexists. intros m x H. eapply Gn; [exact H|apply inv_init|]. exists []. split; [constructor|reflexivity].
  Qed.
End fold.
