(** Invariants of FoldWith with callbacks that take time. *)
From Verif Require Import Base Lin_Spec Busy_Model Busy_Spec.

Section worker.
  Context {T R : Type}.
  Implicit Types (a b : R) (x : T) (l : list T) (es : list (wev T R)) (w : worker T R).
  (** after [es] the goroutine stands before its next pull *)
  Inductive gone_to : R -> list T -> list (wev T R) -> R -> list T -> Prop :=
  | g_here a l : gone_to a l [] a l
  | g_more a x l b es a' l' : gone_to b l es a' l' -> gone_to a (x :: l) ([Pull; Pulled (Some x); Call a x; Ret b] ++ es) a' l'.
  Lemma gone_snoc a l es a' x l' b : gone_to a l es a' (x :: l') -> gone_to a l (es ++ [Pull; Pulled (Some x); Call a' x; Ret b]) b l'.
  Proof.
    remember (x :: l') as l1 eqn:E. intros G. revert x l' E. induction G as [a l|a y l c es a' l1 G IH]; intros x l' ->.
    - change ([] ++ [Pull; Pulled (Some x); Call a x; Ret b]) with ([Pull; Pulled (Some x); Call a x; Ret b] ++ []). constructor. constructor.
    - rewrite <- app_assoc. constructor. by apply IH.
  Qed.
  Definition sits (a0 : R) (l0 : list T) (es : list (wev T R)) (w : worker T R) : Prop :=
    match w with
    | WAt l a => gone_to a0 l0 es a l
    | WIn l a => exists es', gone_to a0 l0 es' a l /\ es = es' ++ [Pull]
    | WHave x l a => exists es', gone_to a0 l0 es' a (x :: l) /\ es = es' ++ [Pull; Pulled (Some x)]
    | WBusy x l a => exists es', gone_to a0 l0 es' a (x :: l) /\ es = es' ++ [Pull; Pulled (Some x); Call a x]
    | WOut a => completes a0 l0 es a
    | WDone => exists a, completes a0 l0 es a
    end.
  Lemma gone_end a l es a' : gone_to a l es a' [] -> completes a l (es ++ [Pull; Pulled None]) a'.
  Proof.
    remember [] as l1 eqn:E. intros G. revert E. induction G as [a l|a y l c es a' l1 G IH]; intros E; [subst l; constructor|].
    rewrite <- app_assoc. constructor. by apply IH.
  Qed.
  Lemma sits_step a0 l0 es w e w' : sits a0 l0 es w -> wstep w e w' -> sits a0 l0 (es ++ [e]) w'.
  Proof.
    intros S St. destruct St; cbn [sits] in *.
    - by exists es.
    - destruct S as (es' & G & ->). exists es'. split; [done|]. by rewrite <- app_assoc.
    - destruct S as (es' & G & ->). rewrite <- app_assoc. by apply gone_end.
    - destruct S as (es' & G & ->). exists es'. split; [done|]. by rewrite <- app_assoc.
    - destruct S as (es' & G & ->). rewrite <- app_assoc. by apply gone_snoc.
  Qed.
  Lemma gone_runs a l es a' l' tl : gone_to a l es a' l' -> runs a' l' tl -> runs a l (es ++ tl).
  Proof. intros G Rn. induction G; [done|]. rewrite <- app_assoc. constructor. by apply IHG. Qed.
  Lemma completes_runs a l es r : completes a l es r -> runs a l es.
  Proof. intros C. induction C; constructor; done. Qed.
  Lemma sits_runs a l es w : sits a l es w -> runs a l es.
  Proof.
    destruct w; cbn [sits]; intros S.
    - rewrite <- (app_nil_r es). eapply gone_runs; [done|constructor].
    - destruct S as (es' & G & ->). eapply gone_runs; [done|constructor].
    - destruct S as (es' & G & ->). eapply gone_runs; [done|constructor].
    - destruct S as (es' & G & ->). eapply gone_runs; [done|constructor].
    - by eapply completes_runs.
    - destruct S as (r & S). by eapply completes_runs.
  Qed.
  (** steps a goroutine can still make, three more for a result not yet handed over *)
  Definition mu (w : worker T R) : nat :=
    match w with
    | WAt l _ => 4 * length l + 5 | WIn l _ => 4 * length l + 4 | WHave _ l _ => 4 * length l + 7 | WBusy _ l _ => 4 * length l + 6
    | WOut _ => 3 | WDone => 0
    end.
  Lemma mu_step w e w' : wstep w e w' -> mu w' < mu w.
  Proof. intros []; cbn; lia. Qed.
  Lemma any_sum {A} (f : A -> nat) (ws : list A) (i : nat) (w w' : A) : ws !! i = Some w -> sum_list (f <$> <[i := w']> ws) + f w = sum_list (f <$> ws) + f w'.
  Proof.
    revert i. induction ws as [|v ws IH]; intros [|i] E; cbn in *; [done|done|injection E as ->; unfold sum_list; cbn; lia|]. specialize (IH i E). change (f v + sum_list (f <$> <[i := w']> ws) + f w = f v + sum_list (f <$> ws) + f w'). lia.
  Qed.
  Lemma snoc_sum {A} (f : A -> nat) (ws : list A) (w : A) : sum_list (f <$> (ws ++ [w])) = sum_list (f <$> ws) + f w.
  Proof. induction ws as [|v ws IH]; cbn; [lia|]. change (f v + sum_list (f <$> (ws ++ [w])) = f v + sum_list (f <$> ws) + f w). lia. Qed.
  Lemma mu_sum ws i w w' : ws !! i = Some w -> sum_list (mu <$> <[i := w']> ws) + mu w = sum_list (mu <$> ws) + mu w'.
  Proof. apply any_sum. Qed.
  Lemma w_enabled w : w <> WDone -> (exists a, w = WOut a) \/ exists e w', wstep w e w'.
  Proof.
    destruct w as [l a|[|x l] a|x l a|x l a|a|]; intros N; try done; [..|left; by exists a]; right; eexists _, _; try constructor. Unshelve. exact a.
  Qed.
End worker.

Lemma own_app {T R} i (h h' : list (fev T R)) : own i (h ++ h') = own i h ++ own i h'.
Proof. apply omap_app. Qed.
Lemma own_same {T R} i (e : wev T R) : own i [Go i e] = [e].
Proof. cbn. by rewrite decide_True. Qed.
Lemma own_other {T R} i j (e : wev T R) : j <> i -> own i [Go j e] = [].
Proof. intros N. cbn. by rewrite decide_False. Qed.
Lemma combines_snoc {T R} a rs (es : list (fev T R)) v r b : combines a rs es v -> combines a (rs ++ [r]) (es ++ [Comb v r; Combined b]) b.
Proof. induction 1; cbn; repeat constructor. done. Qed.

Section fold.
  Context {T R : Type} (p : nat) (segs : list (list T)) (init : R).
  Notation stp := (fstep p segs init).
  Definition started (m : fmain R) : nat := match m with FSpawn k => k | _ => length segs end.
  (** [got]: the results sent, in order; [taken] of them have been received *)
  Definition caller_at (m : fmain R) (taken : list R) (es : list (fev T R)) : Prop :=
    match m with
    | FSpawn _ => taken = [] /\ es = []
    | FRecv c a => length taken = c /\ combines init taken es a /\ c <= p
    | FComb c a r => exists ts es', taken = ts ++ [r] /\ es = es' ++ [Comb a r] /\ length ts = c /\ combines init ts es' a /\ c < p
    | FReturned a => length taken = p /\ combines init taken es a
    end.
  Record finv (h : list (fev T R)) (x : fstate T R) (got : list (nat * R)) (taken : list R) : Prop := {
    fi_len : length (fws x) = started (fm x);
    fi_started : started (fm x) <= length segs;
    fi_none : forall i, fws x !! i = None -> own i h = [];
    fi_some : forall i w, fws x !! i = Some w -> exists l, segs !! i = Some l /\ sits init l (own i h) w;
    fi_nodup : NoDup (got.*1);
    fi_got : forall i r, (i, r) ∈ got -> fws x !! i = Some WDone /\ exists l, segs !! i = Some l /\ completes init l (own i h) r;
    fi_done : forall i, fws x !! i = Some WDone -> i ∈ got.*1;
    fi_buf : got.*2 = taken ++ fbuf x;
    fi_main : caller_at (fm x) taken (by_caller h);
    fi_closed : fclosed x = true <-> exists a, fm x = FReturned a;
    fi_ret : forall a, Return a ∈ h <-> fm x = FReturned a;
  }.
  Lemma by_caller_go i (e : wev T R) h : by_caller (h ++ [Go i e]) = by_caller h.
  Proof. unfold by_caller. rewrite filter_app. cbn. by rewrite app_nil_r. Qed.
  Lemma finv_init : finv [] (finit) [] [].
  Proof. split; cbn; try done; try lia; try (by intros; constructor); try (by intros i r H; apply elem_of_nil in H).
    - by split; [|intros [? ?]].
    - intros a. split; [by intros H; apply elem_of_nil in H|done].
  Qed.
  Lemma finv_step h x got taken e y : finv h x got taken -> stp x e y ->
    exists got' taken', finv (h ++ option_list e) y got' taken'.
  Proof.
    intros I St. destruct I as [Il Is In Iw Id Ig Idn Ib Im Ic Ir]. destruct St; cbn [fm fws fbuf fclosed fdead option_list] in *; try change (option_list None) with ([] : list (fev T R)); try match goal with |- context [option_list (Some ?e)] => change (option_list (Some e)) with [e] end.
    - (* spawn *) cbn [started] in *. exists got, taken. rewrite app_nil_r. pose proof (lookup_lt_Some _ _ _ H) as L.
      split; cbn [fm fws fbuf fclosed fdead started]; try done.
      + rewrite app_length. cbn. lia.
      + lia.
      + intros i Hi. apply In. apply lookup_ge_None in Hi. rewrite app_length in Hi. apply lookup_ge_None. lia.
      + intros i w Hi. apply lookup_app_Some in Hi as [Hi|(Li & Hi)]; [by apply Iw|].
        destruct (i - length ws) eqn:D; [|done]. injection Hi as <-. assert (i = k) as -> by lia. exists l. split; [done|]. rewrite In by (apply lookup_ge_None; lia). constructor.
      + intros i r Hi. destruct (Ig i r Hi) as (A & l' & B & C). split; [by apply lookup_app_l_Some|by exists l'].
      + intros i Hi. apply lookup_app_Some in Hi as [Hi|(Li & Hi)]; [by apply Idn|]. by destruct (i - length ws).
      + rewrite Ic. split; intros [? ?]; done.
      + intros a. rewrite Ir. split; done.
    - (* spawned *) cbn [started] in *. exists got, taken. rewrite app_nil_r. apply lookup_ge_None in H.
      split; cbn [fm fws fbuf fclosed fdead started]; try done.
      + lia.
      + destruct Im as [-> ->]. cbn. splits; [done|constructor|lia].
      + rewrite Ic. split; intros [? ?]; done.
      + intros a. rewrite Ir. split; done.
    - (* recv *) cbn [started caller_at] in *. destruct Im as (E1 & E2 & E3). exists got, (taken ++ [r]).
      split; cbn [fm fws fbuf fclosed fdead started]; try done; try (intros; rewrite own_app; cbn [own omap list_omap]; rewrite app_nil_r; by auto).
      + by rewrite <- app_assoc.
      + cbn [caller_at]. exists taken, (by_caller h). unfold by_caller. rewrite filter_app. splits; try done. lia.
      + rewrite Ic. split; intros [? ?]; done.
      + intros a'. rewrite elem_of_app, elem_of_list_singleton, Ir. split; [by intros [?|?]|done].
    - (* combined *) cbn [started caller_at] in *. destruct Im as (ts & es' & -> & E1 & E2 & E3 & E4). exists got, (ts ++ [r]).
      split; cbn [fm fws fbuf fclosed fdead started]; try done; try (intros; rewrite own_app; cbn [own omap list_omap]; rewrite app_nil_r; by auto).
      + cbn [caller_at]. assert (Eb : by_caller (h ++ [Combined a']) = by_caller h ++ [Combined a']) by (unfold by_caller; by rewrite filter_app).
        rewrite Eb, E1, <- app_assoc. splits; [rewrite app_length; cbn; lia| |lia]. by apply combines_snoc.
      + rewrite Ic. split; intros [? ?]; done.
      + intros a''. rewrite elem_of_app, elem_of_list_singleton, Ir. split; [by intros [?|?]|done].
    - (* return *) cbn [started caller_at] in *. destruct Im as (E1 & E2 & E3). exists got, taken.
      split; cbn [fm fws fbuf fclosed fdead started]; try done; try (intros; rewrite own_app; cbn [own omap list_omap]; rewrite app_nil_r; by auto).
      + cbn [caller_at]. split; [done|]. unfold by_caller. rewrite filter_app. cbn. by rewrite app_nil_r.
      + split; [|done]. by exists a.
      + intros a'. rewrite elem_of_app, elem_of_list_singleton, Ir. split; [intros [?|[= ->]]; done|]. intros [= ->]. by right.
    - (* work *) exists got, taken.
      assert (Nd : forall j r, (j, r) ∈ got -> j <> i). { intros j r Hj ->. destruct (Ig _ _ Hj) as [E _]. rewrite H in E. injection E as ->. inversion H0. }
      split; cbn [fm fws fbuf fclosed fdead started]; try done.
      + by rewrite insert_length.
      + intros j Hj. rewrite own_app. assert (ws !! j = None) as Hj'. { apply lookup_ge_None. apply lookup_ge_None in Hj. by rewrite insert_length in Hj. }
        rewrite (In j Hj'). rewrite own_other; [done|]. intros ->. congruence.
      + intros j w1 Hj. rewrite own_app. destruct (decide (i = j)) as [<-|N].
        * rewrite list_lookup_insert in Hj by (by eapply lookup_lt_Some). injection Hj as <-. destruct (Iw i w H) as (l & A & B). exists l. split; [done|]. rewrite own_same. by eapply sits_step.
        * rewrite list_lookup_insert_ne in Hj by done. rewrite own_other by done. rewrite app_nil_r. by apply Iw.
      + intros j r Hj. pose proof (Nd _ _ Hj) as N. rewrite list_lookup_insert_ne by done. rewrite own_app, own_other by done. rewrite app_nil_r. by apply Ig.
      + intros j Hj. destruct (decide (i = j)) as [<-|N]; [|rewrite list_lookup_insert_ne in Hj by done; by apply Idn].
        rewrite list_lookup_insert in Hj by (by eapply lookup_lt_Some). injection Hj as ->. inversion H0.
      + by rewrite by_caller_go.
      + intros a'. rewrite elem_of_app, elem_of_list_singleton, Ir. split; [by intros [?|?]|by left].
    - (* send *) exists (got ++ [(i, a)]), taken. rewrite app_nil_r. destruct (Iw i _ H) as (l & A & B). cbn [sits] in B.
      assert (Nd : i ∉ got.*1). { intros Hi. apply elem_of_list_fmap in Hi as ([j r] & E & Hj). cbn in E. subst j. destruct (Ig _ _ Hj) as [E _]. congruence. }
      pose proof (lookup_lt_Some _ _ _ H) as Li.
      split; cbn [fm fws fbuf fclosed fdead started]; try done.
      + by rewrite insert_length.
      + intros j Hj. apply In. apply lookup_ge_None. apply lookup_ge_None in Hj. by rewrite insert_length in Hj.
      + intros j w1 Hj. destruct (decide (i = j)) as [<-|N].
        * rewrite list_lookup_insert in Hj by done. injection Hj as <-. exists l. split; [done|]. by exists a.
        * rewrite list_lookup_insert_ne in Hj by done. by apply Iw.
      + rewrite fmap_app. cbn. apply NoDup_app. splits; [done| |apply NoDup_singleton]. intros j Hj. by intros ->%elem_of_list_singleton.
      + intros j r Hj. apply elem_of_app in Hj as [Hj|Hj%elem_of_list_singleton].
        * assert (i <> j) by (intros ->; apply Nd, elem_of_list_fmap; by exists (j, r)). rewrite list_lookup_insert_ne by done. by apply Ig.
        * injection Hj as -> ->. rewrite list_lookup_insert by done. split; [done|]. by exists l.
      + intros j Hj. rewrite fmap_app. apply elem_of_app. destruct (decide (i = j)) as [<-|N]; [right; by apply elem_of_list_singleton|left].
        rewrite list_lookup_insert_ne in Hj by done. by apply Idn.
      + rewrite fmap_app, Ib. cbn. by rewrite app_assoc.
    - (* crash *) exists got, taken. split; cbn [fm fws fbuf fclosed fdead started]; try done.
      + intros j Hj. rewrite own_app, app_nil_r. by apply In.
      + intros j w Hj. rewrite own_app, app_nil_r. by apply Iw.
      + intros j r Hj. rewrite own_app, app_nil_r. by apply Ig.
      + unfold by_caller. rewrite filter_app. cbn. by rewrite app_nil_r.
      + intros a'. rewrite elem_of_app, elem_of_list_singleton, Ir. split; [by intros [?|?]|by left].
  Qed.
  Lemma finv_exec h x : exec stp finit h x -> exists got taken, finv h x got taken.
  Proof.
    intros E. remember finit as x0 eqn:E0. induction E as [c|c c1 h c2 E IH St|c c1 h e c2 E IH St]; subst.
    - exists [], []. apply finv_init.
    - destruct (IH eq_refl) as (got & taken & I). destruct (finv_step _ _ _ _ _ _ I St) as (got' & taken' & I'). cbn in I'. rewrite app_nil_r in I'. by exists got', taken'.
    - destruct (IH eq_refl) as (got & taken & I). destruct (finv_step _ _ _ _ _ _ I St) as (got' & taken' & I'). by exists got', taken'.
  Qed.
  Lemma finv_lt h x got taken : finv h x got taken -> forall i, i ∈ got.*1 -> i < length segs.
  Proof.
    intros I i Hi. apply elem_of_list_fmap in Hi as ([j r] & -> & Hj). destruct (fi_got _ _ _ _ I _ _ Hj) as (_ & l & E & _). by eapply lookup_lt_Some.
  Qed.
  Lemma finv_fewer h x got taken i w : finv h x got taken -> fws x !! i = Some w -> w <> WDone -> length got < length segs.
  Proof.
    intros I Hi N. assert (Li : i < length segs). { destruct (fi_some _ _ _ _ I _ _ Hi) as (l & E & _). by eapply lookup_lt_Some. }
    assert (NoDup (i :: got.*1)) as ND.
    { constructor; [|apply (fi_nodup _ _ _ _ I)]. intros Hg. apply elem_of_list_fmap in Hg as ([j r] & E & Hj). cbn in E. subst j. destruct (fi_got _ _ _ _ I _ _ Hj) as (E & _). congruence. }
    assert (i :: got.*1 ⊆ seq 0 (length segs)) as Sub. { intros j [->|Hj]%elem_of_cons; apply elem_of_seq; [lia|]. pose proof (finv_lt _ _ _ _ I _ Hj). lia. }
    pose proof (submseteq_length _ _ (NoDup_submseteq _ _ ND Sub)) as L. rewrite seq_length in L. cbn in L. rewrite fmap_length in L. lia.
  Qed.
  Lemma finv_through h x got taken : finv h x got taken -> length got = length segs -> got.*1 ≡ₚ seq 0 (length segs).
  Proof.
    intros I L. apply submseteq_Permutation_length_le; [by rewrite seq_length, fmap_length; lia|].
    apply NoDup_submseteq; [apply (fi_nodup _ _ _ _ I)|]. intros j Hj. apply elem_of_seq. pose proof (finv_lt _ _ _ _ I _ Hj). lia.
  Qed.
  Lemma got_length h x got taken : finv h x got taken -> length got = length taken + length (fbuf x).
  Proof. intros I. rewrite <- (fmap_length snd got), (fi_buf _ _ _ _ I), app_length. done. Qed.

  (** nothing moves after the return when every segment had its result taken *)
  Lemma all_done h x got taken a : finv h x got taken -> fm x = FReturned a -> length segs = p ->
    (forall i w, fws x !! i = Some w -> w = WDone) /\ fbuf x = [] /\ got.*1 ≡ₚ seq 0 p /\ combines init got.*2 (by_caller h) a.
  Proof.
    intros I M L. pose proof (fi_main _ _ _ _ I) as Mn. rewrite M in Mn. destruct Mn as [Lt C].
    assert (Lg : length got <= length segs).
    { assert (got.*1 ⊆ seq 0 (length segs)) as Sub. { intros j Hj. apply elem_of_seq. pose proof (finv_lt _ _ _ _ I _ Hj). lia. }
      pose proof (submseteq_length _ _ (NoDup_submseteq _ _ (fi_nodup _ _ _ _ I) Sub)) as L1. by rewrite seq_length, fmap_length in L1. }
    pose proof (got_length _ _ _ _ I) as Lg'. assert (fbuf x = []) as Eb by (apply nil_length_inv; lia). splits.
    - intros i w Hi. destruct w; try done; exfalso; by assert (length got < length segs) by (eapply finv_fewer; done); lia.
    - done.
    - rewrite <- L. apply (finv_through _ _ _ _ I). lia.
    - rewrite (fi_buf _ _ _ _ I), Eb, app_nil_r. done.
  Qed.
  Lemma final_no_step x e y : (forall i w, fws x !! i = Some w -> w = WDone) -> (exists a, fm x = FReturned a) -> ~ stp x e y.
  Proof.
    intros D [a M] St. destruct St; cbn [fm fws] in *; try done.
    - specialize (D _ _ H). subst w. inversion H0.
    - by specialize (D _ _ H).
    - by specialize (D _ _ H).
  Qed.

  (** ** Every execution ends *)
  Definition main_mu (m : fmain R) : nat :=
    match m with
    | FSpawn k => 2 + sum_list ((fun l => 4 * length l + 6) <$> drop k segs)
    | FRecv _ _ => 1 | FComb _ _ _ => 2 | FReturned _ => 0
    end.
  Definition fmu (x : fstate T R) : nat :=
    main_mu (fm x) + sum_list (mu <$> fws x) + 2 * length (fbuf x) + (if fdead x then 0 else 1).
  Lemma fmu_step x e y : stp x e y -> fmu y < fmu x.
  Proof.
    intros St. destruct St; unfold fmu; cbn [fm fws fbuf fdead main_mu].
    - rewrite (drop_S segs l k) by done. rewrite snoc_sum. cbn. replace (k + 1) with (S k) by lia. lia.
    - lia.
    - cbn. lia.
    - lia.
    - lia.
    - pose proof (mu_sum ws i w w' H). pose proof (mu_step _ _ _ H0). lia.
    - pose proof (mu_sum ws i _ WDone H) as E. cbn [mu] in E. rewrite app_length. cbn. lia.
    - lia.
  Qed.
  Lemma f_bound : exists bound, forall n x, nsteps (fun a b => exists e, stp a e b) n finit x -> n <= bound.
  Proof.
    exists (fmu finit). assert (forall n x y, nsteps (fun a b => exists e, stp a e b) n x y -> n + fmu y <= fmu x) as H.
    { intros n x y S. induction S as [|n x y z [e St] S IH]; [lia|]. apply fmu_step in St. lia. }
    intros n x S. apply H in S. lia.
  Qed.
  Lemma f_goes_on h x got taken i w : length segs = p -> finv h x got taken -> fdead x = false -> fws x !! i = Some w -> w <> WDone ->
    exists e w' y, stp x e y /\ fws y = <[i := w']> (fws x) /\ fm y = fm x.
  Proof.
    intros L I D Hi N. destruct (w_enabled w N) as [[a ->]|(e & w' & St)].
    - pose proof (finv_fewer _ _ _ _ _ _ I Hi N) as Lg. pose proof (got_length _ _ _ _ I) as Lg'.
      assert (fclosed x = false) as Cl.
      { destruct (fclosed x) eqn:Cl; [|done]. apply (fi_closed _ _ _ _ I) in Cl as [b M]. destruct (all_done _ _ _ _ _ I M L) as (A & _). by specialize (A _ _ Hi). }
      destruct x as [m ws b c d]. cbn [fws fdead fclosed fbuf fm] in *. subst c d. eexists _, _, _. split; [eapply f_send; [done|lia]|done].
    - destruct x as [m ws b c d]. cbn [fws fdead fm] in *. subst d. eexists _, _, _. split; [by eapply f_work|done].
  Qed.
  Lemma f_not_dead h x : length segs = p -> exec stp finit h x -> fdead x = false.
  Proof.
    intros L E. remember finit as x0 eqn:E0. induction E as [c|c c1 h c2 E IH St|c c1 h e c2 E IH St]; subst c; [done|..].
    - specialize (IH eq_refl). clear E. remember None as e0 eqn:Ee in St. by destruct St.
    - specialize (IH eq_refl). destruct St; try done. destruct (finv_exec _ _ E) as (got & taken & I).
      pose proof (fi_closed _ _ _ _ I) as Cl. cbn in Cl. destruct (proj1 Cl eq_refl) as [b0 M]. destruct (all_done _ _ _ _ _ I M L) as (A & _). by specialize (A _ _ H).
  Qed.
  Lemma f_progress h x : 1 <= p -> length segs = p -> exec stp finit h x -> (exists a, fm x = FReturned a) \/ exists e y, stp x e y.
  Proof.
    intros P L E. pose proof (f_not_dead _ _ L E) as D. destruct (finv_exec _ _ E) as (got & taken & I). destruct x as [m ws b c d]. cbn [fm fdead] in *. subst d.
    destruct m as [k|n a|n a r|a]; [right|right|right|left; by exists a].
    - destruct (segs !! k) as [l|] eqn:Ek; eexists _, _; [by apply f_spawn|by apply f_spawned].
    - destruct (decide (n = p)) as [->|Np]; [eexists _, _; apply f_return|]. destruct b as [|r b]; [|eexists _, _; by apply f_recv].
      pose proof (fi_main _ _ _ _ I) as (M1 & M2 & M3). pose proof (got_length _ _ _ _ I) as Lg. cbn [fbuf length] in Lg.
      assert (exists i w, ws !! i = Some w /\ w <> WDone) as (i & w & Hi & N).
      { destruct (decide (Forall (fun w => Is_true (match w with WDone => true | _ => false end)) ws)) as [F|F].
        - exfalso. assert (seq 0 (length segs) ⊆+ got.*1) as Sub.
          { apply NoDup_submseteq; [apply NoDup_seq|]. intros j Hj. apply elem_of_seq in Hj. apply (fi_done _ _ _ _ I). cbn [fws].
            pose proof (fi_len _ _ _ _ I) as Lw. cbn in Lw. destruct (lookup_lt_is_Some_2 ws j ltac:(lia)) as [w Hw]. rewrite Hw. pose proof (Forall_lookup_1 _ _ _ _ F Hw) as Fw. by destruct w. }
          apply submseteq_length in Sub. rewrite seq_length, fmap_length in Sub. lia.
        - apply not_Forall_Exists in F; [|apply _]. apply Exists_exists in F as (w & Hw & N). apply elem_of_list_lookup in Hw as [i Hi]. exists i, w. split; [done|]. intros ->. by apply N. }
      destruct (f_goes_on _ _ _ _ _ _ L I eq_refl Hi N) as (e & w' & y & St & _). by exists e, y.
    - eexists (Some (Combined a)), _. apply f_combined.
  Qed.
End fold.
