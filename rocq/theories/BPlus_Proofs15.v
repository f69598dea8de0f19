(** Exactly which stored keys the lookup of an insertion-only tree finds. *)
From Verif Require Import Base BPlus_Model BPlus_Spec BPlus_Proofs BPlus_Proofs2 BPlus_Proofs3 BPlus_Proofs4 BPlus_Proofs5 BPlus_Proofs6 BPlus_Proofs7 BPlus_Proofs8 BPlus_Proofs9 BPlus_Proofs10 BPlus_Proofs11 BPlus_Proofs12 BPlus_Proofs14.

Section exact.
  Context {K V : Type} (comp : K -> K -> Z).
  Implicit Types (t : @tree K V) (w a b : list (@item K V)) (h : nat -> @node K V).
  Notation child := (nat * list nat * list (@item K V))%type.
  Notation caddr := (fun c : child => Some c.1.1).
  Notation cfp := (fun c : child => c.1.2).
  Notation cw := (fun c : child => c.2).
  Notation copied := (copied (V := V) comp).
  Notation in_order := (in_order (V := V) comp).

  (** where the halving search arrives *)
  Lemma bsearch_arrive fuel k (v : list (K * V)) l hi mid l' m : bsearch comp fuel k v l hi mid = Ok (l', m, true) ->
    l <= m < hi /\ forall f, hi - l <= f -> arrive f l hi m = l'.
  Proof.
    revert l hi mid. induction fuel as [|fuel IH]; intros l hi mid E; cbn [bsearch] in E; [done|].
    destruct (decide (l < hi)) as [L|L]; [|done].
    set (mm := (l + hi - 1) / 2) in *.
    assert (Hm : l <= mm < hi).
    { unfold mm. split; [apply Nat.div_le_lower_bound; lia|apply Nat.div_lt_upper_bound; lia]. }
    destruct (aget v mm) as [p| |]; try done. cbn [rbind] in E.
    destruct (comp k p.1 <? 0)%Z.
    - destruct (IH _ _ _ E) as [B A]. split; [lia|]. intros [|f] Hf; [lia|]. cbn [arrive]. fold mm.
      rewrite decide_True by lia. apply A. lia.
    - destruct (0 <? comp k p.1)%Z.
      + destruct (IH _ _ _ E) as [B A]. split; [lia|]. intros [|f] Hf; [lia|]. cbn [arrive]. fold mm.
        rewrite decide_False by lia. rewrite decide_True by lia. apply A. lia.
      + injection E as <- <-. split; [done|]. intros [|f] Hf; [lia|]. cbn [arrive]. fold mm.
        by rewrite !decide_False by lia.
  Qed.

  (** a non-empty subtree begins and ends with an entry *)
  Lemma reads_ends M h d l fp w : 2 <= M -> reads M h d l fp w -> 1 <= num (h l) ->
    (exists e w', w = Entry e :: w') /\ (exists e w', w = w' ++ [Entry e]).
  Proof.
    intros HM. revert l fp w. induction d as [|d IH]; intros l fp w R Hn; cbn [reads] in R.
    - destruct R as (nx&es&jk&cs&E&L1&L2&->&->). rewrite E in Hn. cbn [num] in Hn. split.
      + destruct es as [|e es]; [simpl in Hn; lia|]. by eexists _, _.
      + destruct es as [|e es _] using rev_ind; [simpl in Hn; lia|]. rewrite fmap_app. by eexists _, _.
    - destruct R as (nx&ks&jk&ts&cj&E&N1&N2&L1&L2&->&->&F).
      assert (G : Forall (fun c : child => (exists e w', c.2 = Entry e :: w') /\ (exists e w', c.2 = w' ++ [Entry e])) ts).
      { eapply Forall_impl; [exact F|]. intros c [Hc Rc]. eapply IH; [done|lia]. }
      clear F E. destruct ks as [|k ks]; [simpl in N1; lia|]. destruct ts as [|c ts]; [done|]. split.
      + apply Forall_cons in G as [[(e & w' & E) _] _]. cbn [fmap list_fmap weave]. rewrite E. by eexists _, _.
      + clear N1 L1 L2. revert c ts k N2 G. induction ks as [|k2 ks IHk]; intros c ts k N2 G.
        * destruct ts as [|c2 [|? ?]]; [done| |done]. apply Forall_cons in G as [_ G]. apply Forall_cons in G as [[_ (e & w' & E)] _].
          cbn [fmap list_fmap weave]. rewrite E. exists e, (c.2 ++ Sep k :: w'). by rewrite <-app_assoc.
        * destruct ts as [|c2 ts]; [done|]. apply Forall_cons in G as [_ G].
          destruct (IHk c2 ts k2) as (e & w' & E); [simpl in *; lia|done|].
          change (exists e w', c.2 ++ Sep k :: weave (cw <$> c2 :: ts) (k2 :: ks) = w' ++ [Entry e]).
          rewrite E. exists e, (c.2 ++ Sep k :: w'). by rewrite <-app_assoc.
  Qed.

  (** a subtree in its context *)
  Lemma copied_sub pre w post : (exists e w', w = Entry e :: w') -> copied (pre ++ w ++ post) -> copied w.
  Proof.
    intros (e0 & w0 & E0) Cp a s b E.
    destruct (Cp (pre ++ a) s (b ++ post)) as (a' & e & Ea & Ee).
    { rewrite E, <-!app_assoc. done. }
    destruct a as [|x a _] using rev_ind.
    - rewrite E0 in E. done.
    - rewrite app_assoc in Ea. apply snoc_eq in Ea as [_ ->]. by exists a, e.
  Qed.

  (** the search in one node *)
  Lemma inner_shape h l nx ks jk (ts : list child) cj :
    h l = Node nx (ks ++ jk) ((caddr <$> ts) ++ cj) (length ks) false -> length ts = S (length ks) ->
    take (num (h l)) (vals (h l)) = ks /\ num (h l) = length ks
    /\ (forall i c, kids (h l) !! i = Some (Some c) -> i <= num (h l) -> exists cc, ts !! i = Some cc /\ cc.1.1 = c)
    /\ (forall i cc, ts !! i = Some cc -> kids (h l) !! i = Some (Some cc.1.1)).
  Proof.
    intros E L. rewrite E. cbn [num vals kids]. splits; [by rewrite take_app|done| |].
    - intros i c Hi Hl. rewrite lookup_app_l in Hi by (rewrite fmap_length; lia). rewrite list_lookup_fmap in Hi.
      destruct (ts !! i) as [cc|]; [|done]. injection Hi as <-. by exists cc.
    - intros i cc Hi. rewrite lookup_app_l; [by rewrite list_lookup_fmap, Hi|]. rewrite fmap_length. by eapply lookup_lt_Some.
  Qed.

  Lemma below_trans h r l c : below h r l -> below h l c -> below h r c.
  Proof. intros H. induction 1 as [|l2 i c2 _ IH Hl Hi Hc]; [done|]. by eapply below_kid. Qed.
  Lemma below_top h r c : below h r c ->
    c = r \/ exists i r', leaf (h r) = false /\ i <= num (h r) /\ kids (h r) !! i = Some (Some r') /\ below h r' c.
  Proof.
    induction 1 as [|l i c _ IH Hl Hi Hc]; [by left|right]. destruct IH as [->|(j & r' & A1 & A2 & A3 & A4)].
    - exists i, c. splits; try done. constructor.
    - exists j, r'. splits; try done. by eapply below_kid.
  Qed.

  Definition good h l k : Prop := forall l' i s, below h l l' -> leaf (h l') = false ->
    take (num (h l')) (vals (h l')) !! i = Some s -> comp k s.1 = 0%Z -> well_placed (num (h l')) i.
  Definition bad h l k : Prop := exists l' i s, below h l l' /\ leaf (h l') = false /\
    take (num (h l')) (vals (h l')) !! i = Some s /\ comp k s.1 = 0%Z /\ ~ well_placed (num (h l')) i.

  (** items left and right of the child descended into *)
  Lemma around k (ks1 ks2 : list (K * V)) (ts1 ts2 : list child) w :
    cmp_ok comp -> length ts1 = length ks1 -> length ts2 = length ks2 ->
    in_order (wpre (cw <$> ts1) ks1 ++ w ++ wpost ks2 (cw <$> ts2)) ->
    (forall x, last ks1 = Some x -> (comp k x.1 > 0)%Z) ->
    (forall x, head ks2 = Some x -> (comp k x.1 < 0)%Z) ->
    (forall x, x ∈ wpre (cw <$> ts1) ks1 -> comp k (item_key x) <> 0%Z) /\
    (forall x, x ∈ wpost ks2 (cw <$> ts2) -> comp k (item_key x) <> 0%Z).
  Proof.
    intros C L1 L2 S H1 H2. split.
    - intros x Hx Ce. destruct ks1 as [|s ks1 _] using rev_ind.
      { destruct ts1; [|done]. by apply elem_of_nil in Hx. }
      assert (G : (comp (item_key x) s.1 <= 0)%Z).
      { eapply (fits_pre comp s (cw <$> ts1) (ks1 ++ [s])); [done|by rewrite fmap_length|exact S| |done].
        intros y. rewrite last_snoc. intros [= <-]. rewrite cmp_refl by done. lia. }
      specialize (H1 s). rewrite last_snoc in H1. specialize (H1 eq_refl).
      assert (A' : (comp s.1 k < 0)%Z) by (apply cmp_lt_gt; [done|lia]).
      pose proof (cmp_le_lt_trans _ C _ _ _ G A') as G3. apply cmp_lt_gt in G3; [lia|done].
    - intros x Hx Ce. destruct ks2 as [|s ks2]; [by apply elem_of_nil in Hx|].
      assert (G : (comp s.1 (item_key x) <= 0)%Z).
      { rewrite app_assoc in S. eapply (fits_post comp s (cw <$> ts2) (s :: ks2)); [done|by rewrite fmap_length|exact S| |done].
        intros y [= <-]. rewrite cmp_refl by done. lia. }
      specialize (H2 s eq_refl). pose proof (cmp_lt_le_trans _ C _ _ _ H2 G). lia.
  Qed.

  Lemma last_lookup' {A} (l1 l2 : list A) x : last l1 = Some x -> (l1 ++ l2) !! (length l1 - 1) = Some x /\ 0 < length l1.
  Proof.
    destruct l1 as [|y l1 _] using rev_ind; [done|]. rewrite last_snoc. intros [= ->]. rewrite app_length. simpl.
    split; [|lia]. rewrite <-app_assoc. cbn. replace (length l1 + 1 - 1) with (length l1) by lia. by rewrite list_lookup_middle.
  Qed.
  Lemma head_lookup' {A} (l1 l2 : list A) x : head l2 = Some x -> (l1 ++ l2) !! length l1 = Some x.
  Proof. destruct l2; [done|]. intros [= ->]. by rewrite list_lookup_middle. Qed.

  Lemma find_good k M h d l fp w fuel :
    cmp_ok comp -> 2 <= M -> reads M h d l fp w -> d < fuel -> in_order w -> copied w -> good h l k ->
    (exists e, e ∈ entries w /\ comp k e.1 = 0%Z) ->
    exists nd idx, search_loop comp fuel (Some l) k h = Ok (Some nd, Z.of_nat idx, true).
  Proof.
    intros C HM. revert l fp w fuel. induction d as [|d IH]; intros l fp w fuel R Hf So Cp G Ex.
    { destruct (search_loop_ok comp k h M 0 l fp w fuel R Hf) as (nd & idx & ex & E & _ & H2).
      destruct ex; [by exists nd, idx|]. exfalso. destruct Ex as (e & He & Ce).
      refine (H2 eq_refl C So _ e He Ce). cbn [reads] in R. destruct R as (nx&es&jk&cs&_&_&_&_&->).
      intros s Hs%elem_separators. apply elem_of_list_fmap in Hs as (? & [=] & _). }
    destruct fuel as [|fuel]; [lia|]. cbn [reads] in R. cbn [search_loop deref rbind].
    destruct R as (nx&ks&jk&ts&cj&E&N1&N2&L1&L2&->&->&F).
    destruct (inner_shape h l nx ks jk ts cj E N2) as (Sh1 & Sh2 & _ & Sh4).
    assert (Glf : leaf (h l) = false) by by rewrite E.
    rewrite E. cbn [num vals leaf kids].
    destruct (bsearch_ok comp k ks jk (S (length ks)) 0 (length ks) 0) as (l' & mid & ex & EB & Hb & H1 & H2); [lia|lia|].
    rewrite EB. cbn [rbind].
    destruct (length_split l' (S (length ks - l')) ts) as (ts1 & ts2' & -> & Lt1 & Lt2); [lia|].
    destruct ts2' as [|c ts2]; [done|]. simpl in Lt2.
    destruct (length_split l' (length ks - l') ks) as (ks1 & ks2 & -> & Lk1 & Lk2); [lia|].
    rewrite app_length in *.
    rewrite (fmap_app caddr ts1 (c :: ts2)). cbn [fmap list_fmap]. rewrite <-app_assoc. cbn [app].
    rewrite aget_app by (rewrite fmap_length; lia). cbn [rbind].
    assert (Hkid : below h l c.1.1).
    { apply (below_kid h l l l' c.1.1); [constructor|done|rewrite Sh2; lia|]. apply Sh4. rewrite <-Lt1. by rewrite list_lookup_middle. }
    apply Forall_app in F as [F1 [[F2n F2] F3]%Forall_cons].
    rewrite (fmap_app cw ts1 (c :: ts2)) in *. cbn [fmap list_fmap] in *.
    destruct (seps_sorted comp ((cw <$> ts1) ++ c.2 :: (cw <$> ts2)) (ks1 ++ ks2)) as [Sk _];
      [rewrite !app_length; simpl; rewrite !fmap_length; lia|done|].
    rewrite (weave_focus (cw <$> ts1) c.2 (cw <$> ts2)) in * by (rewrite fmap_length; lia).
    destruct (reads_ends M h d c.1.1 c.1.2 c.2 HM F2 ltac:(lia)) as [Hhd (el & wl & Hlast)].
    apply (IH c.1.1 c.1.2 c.2 fuel F2); [lia| | | |].
    - apply in_order_app in So as [_ So]. by apply in_order_app in So as [So _].
    - by eapply copied_sub.
    - intros l2 i s B. apply G. by eapply below_trans.
    - destruct ex.
      + (* a separator is met *)
        apply bsearch_arrive in EB as [Bm Ar]. destruct (H1 eq_refl) as (x & Hx & Cx).
        assert (W : well_placed (num (h l)) mid).
        { apply (G l mid x); [constructor|done|by rewrite Sh1|done]. }
        unfold well_placed in W. rewrite Sh2 in W. rewrite Ar in W by lia. subst mid.
        rewrite lookup_app_r in Hx by lia. replace (l' - length ks1) with 0 in Hx by lia.
        destruct ks2 as [|x' ks2]; [done|]. injection Hx as ->. destruct ts2 as [|c2 ts2]; [simpl in *; lia|].
        cbn [fmap list_fmap] in Cp. rewrite wpost_cons in Cp.
        destruct (Cp (wpre (cw <$> ts1) ks1 ++ c.2) x (c2.2 ++ wpost ks2 (cw <$> ts2))) as (a' & e & Ea & Ee).
        { by rewrite <-app_assoc. }
        rewrite Hlast, app_assoc in Ea. apply snoc_eq in Ea as [_ [= ->]].
        exists e. split; [|by eapply cmp_eq_trans, cmp_eq_sym].
        rewrite Hlast. apply elem_entries, elem_of_app. right. by left.
      + (* between two separators *)
        destruct Ex as (e & He & Ce). exists e. split; [|done].
        assert (H2' : forall i x, (ks1 ++ ks2) !! i = Some x -> (i < l' -> (comp k x.1 > 0)%Z) /\ (l' <= i -> (comp k x.1 < 0)%Z)).
        { apply H2; try done; [lia|]. intros i x Hi Hge. apply lookup_lt_Some in Hi. rewrite app_length in Hi. lia. }
        destruct (around k ks1 ks2 ts1 ts2 c.2) as [A1 A2]; try done; [lia|lia| | |].
        * intros x Hx. apply (last_lookup' _ ks2) in Hx as [Hx Hp]. apply (H2' _ _ Hx). lia.
        * intros x Hx. apply (head_lookup' ks1) in Hx. apply (H2' _ _ Hx). lia.
        * rewrite !entries_app, !elem_of_app in He. destruct He as [He|[He|He]]; [|done|];
            apply elem_entries in He; exfalso; [by apply (A1 _ He)|by apply (A2 _ He)].
  Qed.

  (** ** with distinct keys the others are missed *)
  Lemma distinct_two es1 x es2 y es3 : distinct (V := V) comp (es1 ++ x :: es2 ++ y :: es3) -> comp x.1 y.1 <> 0%Z.
  Proof.
    intros D. apply (D x y (es1 ++ es2 ++ es3)). rewrite <-Permutation_middle. f_equiv.
    rewrite (app_assoc es1 es2 (y :: es3)), <-Permutation_middle, <-app_assoc. done.
  Qed.
  Lemma distinct_app es1 es2 x y : distinct (V := V) comp (es1 ++ es2) -> x ∈ es1 -> y ∈ es2 -> comp x.1 y.1 <> 0%Z.
  Proof.
    intros D (a1 & a2 & ->)%elem_of_list_split (b1 & b2 & ->)%elem_of_list_split.
    apply (distinct_two a1 x (a2 ++ b1) y b2). rewrite <-!app_assoc in *. done.
  Qed.
  Lemma distinct_sub es1 es es2 : distinct (V := V) comp (es1 ++ es ++ es2) -> distinct comp es.
  Proof.
    intros D x y rest P. apply (D x y (rest ++ es1 ++ es2)). rewrite (Permutation_app_swap_app es1 es es2), P. cbn. done.
  Qed.

  Lemma reads_sep M h d l fp w l' i s : reads M h d l fp w -> below h l l' -> leaf (h l') = false ->
    take (num (h l')) (vals (h l')) !! i = Some s -> Sep s ∈ w.
  Proof.
    revert l fp w. induction d as [|d IH]; intros l fp w R B Lf Hs; cbn [reads] in R.
    - destruct R as (nx&es&jk&cs&E&_). exfalso. apply below_top in B as [->|(j & r' & A & _)]; rewrite E in *; done.
    - destruct R as (nx&ks&jk&ts&cj&E&N1&N2&L1&L2&->&->&F).
      destruct (inner_shape h l nx ks jk ts cj E N2) as (Sh1 & Sh2 & Sh3 & Sh4).
      apply below_top in B as [->|(j & r' & A1 & A2 & A3 & A4)].
      + rewrite Sh1 in Hs. apply elem_of_list_lookup_2 in Hs. clear - N2 Hs.
        revert ts N2 Hs. induction ks as [|k ks IHk]; intros ts N2 Hs; [by apply elem_of_nil in Hs|].
        destruct ts as [|c ts]; [done|]. cbn [fmap list_fmap weave]. apply elem_of_app. right.
        apply elem_of_cons in Hs as [->|Hs]; [by left|right]. apply IHk; [simpl in *; lia|done].
      + destruct (Sh3 j r' A3 A2) as (cc & Hc & <-). rewrite Forall_forall in F.
        destruct (F cc) as [_ Rc]; [by eapply elem_of_list_lookup_2|].
        specialize (IH _ _ _ Rc A4 Lf Hs).
        destruct (length_split j (S (length ks - j)) ts) as (ts1 & ts2' & -> & Lt1 & Lt2); [rewrite Sh2 in A2; lia|].
        rewrite lookup_app_r in Hc by lia. replace (j - length ts1) with 0 in Hc by lia.
        destruct ts2' as [|c' ts2]; [done|]. injection Hc as ->.
        destruct (length_split j (length ks - j) ks) as (ks1 & ks2 & -> & Lk1 & Lk2); [rewrite Sh2 in A2; lia|].
        rewrite app_length in *. rewrite (fmap_app cw ts1 (cc :: ts2)). cbn [fmap list_fmap].
        rewrite weave_focus by (rewrite fmap_length; simpl in *; lia). rewrite !elem_of_app. auto.
  Qed.

  Lemma two_seps w a s b s' c : copied w -> distinct comp (entries w) -> cmp_ok comp ->
    w = a ++ Sep s :: b ++ Sep s' :: c -> comp s.1 s'.1 <> 0%Z.
  Proof.
    intros Cp D C E Ess.
    destruct (Cp a s _ E) as (a' & e & Ea & Ee).
    destruct (Cp (a ++ Sep s :: b) s' c) as (b' & e' & Eb & Ee'); [by rewrite E, <-app_assoc|].
    destruct b as [|x b _] using rev_ind.
    { apply snoc_eq in Eb as [_ [=]]. }
    rewrite app_comm_cons, app_assoc in Eb. apply snoc_eq in Eb as [_ ->].
    rewrite E, Ea, !entries_app in D.
    change (entries (Sep s :: (b ++ [Entry e']) ++ Sep s' :: c)) with (entries ((b ++ [Entry e']) ++ Sep s' :: c)) in D.
    rewrite !entries_app in D. cbn [entries omap list_omap] in D. cbn [omap list_omap] in D.
    rewrite <-!app_assoc in D. cbn [app] in D.
    apply (distinct_two (entries a') e (entries b) e' _ D).
    apply (cmp_eq_trans _ C _ s.1); [done|]. apply (cmp_eq_trans _ C _ s'.1); [done|]. by apply cmp_eq_sym.
  Qed.

  Lemma weave_sep_pos ws (ks : list (K * V)) i s : length ws = S (length ks) -> ks !! i = Some s ->
    exists a b, weave ws ks = a ++ Sep s :: b.
  Proof.
    revert ws i. induction ks as [|k ks IH]; intros [|w ws] i L Hi; try done. cbn [weave].
    destruct i as [|i]; [injection Hi as ->; eauto|]. cbn in Hi. destruct (IH ws i) as (a & b & ->); [simpl in L; lia|done|].
    exists (w ++ Sep k :: a), b. by rewrite <-app_assoc.
  Qed.
  Lemma weave_two_pos ws (ks : list (K * V)) i j s s' : length ws = S (length ks) -> ks !! i = Some s -> ks !! j = Some s' -> i < j ->
    exists a b c, weave ws ks = a ++ Sep s :: b ++ Sep s' :: c.
  Proof.
    revert ws i j. induction ks as [|k ks IH]; intros [|w ws] i j L Hi Hj Hij; try done. cbn [weave].
    destruct j as [|j]; [lia|]. destruct i as [|i].
    - injection Hi as ->. cbn in Hj. destruct (weave_sep_pos ws ks j s') as (a & b & ->); [simpl in L; lia|done|]. eauto.
    - cbn in Hi, Hj. destruct (IH ws i j) as (a & b & c & ->); [simpl in L; lia|done|done|lia|].
      exists (w ++ Sep k :: a), b, c. by rewrite <-app_assoc.
  Qed.
  Lemma same_sep ws (ks : list (K * V)) i j s s' : cmp_ok comp -> copied (weave ws ks) -> distinct comp (entries (weave ws ks)) ->
    length ws = S (length ks) -> ks !! i = Some s -> ks !! j = Some s' -> comp s.1 s'.1 = 0%Z -> i = j.
  Proof.
    intros C Cp D L Hi Hj E. destruct (lt_eq_lt_dec i j) as [[Hl|Hl]|Hl]; [exfalso|done|exfalso].
    - destruct (weave_two_pos ws ks i j s s' L Hi Hj Hl) as (a & b & c & Ew). by eapply (two_seps _ a s b s' c).
    - destruct (weave_two_pos ws ks j i s' s L Hj Hi Hl) as (a & b & c & Ew). eapply (two_seps _ a s' b s c); [done|done|done|done|].
      by apply cmp_eq_sym.
  Qed.

  Lemma find_bad k M h d l fp w fuel :
    cmp_ok comp -> 2 <= M -> reads M h d l fp w -> d < fuel -> in_order w -> copied w -> distinct comp (entries w) -> bad h l k ->
    exists nd idx, search_loop comp fuel (Some l) k h = Ok (Some nd, Z.of_nat idx, false).
  Proof.
    intros C HM. revert l fp w fuel. induction d as [|d IH]; intros l fp w fuel R Hf So Cp D B.
    { exfalso. destruct B as (l' & i & s & B & Lf & _). cbn [reads] in R. destruct R as (nx&es&jk&cs&E&_).
      apply below_top in B as [->|(j & r' & A & _)]; rewrite E in *; done. }
    destruct (search_loop_ok comp k h M (S d) l fp w fuel R Hf) as (nd0 & idx0 & ex0 & ES0 & _).
    destruct fuel as [|fuel]; [lia|]. cbn [reads] in R. cbn [search_loop deref rbind] in *.
    destruct R as (nx&ks&jk&ts&cj&E&N1&N2&L1&L2&->&->&F).
    destruct (inner_shape h l nx ks jk ts cj E N2) as (Sh1 & Sh2 & Sh3 & Sh4).
    assert (Glf : leaf (h l) = false) by by rewrite E.
    rewrite E. cbn [num vals leaf kids]. clear ES0.
    destruct (bsearch_ok comp k ks jk (S (length ks)) 0 (length ks) 0) as (l' & mid & ex & EB & Hb & H1 & H2); [lia|lia|].
    rewrite EB. cbn [rbind].
    assert (Lw : length (cw <$> ts) = S (length ks)) by by rewrite fmap_length.
    destruct (seps_sorted comp (cw <$> ts) ks Lw So) as [Sk _].
    assert (Hex : forall i x, ks !! i = Some x -> comp k x.1 = 0%Z -> ex = true /\ i = mid).
    { intros i x Hi Cx. destruct ex.
      - split; [done|]. destruct (H1 eq_refl) as (y & Hy & Cy). eapply (same_sep (cw <$> ts) ks); [done|done|done|done|exact Hi|exact Hy|].
        apply (cmp_eq_trans _ C _ k); [by apply cmp_eq_sym|done].
      - exfalso. destruct (H2 eq_refl C Sk) with (i := i) (x := x) as [A1 A2]; try done; [lia| |].
        { intros j y Hy Hj. apply lookup_lt_Some in Hy. lia. }
        destruct (decide (i < l')) as [G|G]; [specialize (A1 G)|specialize (A2 ltac:(lia))]; lia. }
    pose proof (same_sep (cw <$> ts) ks) as Same.
    destruct (length_split l' (S (length ks - l')) ts) as (ts1 & ts2' & -> & Lt1 & Lt2); [lia|].
    destruct ts2' as [|c ts2]; [done|]. simpl in Lt2.
    destruct (length_split l' (length ks - l') ks) as (ks1 & ks2 & -> & Lk1 & Lk2); [lia|].
    rewrite app_length in *. assert (Lts2 : length ts2 = length ks2) by lia. assert (Lts1 : length ts1 = length ks1) by lia.
    rewrite (fmap_app caddr ts1 (c :: ts2)). cbn [fmap list_fmap]. rewrite <-app_assoc. cbn [app].
    rewrite aget_app by (rewrite fmap_length; lia). cbn [rbind].
    pose proof F as F0.
    apply Forall_app in F as [F1 [[F2n F2] F3]%Forall_cons].
    rewrite (fmap_app cw ts1 (c :: ts2)) in *. cbn [fmap list_fmap] in *.
    assert (Ew : weave ((cw <$> ts1) ++ c.2 :: (cw <$> ts2)) (ks1 ++ ks2) = wpre (cw <$> ts1) ks1 ++ c.2 ++ wpost ks2 (cw <$> ts2)).
    { apply weave_focus; rewrite fmap_length; lia. }
    destruct (reads_ends M h d c.1.1 c.1.2 c.2 HM F2 ltac:(lia)) as [Hhd (el & wl & Hlast)].
    destruct B as (lb & i & s & B & Lf & Hs & Cs & NW).
    apply below_top in B as [->|(j & r' & A1 & A2 & A3 & A4)].
    - (* the separator is in this node *)
      rewrite Sh1 in Hs. destruct (Hex i s Hs Cs) as [-> ->].
      apply bsearch_arrive in EB as [Bm Ar]. unfold well_placed in NW. rewrite Sh2, Ar in NW by lia.
      destruct (search_loop_ok comp k h M d c.1.1 c.1.2 c.2 fuel F2 ltac:(lia)) as (nd & idx & exc & -> & Sd & _).
      destruct exc; [exfalso|by exists nd, idx]. destruct (Sd eq_refl) as (e & _ & Ce & He).
      assert (Hli : l' < mid).
      { destruct (decide (mid < l')) as [G|G]; [|lia]. exfalso. clear - Ar Bm G.
        specialize (Ar (length ks1 + length ks2) ltac:(lia)). subst l'.
        assert (A : forall f lo hi m, lo <= m < hi -> arrive f lo hi m <= m).
        { induction f as [|f IHf]; intros lo hi m Hm; cbn [arrive]; [lia|].
          set (q := (lo + hi - 1) / 2). destruct (decide (m < q)); [apply IHf; lia|]. destruct (decide (q < m)); [apply IHf; lia|lia]. }
        specialize (A (length ks1 + length ks2) 0 (length ks1 + length ks2) mid Bm). lia. }
      rewrite lookup_app_r in Hs by lia.
      destruct (elem_of_list_split_length _ _ _ Hs) as (ka & kb & -> & Lka).
      destruct ka as [|k0 ka]; [simpl in Lka; lia|].
      destruct (length_split (S (length ka)) (S (length kb)) (cw <$> ts2)) as (wa & wb & Ewab & Lwa & Lwb).
      { rewrite fmap_length, Lts2, app_length. simpl. lia. }
      assert (Ep : exists pa pb, pa <> [] /\ wpost ((k0 :: ka) ++ s :: kb) (cw <$> ts2) = pa ++ Sep s :: pb).
      { rewrite Ewab. destruct wb as [|wb0 wb]; [done|]. unfold wpost. rewrite zip_with_app by (simpl; lia). rewrite concat_app.
        destruct wa as [|wa0 wa]; [done|]. cbn [zip_with concat].
        exists ((Sep k0 :: wa0) ++ concat (zip_with (fun k1 w1 => Sep k1 :: w1) ka wa)), (wb0 ++ concat (zip_with (fun k1 w1 => Sep k1 :: w1) kb wb)).
        split; done. }
      destruct Ep as (pa & pb & Npa & Ep). cbn [app] in *. rewrite Ep in Ew. rewrite Ew in Cp, D.
      destruct (Cp (wpre (cw <$> ts1) ks1 ++ c.2 ++ pa) s pb) as (a' & e' & Ea & Ee').
      { by rewrite <-!app_assoc. }
      destruct pa as [|x pa _] using rev_ind; [done|].
      rewrite !app_assoc in Ea. apply snoc_eq in Ea as [_ ->].
      rewrite entries_app, (entries_app c.2) in D.
      rewrite (entries_app (pa ++ [Entry e'])) in D.
      assert (D2 : distinct comp ((entries (wpre (cw <$> ts1) ks1) ++ entries c.2) ++ entries (pa ++ [Entry e']) ++ entries (Sep s :: pb))).
      { rewrite <-!app_assoc. rewrite <-?app_assoc in D. exact D. }
      refine (distinct_app _ _ e e' D2 _ _ _).
      + apply elem_of_app. by right.
      + apply elem_of_app. left. apply elem_entries, elem_of_app. right. by left.
      + apply (cmp_eq_trans _ C _ k); [by apply cmp_eq_sym|]. apply (cmp_eq_trans _ C _ s.1); [done|by apply cmp_eq_sym].
    - (* below the child [j] *)
      destruct (Sh3 j r' A3 A2) as (cc & Hc & <-).
      assert (Rc : reads M h d cc.1.1 cc.1.2 cc.2).
      { rewrite Forall_forall in F0. apply F0. by eapply elem_of_list_lookup_2. }
      pose proof (reads_sep M h d _ _ _ _ _ _ Rc A4 Lf Hs) as Hsep.
      assert (Ncc : 1 <= num (h cc.1.1)).
      { rewrite Forall_forall in F0. destruct (F0 cc) as [? _]; [by eapply elem_of_list_lookup_2|]. lia. }
      assert (exists ta tb ka kb, ts1 ++ c :: ts2 = ta ++ cc :: tb /\ ks1 ++ ks2 = ka ++ kb /\ length ta = j /\ length ka = j /\ length tb = length kb)
        as (ta & tb & ka & kb & Et & Ek & Lta & Lka & Ltb).
      { destruct (elem_of_list_split_length _ _ _ Hc) as (ta & tb & Et & Lta).
        destruct (length_split j (length (ks1 ++ ks2) - j) (ks1 ++ ks2)) as (ka & kb & Ek & Lka & Lkb); [rewrite app_length; lia|].
        exists ta, tb, ka, kb. splits; try done. apply (f_equal length) in Et. rewrite !app_length in Et. simpl in Et. rewrite app_length in Lkb. lia. }
      assert (Ew2 : weave ((cw <$> ts1) ++ c.2 :: (cw <$> ts2)) (ks1 ++ ks2) = wpre (cw <$> ta) ka ++ cc.2 ++ wpost kb (cw <$> tb)).
      { replace ((cw <$> ts1) ++ c.2 :: (cw <$> ts2)) with (cw <$> ts1 ++ c :: ts2) by by rewrite fmap_app.
        rewrite Et, Ek, fmap_app. cbn [fmap list_fmap]. apply weave_focus; rewrite fmap_length; lia. }
      destruct (elem_of_list_split _ _ Hsep) as (sa & sb & Esep).
      assert (ex = false) as ->.
      { destruct ex; [exfalso|done]. destruct (H1 eq_refl) as (x & Hx & Cx). rewrite Ek in Hx. rewrite Ew2 in Cp, D.
        assert (Exs : comp x.1 s.1 = 0%Z) by (apply (cmp_eq_trans _ C _ k); [by apply cmp_eq_sym|done]).
        apply lookup_app_Some in Hx as [Hx|[_ Hx]].
        - assert (exists pa pb, wpre (cw <$> ta) ka = pa ++ Sep x :: pb) as (pa & pb & Ep).
          { apply elem_of_list_split. unfold wpre. apply elem_concat.
            destruct (lookup_lt_is_Some_2 (cw <$> ta) mid) as [u Hu]; [rewrite fmap_length; apply lookup_lt_Some in Hx; lia|].
            exists (u ++ [Sep x]). split; [apply elem_of_app; right; by left|].
            apply elem_of_list_lookup. exists mid. rewrite lookup_zip_with, Hu. cbn. rewrite Hx. done. }
          apply (two_seps _ pa x (pb ++ sa) s (sb ++ wpost kb (cw <$> tb)) Cp D C); [|done].
          rewrite Ep, Esep, <-!app_assoc. cbn [app]. by rewrite <-?app_assoc.
        - assert (exists pa pb, wpost kb (cw <$> tb) = pa ++ Sep x :: pb) as (pa & pb & Ep).
          { apply elem_of_list_split. unfold wpost. apply elem_concat.
            destruct (lookup_lt_is_Some_2 (cw <$> tb) (mid - length ka)) as [u Hu]; [rewrite fmap_length; apply lookup_lt_Some in Hx; lia|].
            exists (Sep x :: u). split; [by left|].
            apply elem_of_list_lookup. exists (mid - length ka). rewrite lookup_zip_with, Hx. cbn. rewrite Hu. done. }
          apply (two_seps _ (wpre (cw <$> ta) ka ++ sa) s (sb ++ pa) x pb Cp D C); [|by apply cmp_eq_sym].
          rewrite Ep, Esep, <-!app_assoc. cbn [app]. by rewrite <-?app_assoc. }
      assert (H2' : forall i x, (ks1 ++ ks2) !! i = Some x -> (i < l' -> (comp k x.1 > 0)%Z) /\ (l' <= i -> (comp k x.1 < 0)%Z)).
      { apply H2; try done; [lia|]. intros i' x Hi Hge. apply lookup_lt_Some in Hi. rewrite app_length in Hi. lia. }
      destruct (around k ks1 ks2 ts1 ts2 c.2) as [R1 R2]; try done; [by rewrite <-Ew| | |].
      { intros x Hx. apply (last_lookup' _ ks2) in Hx as [Hx Hp]. apply (H2' _ _ Hx). lia. }
      { intros x Hx. apply (head_lookup' ks1) in Hx. apply (H2' _ _ Hx). lia. }
      assert (j = l') as ->.
      { destruct (lt_eq_lt_dec j l') as [[Hl|Hl]|Hl]; [exfalso|done|exfalso].
        - apply (R1 (Sep s)); [|done]. rewrite lookup_app_l in Hc by lia.
          destruct (lookup_lt_is_Some_2 ks1 j) as [u Hu]; [lia|].
          unfold wpre. apply elem_concat. exists (cc.2 ++ [Sep u]). split; [apply elem_of_app; by left|].
          apply elem_of_list_lookup. exists j. rewrite lookup_zip_with, list_lookup_fmap, Hc. cbn. rewrite Hu. done.
        - apply (R2 (Sep s)); [|done]. rewrite lookup_app_r in Hc by lia.
          destruct (j - length ts1) as [|q] eqn:Eq; [lia|]. change (ts2 !! q = Some cc) in Hc.
          destruct (lookup_lt_is_Some_2 ks2 q) as [u Hu]; [apply lookup_lt_Some in Hc; lia|].
          unfold wpost. apply elem_concat. exists (Sep u :: cc.2). split; [by right|].
          apply elem_of_list_lookup. exists q. apply lookup_zip_with_Some. exists u, cc.2.
          splits; [done|done|]. rewrite list_lookup_fmap. by rewrite Hc. }
      rewrite lookup_app_r in Hc by lia. replace (l' - length ts1) with 0 in Hc by lia. injection Hc as <-.
      apply (IH c.1.1 c.1.2 c.2 fuel F2); [lia| | | |].
      + rewrite Ew in So. apply in_order_app in So as [_ So]. by apply in_order_app in So as [So _].
      + rewrite Ew in Cp. by eapply copied_sub.
      + rewrite Ew, !entries_app in D. by eapply distinct_sub.
      + by exists lb, i, s.
  Qed.

  (** ** whole trees *)
  Lemma search_nonempty t d w k : tree_reads t d w -> has comp k (entries w) -> (size t =? 0)%Z = false.
  Proof.
    intros (r & fp & _ & _ & _ & _ & Sz) (e & He & _). rewrite Sz. destruct (entries w); [by apply elem_of_nil in He|]. by apply Z.eqb_neq; simpl; lia.
  Qed.
  Lemma inner_node_length t d w r l : tree_reads t d w -> root t = Some r -> below (hp t) r l -> leaf (hp t l) = false ->
    length (take (num (hp t l)) (vals (hp t l))) = num (hp t l).
  Proof.
    intros (r' & fp & Er & R & _) Er' B Lf. rewrite Er in Er'. injection Er' as ->. clear Er.
    revert r fp w R B. induction d as [|d IH]; intros r fp w R B; cbn [reads] in R.
    - destruct R as (nx&es&jk&cs&E&_). exfalso. apply below_top in B as [->|(j & r' & A & _)]; rewrite E in *; done.
    - destruct R as (nx&ks&jk&ts&cj&E&N1&N2&L1&L2&->&->&F).
      destruct (inner_shape _ r nx ks jk ts cj E N2) as (Sh1 & Sh2 & Sh3 & Sh4).
      apply below_top in B as [->|(j & r' & A1 & A2 & A3 & A4)]; [by rewrite Sh1|].
      destruct (Sh3 j r' A3 A2) as (cc & Hc & <-). rewrite Forall_forall in F.
      destruct (F cc) as [_ Rc]; [by eapply elem_of_list_lookup_2|]. by eapply IH.
  Qed.
  Lemma findable_good t d w r k : tree_reads t d w -> root t = Some r -> findable comp t k -> good (hp t) r k.
  Proof.
    intros T Er G l i s B Lf Hs Ce. rewrite <-(inner_node_length t d w r l T Er B Lf).
    apply (G _ i s); [|done|done]. by exists r, l.
  Qed.

  Lemma contains_found t d w k : cmp_ok comp -> 2 <= degree t -> grown comp t d w ->
    has comp k (entries w) -> findable comp t k -> contains_key comp k t = Ok true.
  Proof.
    intros C HM (T & So & Cp & _) Hk Fi. pose proof (tree_fuel _ _ _ T) as Hf. pose proof (search_nonempty t d w k T Hk) as Sz.
    pose proof T as (r & fp & Er & R & _).
    unfold contains_key, search. rewrite Sz, Er.
    destruct (find_good k (degree t) (hp t) d r fp w (S (brk t)) C HM R Hf So Cp) as (nd & idx & ->); [|done|done].
    by apply (findable_good t d w r k).
  Qed.
  Lemma contains_findable t d w k : cmp_ok comp -> 2 <= degree t -> grown comp t d w -> distinct comp (entries w) ->
    contains_key comp k t = Ok true -> findable comp t k.
  Proof.
    intros C HM (T & So & Cp & _) D E ks i s (r & l & Er & B & Lf & ->) Hs Ce.
    rewrite (inner_node_length t d w r l T Er B Lf). unfold well_placed.
    destruct (decide (arrive (num (hp t l)) 0 (num (hp t l)) i = i)) as [G|G]; [done|exfalso].
    pose proof (tree_fuel _ _ _ T) as Hf. destruct T as (r' & fp & Er' & R & _). rewrite Er in Er'. injection Er' as <-.
    unfold contains_key, search in E. destruct (size t =? 0)%Z; [done|]. rewrite Er in E.
    destruct (find_bad k (degree t) (hp t) d r fp w (S (brk t)) C HM R Hf So Cp D) as (nd & idx & EE); [by exists l, i, s|].
    rewrite EE in E. done.
  Qed.

  (** ** few separators *)
  Lemma weave_separators_ge ws (ks : list (K * V)) : length ws = S (length ks) -> length ks <= length (separators (weave ws ks)).
  Proof.
    revert ws. induction ks as [|k ks IH]; intros [|w ws] L; try done; [simpl; lia|]. cbn [weave].
    rewrite separators_app. change (separators (Sep k :: weave ws ks)) with (k :: separators (weave ws ks)).
    rewrite app_length. simpl. specialize (IH ws ltac:(simpl in L; lia)). lia.
  Qed.
  Lemma inner_node_few M h d l fp w l' : reads M h d l fp w -> below h l l' -> leaf (h l') = false -> num (h l') <= length (separators w).
  Proof.
    revert l fp w. induction d as [|d IH]; intros l fp w R B Lf; cbn [reads] in R.
    - destruct R as (nx&es&jk&cs&E&_). exfalso. apply below_top in B as [->|(j & r' & A & _)]; rewrite E in *; done.
    - destruct R as (nx&ks&jk&ts&cj&E&N1&N2&L1&L2&->&->&F).
      destruct (inner_shape h l nx ks jk ts cj E N2) as (Sh1 & Sh2 & Sh3 & Sh4).
      apply below_top in B as [->|(j & r' & A1 & A2 & A3 & A4)].
      + rewrite Sh2. apply weave_separators_ge. by rewrite fmap_length.
      + destruct (Sh3 j r' A3 A2) as (cc & Hc & <-). rewrite Forall_forall in F.
        destruct (F cc) as [_ Rc]; [by eapply elem_of_list_lookup_2|].
        specialize (IH _ _ _ Rc A4 Lf). etrans; [exact IH|].
        destruct (length_split j (S (length ks - j)) ts) as (ts1 & ts2' & -> & Lt1 & Lt2); [rewrite Sh2 in A2; lia|].
        rewrite lookup_app_r in Hc by lia. replace (j - length ts1) with 0 in Hc by lia.
        destruct ts2' as [|c' ts2]; [done|]. injection Hc as ->.
        destruct (length_split j (length ks - j) ks) as (ks1 & ks2 & -> & Lk1 & Lk2); [rewrite Sh2 in A2; lia|].
        rewrite app_length in *. rewrite (fmap_app cw ts1 (cc :: ts2)). cbn [fmap list_fmap].
        rewrite weave_focus by (rewrite fmap_length; simpl in *; lia). rewrite !separators_app, !app_length. lia.
  Qed.
  Lemma well_placed_small n i : n <= 2 -> i < n -> well_placed n i.
  Proof. intros Hn Hi. destruct n as [|[|[|n]]]; [lia| | |lia]; destruct i as [|[|i]]; try lia; done. Qed.
  Lemma findable_few t d w k : tree_reads t d w -> length (separators w) <= 2 -> findable comp t k.
  Proof.
    intros T Hl ks i s (r & l & Er & B & Lf & ->) Hs _. rewrite (inner_node_length t d w r l T Er B Lf).
    apply lookup_lt_Some in Hs. rewrite (inner_node_length t d w r l T Er B Lf) in Hs.
    destruct T as (r' & fp & Er' & R & _). rewrite Er in Er'. injection Er' as <-.
    pose proof (inner_node_few _ _ _ _ _ _ _ R B Lf). apply well_placed_small; lia.
  Qed.
  (** with at most 4M-3 entries every lookup is right *)
  Lemma few_lookup t d w k : cmp_ok comp -> 2 <= degree t -> grown comp t d w -> length (entries w) <= 4 * degree t - 3 ->
    exists o, found_entry comp k t = Ok o /\ contains_key comp k t = Ok (bool_decide (is_Some o))
      /\ match o with Some e => e ∈ entries w /\ comp k e.1 = 0%Z | None => ~ has comp k (entries w) end.
  Proof.
    intros C HM G L. pose proof G as (T & So & Cp & Th). destruct (found_entry_ok comp k t d w T) as (o & EF & EC & S1 & _).
    exists o. splits; try done. destruct o as [e|]; [destruct (S1 e eq_refl); auto|]. intros Hk.
    rewrite (contains_found t d w k C HM G Hk) in EC; [by rewrite bool_decide_false in EC by by intros [? ?]|].
    apply (findable_few t d w k T). destruct (separators w) as [|s1 [|s2 [|s3 ss]]] eqn:Es; simpl; try lia. exfalso.
    pose proof (thick_counts s1.1 s1.2 comp (fun _ _ => 0%Z) (degree t) w Th) as Tc. rewrite Es in Tc. specialize (Tc ltac:(done)). simpl in Tc. nia.
  Qed.
End exact.

Section small.
  Context {K V : Type} (kzero : K) (vzero : V) (comp : K -> K -> Z) (compV : V -> V -> Z).
  Lemma few_op o (t : @tree K V) d w : cmp_ok comp -> 2 <= degree t -> grown comp t d w -> no_delete o -> length (entries w) <= 4 * degree t - 3 ->
    exists t' r d' w', do_op kzero vzero comp compV o t = Ok (t', r) /\ grown comp t' d' w' /\ degree t' = degree t
      /\ right_effect vzero comp compV o (entries w) (entries w') r
      /\ length (entries w') <= length (entries w) + (if is_insert o then 1 else 0).
  Proof.
    intros C HM G N L. destruct (grown_op kzero vzero comp compV o t d w C HM G N) as (t' & r & d' & w' & E & G' & Hd & Hr).
    exists t', r, d', w'. splits; try done.
    - destruct o as [k v|k v|k|k v|k]; cbn [is_insert right_effect] in *; try done.
      + destruct Hr as [(-> & k' & v' & [[= <- <-]|[? _]] & P)|(_ & _ & _ & ? & ? & ? & _)]; done.
      + destruct (few_lookup comp t d w k C HM G L) as (o & EF & EC & Ho).
        destruct Hr as [(-> & k' & v' & [?|[[= <- <-] Ec]] & P)|(-> & -> & -> & k' & v' & [= <- <-] & Ec)]; [done|right|left].
        * rewrite EC in Ec. destruct o as [e|]; [by rewrite bool_decide_true in Ec by by eexists|]. done.
        * rewrite EC in Ec. destruct o as [e|]; [|by rewrite bool_decide_false in Ec by by intros [? ?]]. splits; try done. exists e. tauto.
      + destruct Hr as [-> ->]. split; [done|]. destruct (few_lookup comp t d w k C HM G L) as (o & EF & EC & Ho).
        cbn [do_op] in E. unfold get_verify in E. rewrite EF in E. cbn [rbind] in E. destruct o as [e|]; cbn [rbind] in E; injection E as <-.
        * right. exists e. tauto.
        * by left.
    - destruct (is_insert o); [|destruct Hr as [_ ->]; lia].
      destruct Hr as [(_ & k' & v' & _ & P)|(_ & _ & -> & _)]; [rewrite P; simpl; lia|lia].
  Qed.
  Lemma few_run os : cmp_ok comp -> forall (t : @tree K V) d w, 2 <= degree t -> grown comp t d w -> Forall no_delete os ->
    length (entries w) + insertions os <= 4 * degree t - 3 ->
    exists t' rs d' w', run kzero vzero comp compV os t = Ok (t', rs) /\ grown comp t' d' w'
      /\ right_history vzero comp compV (entries w) os rs (entries w').
  Proof.
    intros C. induction os as [|o os IH]; intros t d w HM G N L.
    { exists t, [], d, w. splits; try done. constructor. }
    apply Forall_cons in N as [N1 N2].
    assert (Li : insertions (o :: os) = (if is_insert o then 1 else 0) + insertions os).
    { unfold insertions. cbn [List.filter]. by destruct (is_insert o). }
    destruct (few_op o t d w C HM G N1 ltac:(lia)) as (t1 & r & d1 & w1 & E1 & G1 & Hd & Re & L1).
    destruct (IH t1 d1 w1) as (t2 & rs & d2 & w2 & E2 & G2 & Rh); [lia|done|done|rewrite Hd; lia|].
    exists t2, (r :: rs), d2, w2. cbn [run]. rewrite E1. cbn [rbind]. rewrite E2. cbn [rbind]. splits; try done. by econstructor.
  Qed.
End small.
