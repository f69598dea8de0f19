(** Lookup. *)
From Verif Require Import Base BPlus_Model BPlus_Spec BPlus_Proofs BPlus_Proofs2 BPlus_Proofs3 BPlus_Proofs4 BPlus_Proofs5.

Section search.
  Context {K V : Type} (comp : K -> K -> Z).
  Implicit Types (t : @tree K V) (w : list (@item K V)) (h : nat -> @node K V).
  Notation child := (nat * list nat * list (@item K V))%type.
  Notation caddr := (fun c : child => Some c.1.1).
  Notation cfp := (fun c : child => c.1.2).
  Notation cw := (fun c : child => c.2).

  Lemma bsearch_ok k (ks J : list (K * V)) fuel l hi mid :
    l <= hi <= length ks -> hi - l < fuel ->
    exists l' mid' ex, bsearch comp fuel k (ks ++ J) l hi mid = Ok (l', mid', ex) /\ l <= l' <= hi
      /\ (ex = true -> exists x, ks !! mid' = Some x /\ comp k x.1 = 0%Z)
      /\ (ex = false -> cmp_ok comp -> StronglySorted (fun a b => (comp a.1 b.1 <= 0)%Z) ks ->
          (forall i x, ks !! i = Some x -> i < l -> (comp k x.1 > 0)%Z) ->
          (forall i x, ks !! i = Some x -> hi <= i -> (comp k x.1 < 0)%Z) ->
          forall i x, ks !! i = Some x -> (i < l' -> (comp k x.1 > 0)%Z) /\ (l' <= i -> (comp k x.1 < 0)%Z)).
  Proof.
    revert l hi mid. induction fuel as [|fuel IH]; intros l hi mid Hl Hf; [lia|].
    cbn [bsearch]. destruct (decide (l < hi)) as [L|L]; cycle 1.
    { exists l, mid, false. splits; [done|lia|lia|done|]. intros _ C S Hlo Hhi i x Hx. split; intros Hi; [by eapply Hlo|eapply Hhi; [done|lia]]. }
    set (m := (l + hi - 1) / 2). assert (Hm : l <= m < hi) by (unfold m; lia).
    destruct (lookup_lt_is_Some_2 ks m) as [x Ex]; [lia|].
    unfold aget at 1. rewrite lookup_app_l, Ex by lia. cbn [deref rbind].
    assert (Srt : StronglySorted (fun a b : K * V => (comp a.1 b.1 <= 0)%Z) ks -> forall i j a b, i < j -> ks !! i = Some a -> ks !! j = Some b -> (comp a.1 b.1 <= 0)%Z).
    { intros S i j a b Hij Ha Hb. apply (strong_app (fun a b : K * V => (comp a.1 b.1 <= 0)%Z) (take j ks) (drop j ks)); [by rewrite take_drop| |].
      - apply elem_of_list_lookup. exists i. by rewrite lookup_take.
      - apply elem_of_list_lookup. exists 0. rewrite lookup_drop, Nat.add_0_r. done. }
    destruct (Z.ltb_spec (comp k x.1) 0) as [C1|C1]; [|destruct (Z.ltb_spec 0 (comp k x.1)) as [C2|C2]].
    - destruct (IH l m m) as (l' & mid' & ex & E & Hb & H1 & H2); [lia|lia|]. exists l', mid', ex. splits; [done|lia|lia|done|].
      intros Hx C S Hlo Hhi. apply H2; try done. intros i y Hy Hi. destruct (decide (i = m)) as [->|]; [congruence|].
      assert ((comp x.1 y.1 <= 0)%Z) by (apply (Srt S m i); [lia|done|done]). by eapply cmp_lt_le_trans.
    - destruct (IH (m + 1) hi m) as (l' & mid' & ex & E & Hb & H1 & H2); [lia|lia|]. exists l', mid', ex. splits; [done|lia|lia|done|].
      intros Hx C S Hlo Hhi. apply H2; try done. intros i y Hy Hi. destruct (decide (i = m)) as [->|]; [replace y with x by congruence; lia|].
      assert (G : (comp y.1 x.1 <= 0)%Z) by (apply (Srt S i m); [lia|done|done]).
      assert (G2 : (comp x.1 k < 0)%Z) by (apply cmp_lt_gt; [done|lia]).
      pose proof (cmp_le_lt_trans _ C _ _ _ G G2) as G3. apply cmp_lt_gt in G3; [lia|done].
    - exists l, m, true. splits; [done|lia|lia| |done]. intros _. exists x. split; [done|lia].
  Qed.

  Lemma entries_sorted es : in_order comp (Entry <$> es) <-> StronglySorted (fun a b : K * V => (comp a.1 b.1 <= 0)%Z) es.
  Proof.
    unfold in_order. induction es as [|e es IH]; cbn [fmap list_fmap]; [split; constructor|].
    split; intros H; inversion H as [|?? H1 H2]; subst; (constructor; [by apply IH|]); [by rewrite Forall_fmap in H2|by rewrite Forall_fmap].
  Qed.

  Lemma seps_sorted ws ks : length ws = S (length ks) -> in_order comp (weave ws ks) ->
    StronglySorted (fun a b : K * V => (comp a.1 b.1 <= 0)%Z) ks /\ forall k, k ∈ ks -> Sep k ∈ weave ws ks.
  Proof.
    unfold in_order. revert ws. induction ks as [|k ks IH]; intros [|w ws]; cbn [weave]; try done.
    { intros _ _. split; [constructor|]. by intros ? ?%elem_of_nil. }
    intros [= L] S. apply strong_app in S as (_ & S & _). inversion S as [|?? S1 S2]; subst.
    destruct (IH ws L S1) as [I1 I2]. split.
    - constructor; [done|]. apply Forall_forall. intros y Hy. rewrite Forall_forall in S2. apply (S2 (Sep y)). by apply I2.
    - intros y [->|Hy]%elem_of_cons; apply elem_of_app; right; [by left|right; by apply I2].
  Qed.

  Lemma search_loop_ok k h M d l fp w fuel :
    reads M h d l fp w -> d < fuel ->
    exists nd idx ex, search_loop comp fuel (Some l) k h = Ok (Some nd, Z.of_nat idx, ex)
      /\ (ex = true -> exists e, aget (vals (h nd)) idx = Ok e /\ comp k e.1 = 0%Z /\ e ∈ entries w)
      /\ (ex = false -> cmp_ok comp -> in_order comp w -> (forall s, s ∈ separators w -> comp k s.1 <> 0%Z) ->
          forall e, e ∈ entries w -> comp k e.1 <> 0%Z).
  Proof.
    revert l fp w fuel. induction d as [|d IH]; intros l fp w fuel R Hf; (destruct fuel as [|fuel]; [lia|]);
      cbn [reads] in R; cbn [search_loop deref rbind].
    - destruct R as (nx&es&jk&cs&E&L1&L2&->&->). rewrite E. cbn [num vals leaf].
      destruct (bsearch_ok k es jk (S (length es)) 0 (length es) 0) as (l' & mid & ex & EB & Hb & H1 & H2); [lia|lia|].
      rewrite EB. cbn [rbind]. destruct ex.
      + exists l, mid, true. split; [done|]. split; [|done]. intros _. destruct (H1 eq_refl) as (x & Hx & Cx).
        exists x. rewrite E. cbn [vals]. rewrite entries_leaf. splits; [|done|by eapply elem_of_list_lookup_2].
        unfold aget. by rewrite (lookup_app_l_Some _ _ _ _ Hx).
      + exists l, l', false. split; [done|]. split; [done|]. intros _ C S _ e. rewrite entries_leaf.
        intros [i Hi]%elem_of_list_lookup. apply entries_sorted in S.
        destruct (H2 eq_refl C S) with (i := i) (x := e) as [A B]; try done; [lia| |].
        { intros j y Hy Hj. apply lookup_lt_Some in Hy. lia. }
        destruct (decide (i < l')) as [G|G]; [specialize (A G)|specialize (B ltac:(lia))]; lia.
    - destruct R as (nx&ks&jk&ts&cj&E&N1&N2&L1&L2&->&->&F). rewrite E. cbn [num vals leaf kids].
      destruct (bsearch_ok k ks jk (S (length ks)) 0 (length ks) 0) as (l' & mid & ex & EB & Hb & H1 & H2); [lia|lia|].
      rewrite EB. cbn [rbind].
      destruct (length_split l' (S (length ks - l')) ts) as (ts1 & ts2' & -> & Lt1 & Lt2); [lia|].
      destruct ts2' as [|c ts2]; [done|]. simpl in Lt2.
      destruct (length_split l' (length ks - l') ks) as (ks1 & ks2 & -> & Lk1 & Lk2); [lia|].
      rewrite app_length in *.
      rewrite (fmap_app caddr ts1 (c :: ts2)). cbn [fmap list_fmap]. rewrite <-app_assoc. cbn [app].
      rewrite aget_app by (rewrite fmap_length; lia). cbn [rbind].
      apply Forall_app in F as [F1 [[F2n F2] F3]%Forall_cons].
      destruct (IH _ _ _ fuel F2 ltac:(lia)) as (nd & idx & ex' & ES & G1 & G2).
      exists nd, idx, ex'. split; [done|].
      rewrite (fmap_app cw ts1 (c :: ts2)). cbn [fmap list_fmap].
      rewrite (weave_focus (cw <$> ts1) c.2 (cw <$> ts2)) by (rewrite fmap_length; lia).
      split.
      + intros Hx. destruct (G1 Hx) as (e & A1 & A2 & A3). exists e. splits; [done|done|]. rewrite !entries_app, !elem_of_app. auto.
      + intros Hx C S HS e He.
        assert (Sall : StronglySorted (fun a b : K * V => (comp a.1 b.1 <= 0)%Z) (ks1 ++ ks2) /\ forall k, k ∈ ks1 ++ ks2 -> Sep k ∈ wpre (cw <$> ts1) ks1 ++ c.2 ++ wpost ks2 (cw <$> ts2)).
        { rewrite <-(weave_focus (cw <$> ts1) c.2 (cw <$> ts2)) by (rewrite fmap_length; lia). apply seps_sorted.
          - rewrite !app_length. simpl. rewrite !fmap_length. lia.
          - rewrite weave_focus by (rewrite fmap_length; lia). done. }
        destruct Sall as [Sk Hsep].
        assert (ex = false) as ->.
        { destruct ex; [|done]. destruct (H1 eq_refl) as (x & Hxm & Cx). exfalso. apply (HS x); [|done].
          apply elem_separators, Hsep. by eapply elem_of_list_lookup_2. }
        assert (H2' : forall i x, (ks1 ++ ks2) !! i = Some x -> (i < l' -> (comp k x.1 > 0)%Z) /\ (l' <= i -> (comp k x.1 < 0)%Z)).
        { apply H2; try done; [lia|]. intros i x Hi Hge. apply lookup_lt_Some in Hi. rewrite app_length in Hi. lia. }
        rewrite !entries_app, !elem_of_app in He. destruct He as [He|[He|He]].
        * intros Ce. apply elem_entries in He. destruct ks1 as [|s ks1 _] using rev_ind.
          { destruct ts1; [|simpl in *; lia]. by apply elem_of_nil in He. }
          assert (G : (comp (item_key (Entry e)) s.1 <= 0)%Z).
          { eapply (fits_pre comp s (cw <$> ts1) (ks1 ++ [s])); [done|rewrite fmap_length; lia|exact S| |done].
            intros x. rewrite last_snoc. intros [= <-]. rewrite cmp_refl by done. lia. }
          destruct (H2' (length ks1) s) as [A _].
          { rewrite <-app_assoc. cbn [app]. by rewrite list_lookup_middle. }
          rewrite app_length in Lk1. simpl in Lk1. specialize (A ltac:(lia)). cbn in G.
          assert (A' : (comp s.1 k < 0)%Z) by (apply cmp_lt_gt; [done|lia]).
          pose proof (cmp_le_lt_trans _ C _ _ _ G A') as G3. apply cmp_lt_gt in G3; [lia|done].
        * apply G2; [done|done| | |done].
          { apply in_order_app in S as [_ S]. by apply in_order_app in S as [S _]. }
          intros s Hs. apply HS. rewrite !separators_app, !elem_of_app. auto.
        * intros Ce. apply elem_entries in He. destruct ks2 as [|s ks2]; [by apply elem_of_nil in He|].
          assert (G : (comp s.1 (item_key (Entry e)) <= 0)%Z).
          { rewrite app_assoc in S. eapply (fits_post comp s (cw <$> ts2) (s :: ks2)); [done|rewrite fmap_length; lia|exact S| |done].
            intros x [= <-]. rewrite cmp_refl by done. lia. }
          destruct (H2' l' s) as [_ A].
          { rewrite <-Lk1. by rewrite list_lookup_middle. }
          specialize (A ltac:(lia)). cbn in G. pose proof (cmp_lt_le_trans _ C _ _ _ A G). lia.
  Qed.

  Lemma tree_fuel t d w : tree_reads t d w -> d < S (brk t).
  Proof.
    intros (r & fp & Er & R & ND & Hb & _). apply reads_depth in R.
    assert (length fp <= brk t); [|lia].
    rewrite <-(seq_length (brk t) 0). apply submseteq_length, NoDup_submseteq; [done|].
    intros x Hx. rewrite Forall_forall in Hb. specialize (Hb x Hx). apply elem_of_seq. lia.
  Qed.

  (** search on a whole tree *)
  Lemma search_ok k t d w : tree_reads t d w ->
    exists nd idx ex, search comp k t = Ok (nd, idx, ex)
      /\ (ex = true -> size t <> 0%Z /\ exists l e, nd = Some l /\ aget (vals (hp t l)) (Z.to_nat idx) = Ok e /\ comp k e.1 = 0%Z /\ e ∈ entries w)
      /\ (ex = false -> cmp_ok comp -> in_order comp w -> (forall s, s ∈ separators w -> comp k s.1 <> 0%Z) ->
          forall e, e ∈ entries w -> comp k e.1 <> 0%Z).
  Proof.
    intros T. pose proof (tree_fuel _ _ _ T) as Hf. destruct T as (r & fp & Er & R & ND & Hb & Hs).
    unfold search. destruct (Z.eqb_spec (size t) 0) as [Z0|Z0].
    - do 3 eexists. split; [done|]. split; [done|]. intros _ _ _ _ e He.
      assert (length (entries w) = 0) as E%length_zero_iff_nil by lia. rewrite E in He. by apply elem_of_nil in He.
    - rewrite Er. destruct (search_loop_ok k (hp t) _ _ _ _ _ (S (brk t)) R Hf) as (nd & idx & ex & E & H1 & H2).
      exists (Some nd), (Z.of_nat idx), ex. split; [done|]. split; [|done]. intros Hx. split; [done|]. destruct (H1 Hx) as (e & A1 & A2 & A3).
      exists nd, e. rewrite Nat2Z.id. done.
  Qed.

  Lemma found_entry_ok k t d w : tree_reads t d w ->
    exists o, found_entry comp k t = Ok o
      /\ contains_key comp k t = Ok (bool_decide (is_Some o))
      /\ (forall e, o = Some e -> comp k e.1 = 0%Z /\ e ∈ entries w)
      /\ (o = None -> cmp_ok comp -> in_order comp w -> (forall s, s ∈ separators w -> comp k s.1 <> 0%Z) ->
          forall e, e ∈ entries w -> comp k e.1 <> 0%Z).
  Proof.
    intros T. destruct (search_ok k t d w T) as (nd & idx & ex & E & H1 & H2).
    unfold found_entry, contains_key. rewrite E. cbn [rbind]. destruct ex.
    - destruct (H1 eq_refl) as (_ & l & e & -> & A1 & A2 & A3). cbn [deref rbind]. rewrite A1. cbn [rbind].
      exists (Some e). rewrite bool_decide_true by by eexists. splits; try done. by intros e' [= <-].
    - exists None. rewrite bool_decide_false by by intros [? ?]. splits; try done. auto.
  Qed.
End search.
