(** deleteRebalanced *)
From Verif Require Import Base RBTree_Model RBTree_Spec RBTree_Proofs RBTree_Proofs2 RBTree_Proofs3.

Section del.
  Context {K V : Type}.
  Notation btree := (btree K V).
  Notation heap := (heap K V).
  Notation frame := (frame K V).
  Implicit Types (h : heap) (t a b x y : btree) (C : list frame).

  (** the subtree at the hole is one black node short *)
  Definition DelSpec (fuel : nat) (C : list frame) : Prop := forall h t n par,
    is_tree h (plug C t) -> no_red_red t -> bh t n -> cbh C (S n) -> cok C -> (t = Leaf -> par = top C) ->
    exists h', delete_rebalanced fuel h (root_of t) par = Ok h' /\ put_fixed h (plug C t) h'.

  Lemma del_stop_root fuel h t par : 0 < fuel -> is_tree h t -> t <> Leaf ->
    exists h', delete_rebalanced fuel h (parent (h 0)) par = Ok h' /\ evolve h t h' (blacken t).
  Proof.
    intros Hf H Hne. destruct fuel as [|fuel]; [lia|]. cbn [delete_rebalanced hdr rd rbind].
    rewrite bool_decide_eq_true_2 by done. simpl. destruct t as [|c l k v a b]; [done|].
    pose proof (tree_root h [] _ H) as E. simpl in E. rewrite E. simpl. eexists. split; [done|].
    by apply (ev_color h [] c l k v a b Black).
  Qed.
  Lemma del_stop_red fuel h C p kp vp a b par n : 0 < fuel ->
    is_tree h (plug C (T Red p kp vp a b)) -> cok C -> cbh C (S n) -> bh a n -> bh b n ->
    no_red_red a -> no_red_red b ->
    exists h', delete_rebalanced fuel h (Some p) par = Ok h' /\ put_fixed h (plug C (T Red p kp vp a b)) h'.
  Proof.
    intros Hf H H1 H2 H3 H4 H5 H6. destruct fuel as [|fuel]; [lia|]. cbn [delete_rebalanced hdr rd rbind].
    assert (black_or_nil h (Some p) = false) as ->.
    { unfold black_or_nil. simpl. by rewrite (tree_rd _ _ _ _ _ _ _ _ H). }
    rewrite orb_true_r. simpl. eexists. split; [done|]. eexists. split; [by apply (ev_color h C Red p kp vp a b Black)|].
    apply (rb_plug _ _ (S n)); try done; simpl; try done. by exists n.
  Qed.

  Lemma del_left_ok fuel C h c p kp vp br kb vb x y t n :
    is_tree h (plug (FL c p kp vp (T Black br kb vb x y) :: C) t) ->
    no_red_red t -> col t = Black -> bh t n -> cbh (FL c p kp vp (T Black br kb vb x y) :: C) (S n) -> cok (FL c p kp vp (T Black br kb vb x y) :: C) ->
    (c = Black -> DelSpec fuel C) -> 0 < fuel ->
    exists h', del_left (delete_rebalanced fuel) h (Some p) (Some br) = Ok h' /\
      put_fixed h (plug (FL c p kp vp (T Black br kb vb x y) :: C) t) h'.
  Proof.
    intros H Ht Hct Hb HC HK Hrec Hfuel. cbn [plug fill1] in H |- *. unfold del_left.
    destruct HC as [(m & [= <-] & HC1 & HC2) HC3]. destruct HK as ((_ & HK1 & HK1') & HK2 & HK3). cbn [fsib fcol] in *.
    assert (Hbr : h br = Node Black (Some p) (root_of x) (root_of y) kb vb)
      by exact (tree_rd h (FR c p kp vp t :: C) _ _ _ _ _ _ H).
    cbn [rd rbind]. rewrite Hbr. cbn [left right].
    assert (Hrx : black_or_nil h (root_of x) = bool_decide (col x = Black)).
    { unfold black_or_nil. rewrite (is_red_col h (FL Black br kb vb y :: FR c p kp vp t :: C) x H). by destruct (col x). }
    assert (Hry : black_or_nil h (root_of y) = bool_decide (col y = Black)).
    { unfold black_or_nil. rewrite (is_red_col h (FR Black br kb vb x :: FR c p kp vp t :: C) y H). by destruct (col y). }
    rewrite Hrx, Hry. destruct (bool_decide (col x = Black) && bool_decide (col y = Black)) eqn:Exy.
    - (* both nephews black: recolour, go up *)
      apply andb_true_iff in Exy as [Ex Ey]. apply bool_decide_eq_true in Ex. apply bool_decide_eq_true in Ey.
      cbn [wr rbind].
      pose proof (ev_color h (FR c p kp vp t :: C) Black br kb vb _ _ Red H) as E1.
      set (h1 := <[br := _]> h) in *. pose proof (proj1 E1) as H1. cbn [plug fill1] in E1, H1.
      destruct c.
      + destruct (del_stop_red fuel h1 C p kp vp t (T Red br kb vb x y) (Some p) n) as (h' & E & t' & Hev & Hrb);
          [done|done|done|done|done|rbs|rbs|rbs|].
        exists h'. split; [done|]. exists t'. split; [|done]. by eapply evolve_trans.
      + destruct (Hrec eq_refl h1 (T Black p kp vp t (T Red br kb vb x y)) (S n) (Some p)) as (h' & E & t' & Hev & Hrb);
          [done|rbs|simpl; exists n; tauto|done|done|done|].
        exists h'. split; [done|]. exists t'. split; [|done]. by eapply evolve_trans.
    - (* a red nephew: at most two rotations, then done *)
      assert (Hxy : col y = Black -> col x = Red).
      { intros Ey. destruct (col x) eqn:Ex; [done|]. apply andb_false_iff in Exy as [E|E]; apply bool_decide_eq_false in E; congruence. }
      assert (Hmid : exists h1 br1 kb1 vb1 x1 y1,
        evolve h (plug C (T c p kp vp t (T Black br kb vb x y))) h1 (plug C (T c p kp vp t (T Black br1 kb1 vb1 x1 y1))) /\
        col y1 = Red /\ bh x1 n /\ bh y1 n /\ no_red_red x1 /\ no_red_red y1 /\
        (if bool_decide (col y = Black) then
          let! h := match root_of x with Some _ => wr (root_of x) (set_color Black) h | None => Ok h end in
          let! h := wr (Some br) (set_color Red) h in
          let! h := right_rotate h (Some br) in
          let! p := rd h (Some p) in
          Ok (h, right p)
        else Ok (h, Some br)) = Ok (h1, Some br1)).
      { clear Hrx Hry Exy. case_bool_decide as Ey.
        - assert (Ex : col x = Red). { by apply Hxy. }
          destruct x as [|cx xl kx vx x1 x2]; [done|]. simpl in Ex. subst cx. cbn [root_of wr rbind].
          pose proof (ev_color h (FL Black br kb vb y :: FR c p kp vp t :: C) Red xl kx vx _ _ Black H) as E1.
          set (h1 := <[xl := _]> h) in *. pose proof (proj1 E1) as H1. cbn [plug fill1] in E1, H1.
          pose proof (ev_color h1 (FR c p kp vp t :: C) Black br kb vb _ _ Red H1) as E2.
          set (h2 := <[br := _]> h1) in *. pose proof (proj1 E2) as H2. cbn [plug fill1] in E2, H2.
          destruct (ev_right h2 (FR c p kp vp t :: C) _ _ _ _ _ _ _ _ _ _ _ H2) as (h3 & Er & E3). rewrite Er. cbn [rbind rd].
          pose proof (proj1 E3) as H3. cbn [plug fill1] in E3, H3.
          rewrite (tree_rd h3 C _ _ _ _ _ _ H3). cbn [right root_of].
          eexists h3, xl, kx, vx, _, _. split; [eapply evolve_trans; [exact E1|]; eapply evolve_trans; [exact E2|exact E3]|].
          simpl in HC1, HC2, HK1, HK1'. split; [done|]. split; [tauto|]. split; [simpl; tauto|]. split; [tauto|]. split; [rbs|done].
        - eexists h, br, kb, vb, _, _. split; [by apply evolve_refl|]. split; [by destruct (col y)|]. tauto. }
      destruct Hmid as (h1 & br1 & kb1 & vb1 & x1 & y1 & E1 & Hy1 & Bx1 & By1 & Nx1 & Ny1 & Hmid).
      cbn [rd rbind] in Hmid. rewrite Hmid. clear Hmid. cbn [rbind rd wr]. pose proof (proj1 E1) as H1.
      rewrite (tree_rd h1 C _ _ _ _ _ _ H1). cbn [ncol].
      destruct y1 as [|cy yl ky vy y2 y3]; [done|]. simpl in Hy1. subst cy.
      pose proof (ev_color h1 (FR c p kp vp t :: C) Black br1 kb1 vb1 _ _ c H1) as E2.
      set (h2 := <[br1 := _]> h1) in *. pose proof (proj1 E2) as H2. cbn [plug fill1] in E2, H2.
      pose proof (ev_color h2 C c p kp vp _ _ Black H2) as E3.
      set (h3 := <[p := _]> h2) in *. pose proof (proj1 E3) as H3.
      assert (Hb3 : h3 br1 = Node c (Some p) (root_of x1) (Some yl) kb1 vb1)
        by exact (tree_rd h3 (FR Black p kp vp t :: C) _ _ _ _ _ _ H3).
      rewrite Hb3. cbn [right wr rbind].
      pose proof (ev_color h3 (FR c br1 kb1 vb1 x1 :: FR Black p kp vp t :: C) Red yl ky vy _ _ Black H3) as E4.
      set (h4 := <[yl := _]> h3) in *. pose proof (proj1 E4) as H4. cbn [plug fill1] in E4, H4.
      destruct (ev_left h4 C _ _ _ _ _ _ _ _ _ _ _ H4) as (h5 & Er & E5). rewrite Er. cbn [rbind rd hdr].
      pose proof (proj1 E5) as H5.
      destruct (del_stop_root fuel h5 (plug C (T c br1 kb1 vb1 (T Black p kp vp t x1) (T Black yl ky vy y2 y3))) (Some p)) as (h' & E & Hev); [done|done|by apply plug_not_leaf|].
      exists h'. split; [exact E|].
      assert (Hrb : red_black (plug C (T c br1 kb1 vb1 (T Black p kp vp t x1) (T Black yl ky vy y2 y3)))).
      { apply (rb_plug _ _ (match c with Red => S n | Black => S (S n) end)); [done|done| | |].
        - simpl in By1. destruct c; simpl; repeat (eexists; split; [done|]); repeat split; try tauto; repeat (eexists; split; [done|]); try tauto.
        - simpl in Ny1. rbs.
        - intros Ec. destruct c; [|destruct C; done]. by destruct (HK2 eq_refl). }
      eexists. split; [|rewrite blacken_black in Hev by apply Hrb; exact Hrb].
      rewrite blacken_black in Hev by apply Hrb.
      eapply evolve_trans; [exact E1|]. eapply evolve_trans; [exact E2|]. eapply evolve_trans; [exact E3|].
      eapply evolve_trans; [exact E4|]. eapply evolve_trans; [exact E5|exact Hev].
  Qed.

  Lemma del_right_ok fuel C h c p kp vp br kb vb x y t n :
    is_tree h (plug (FR c p kp vp (T Black br kb vb y x) :: C) t) ->
    no_red_red t -> col t = Black -> bh t n -> cbh (FR c p kp vp (T Black br kb vb y x) :: C) (S n) -> cok (FR c p kp vp (T Black br kb vb y x) :: C) ->
    (c = Black -> DelSpec fuel C) -> 0 < fuel ->
    exists h', del_right (delete_rebalanced fuel) h (Some p) (Some br) = Ok h' /\
      put_fixed h (plug (FR c p kp vp (T Black br kb vb y x) :: C) t) h'.
  Proof.
    intros H Ht Hct Hb HC HK Hrec Hfuel. cbn [plug fill1] in H |- *. unfold del_right.
    destruct HC as [(m & [= <-] & HC1 & HC2) HC3]. destruct HK as ((_ & HK1 & HK1') & HK2 & HK3). cbn [fsib fcol] in *.
    assert (Hbr : h br = Node Black (Some p) (root_of y) (root_of x) kb vb)
      by exact (tree_rd h (FL c p kp vp t :: C) _ _ _ _ _ _ H).
    cbn [rd rbind]. rewrite Hbr. cbn [left right].
    assert (Hrx : black_or_nil h (root_of x) = bool_decide (col x = Black)).
    { unfold black_or_nil. rewrite (is_red_col h (FR Black br kb vb y :: FL c p kp vp t :: C) x H). by destruct (col x). }
    assert (Hry : black_or_nil h (root_of y) = bool_decide (col y = Black)).
    { unfold black_or_nil. rewrite (is_red_col h (FL Black br kb vb x :: FL c p kp vp t :: C) y H). by destruct (col y). }
    rewrite Hrx, Hry. destruct (bool_decide (col y = Black) && bool_decide (col x = Black)) eqn:Exy.
    - (* both nephews black: recolour, go up *)
      apply andb_true_iff in Exy as [Ey Ex]. apply bool_decide_eq_true in Ex. apply bool_decide_eq_true in Ey.
      cbn [wr rbind].
      pose proof (ev_color h (FL c p kp vp t :: C) Black br kb vb _ _ Red H) as E1.
      set (h1 := <[br := _]> h) in *. pose proof (proj1 E1) as H1. cbn [plug fill1] in E1, H1.
      destruct c.
      + destruct (del_stop_red fuel h1 C p kp vp (T Red br kb vb y x) t (Some p) n) as (h' & E & t' & Hev & Hrb);
          [done|done|done|done|done|rbs|rbs|rbs|].
        exists h'. split; [done|]. exists t'. split; [|done]. by eapply evolve_trans.
      + destruct (Hrec eq_refl h1 (T Black p kp vp (T Red br kb vb y x) t) (S n) (Some p)) as (h' & E & t' & Hev & Hrb);
          [done|rbs|simpl; exists n; tauto|done|done|done|].
        exists h'. split; [done|]. exists t'. split; [|done]. by eapply evolve_trans.
    - (* a red nephew: at most two rotations, then done *)
      assert (Hxy : col y = Black -> col x = Red).
      { intros Ey. destruct (col x) eqn:Ex; [done|]. apply andb_false_iff in Exy as [E|E]; apply bool_decide_eq_false in E; congruence. }
      assert (Hmid : exists h1 br1 kb1 vb1 x1 y1,
        evolve h (plug C (T c p kp vp (T Black br kb vb y x) t)) h1 (plug C (T c p kp vp (T Black br1 kb1 vb1 y1 x1) t)) /\
        col y1 = Red /\ bh x1 n /\ bh y1 n /\ no_red_red x1 /\ no_red_red y1 /\
        (if bool_decide (col y = Black) then
          let! h := match root_of x with Some _ => wr (root_of x) (set_color Black) h | None => Ok h end in
          let! h := wr (Some br) (set_color Red) h in
          let! h := left_rotate h (Some br) in
          let! p := rd h (Some p) in
          Ok (h, left p)
        else Ok (h, Some br)) = Ok (h1, Some br1)).
      { clear Hrx Hry Exy. case_bool_decide as Ey.
        - assert (Ex : col x = Red). { by apply Hxy. }
          destruct x as [|cx xl kx vx x1 x2]; [done|]. simpl in Ex. subst cx. cbn [root_of wr rbind].
          pose proof (ev_color h (FR Black br kb vb y :: FL c p kp vp t :: C) Red xl kx vx _ _ Black H) as E1.
          set (h1 := <[xl := _]> h) in *. pose proof (proj1 E1) as H1. cbn [plug fill1] in E1, H1.
          pose proof (ev_color h1 (FL c p kp vp t :: C) Black br kb vb _ _ Red H1) as E2.
          set (h2 := <[br := _]> h1) in *. pose proof (proj1 E2) as H2. cbn [plug fill1] in E2, H2.
          destruct (ev_left h2 (FL c p kp vp t :: C) _ _ _ _ _ _ _ _ _ _ _ H2) as (h3 & Er & E3). rewrite Er. cbn [rbind rd].
          pose proof (proj1 E3) as H3. cbn [plug fill1] in E3, H3.
          rewrite (tree_rd h3 C _ _ _ _ _ _ H3). cbn [left root_of].
          eexists h3, xl, kx, vx, _, _. split; [eapply evolve_trans; [exact E1|]; eapply evolve_trans; [exact E2|exact E3]|].
          simpl in HC1, HC2, HK1, HK1'. split; [done|]. split; [tauto|]. split; [simpl; tauto|]. split; [tauto|]. split; [rbs|done].
        - eexists h, br, kb, vb, _, _. split; [by apply evolve_refl|]. split; [by destruct (col y)|]. tauto. }
      destruct Hmid as (h1 & br1 & kb1 & vb1 & x1 & y1 & E1 & Hy1 & Bx1 & By1 & Nx1 & Ny1 & Hmid).
      cbn [rd rbind] in Hmid. rewrite Hmid. clear Hmid. cbn [rbind rd wr]. pose proof (proj1 E1) as H1.
      rewrite (tree_rd h1 C _ _ _ _ _ _ H1). cbn [ncol].
      destruct y1 as [|cy yl ky vy y2 y3]; [done|]. simpl in Hy1. subst cy.
      pose proof (ev_color h1 (FL c p kp vp t :: C) Black br1 kb1 vb1 _ _ c H1) as E2.
      set (h2 := <[br1 := _]> h1) in *. pose proof (proj1 E2) as H2. cbn [plug fill1] in E2, H2.
      pose proof (ev_color h2 C c p kp vp _ _ Black H2) as E3.
      set (h3 := <[p := _]> h2) in *. pose proof (proj1 E3) as H3.
      assert (Hb3 : h3 br1 = Node c (Some p) (Some yl) (root_of x1) kb1 vb1)
        by exact (tree_rd h3 (FL Black p kp vp t :: C) _ _ _ _ _ _ H3).
      rewrite Hb3. cbn [left wr rbind].
      pose proof (ev_color h3 (FL c br1 kb1 vb1 x1 :: FL Black p kp vp t :: C) Red yl ky vy _ _ Black H3) as E4.
      set (h4 := <[yl := _]> h3) in *. pose proof (proj1 E4) as H4. cbn [plug fill1] in E4, H4.
      destruct (ev_right h4 C _ _ _ _ _ _ _ _ _ _ _ H4) as (h5 & Er & E5). rewrite Er. cbn [rbind rd hdr].
      pose proof (proj1 E5) as H5.
      destruct (del_stop_root fuel h5 (plug C (T c br1 kb1 vb1 (T Black yl ky vy y2 y3) (T Black p kp vp x1 t))) (Some p)) as (h' & E & Hev); [done|done|by apply plug_not_leaf|].
      exists h'. split; [exact E|].
      assert (Hrb : red_black (plug C (T c br1 kb1 vb1 (T Black yl ky vy y2 y3) (T Black p kp vp x1 t)))).
      { apply (rb_plug _ _ (match c with Red => S n | Black => S (S n) end)); [done|done| | |].
        - simpl in By1. destruct c; simpl; repeat (eexists; split; [done|]); repeat split; try tauto; repeat (eexists; split; [done|]); try tauto.
        - simpl in Ny1. rbs.
        - intros Ec. destruct c; [|destruct C; done]. by destruct (HK2 eq_refl). }
      eexists. split; [|rewrite blacken_black in Hev by apply Hrb; exact Hrb].
      rewrite blacken_black in Hev by apply Hrb.
      eapply evolve_trans; [exact E1|]. eapply evolve_trans; [exact E2|]. eapply evolve_trans; [exact E3|].
      eapply evolve_trans; [exact E4|]. eapply evolve_trans; [exact E5|exact Hev].
  Qed.

  Lemma del_ok m : forall C fuel, length C <= m -> length C < fuel -> DelSpec fuel C.
  Proof.
    induction m as [m IH] using lt_wf_ind. intros C fuel Hm Hf h t n par H Ht Hb HC HK Hpar.
    destruct (col t) eqn:Ect.
    { (* a red node absorbs the missing black *)
      destruct t as [|c l k v a b]; [done|]. simpl in Ect. subst c. simpl in Ht, Hb.
      apply (del_stop_red fuel h C l k v a b par n); try tauto. lia. }
    destruct C as [|f C].
    { (* the root *)
      destruct fuel as [|fuel]; [lia|]. destruct t as [|c l k v a b].
      - cbn [delete_rebalanced hdr rd rbind root_of]. pose proof (tree_root h [] _ H) as E. simpl in E. rewrite E.
        simpl. exists h. split; [done|]. exists Leaf. split; [by apply evolve_refl|]. split; [done|]. split; [done|]. by exists 0.
      - pose proof (tree_root h [] _ H) as E. change (parent (h 0) = Some l) in E. cbn [root_of]. rewrite <- E.
        destruct (del_stop_root (S fuel) h _ par ltac:(lia) H) as (h' & E' & Hev); [done|]. exists h'. split; [done|].
        rewrite blacken_black in Hev by done. eexists. split; [exact Hev|]. split; [done|]. split; [done|]. by eexists. }
    destruct fuel as [|fuel]; [lia|]. cbn [delete_rebalanced hdr rd rbind].
    assert (Hroot : root_of t <> parent (h 0)).
    { destruct t as [|c l k v a b]; [|by eapply not_root]. rewrite (tree_root _ _ _ H).
      destruct (rootC_in (f :: C) None) as (f' & E & _); [done|]. cbn [root_of]. rewrite E. done. }
    rewrite bool_decide_eq_false_2 by done.
    assert (black_or_nil h (root_of t) = true) as ->.
    { unfold black_or_nil. rewrite (is_red_col h _ t H). by rewrite Ect. }
    cbn [negb orb].
    assert ((match root_of t with Some n => parent (h n) | None => par end) = Some (floc f)) as ->.
    { destruct t as [|c l k v a b]; [by apply Hpar|]. simpl. by rewrite (tree_rd _ _ _ _ _ _ _ _ H). }
    cbn [rd rbind]. simpl in Hm, Hf.
    assert (Hrec : DelSpec fuel C) by (apply (IH (length C)); lia).
    assert (Hsib : bh (fsib f) (S n)) by apply HC.
    assert (Hlv : root_of t <> root_of (fsib f)).
    { intros E. destruct t as [|c l k v a b].
      - destruct (fsib f); [simpl in Hsib; lia|done].
      - symmetry in E. apply root_in in E. apply tree_nodup in H. apply NoDup_app in H as (_ & H & _).
        apply (H l); [rewrite locs_T; by left|]. rewrite clocs_cons. right. apply elem_of_app. by left. }
    destruct f as [c p kp vp s|c p kp vp s]; cbn [floc fsib] in *.
    - pose proof (tree_rd h C _ _ _ _ _ _ H) as Hp. rewrite Hp. cbn [left right]. rewrite decide_True by done.
      destruct s as [|cb br kb vb s1 s2]; [simpl in Hsib; lia|]. cbn [root_of rd rbind].
      assert (Hbr : ncol (h br) = cb) by (by rewrite (tree_rd h (FR c p kp vp t :: C) _ _ _ _ _ _ H)).
      rewrite Hbr. destruct cb; cbn [decide].
      + (* red brother *)
        rewrite decide_True by done. destruct HK as (HK1 & HK2 & HK3). cbn [fcol fsib] in *.
        destruct c; [by destruct (HK2 eq_refl)|]. destruct HC as [HC1 HC2]. cbn [fcol fsib] in *.
        cbn [wr rbind].
        pose proof (ev_color h (FR Black p kp vp t :: C) Red br kb vb _ _ Black H) as E1.
        set (h1 := <[br := _]> h) in *. pose proof (proj1 E1) as H1. cbn [plug fill1] in E1, H1.
        pose proof (ev_color h1 C Black p kp vp _ _ Red H1) as E2.
        set (h2 := <[p := _]> h1) in *. pose proof (proj1 E2) as H2.
        destruct (ev_left h2 C _ _ _ _ _ _ _ _ _ _ _ H2) as (h3 & Er & E3). rewrite Er. cbn [rbind rd].
        pose proof (proj1 E3) as H3.
        rewrite (tree_rd h3 (FL Black br kb vb s2 :: C) _ _ _ _ _ _ H3). cbn [right].
        simpl in Hsib, HK1. destruct HK1 as (HK4 & HK5 & HK6). destruct (HK4 eq_refl) as [HK7 HK8].
        destruct s1 as [|c1 b1 k1 v1 x y]; [simpl in Hsib; lia|]. simpl in HK7. subst c1. cbn [root_of].
        destruct (del_left_ok fuel (FL Black br kb vb s2 :: C) h3 Red p kp vp b1 k1 v1 x y t n) as (h' & E & t' & Hev & Hrb);
          [exact H3|done|done|done| | |done|lia|].
        * split; [simpl in Hsib |- *; tauto|]. split; [simpl; tauto|done].
        * simpl in HK5, HK6 |- *. tauto.
        * exists h'. split; [exact E|]. exists t'. split; [|done].
          eapply evolve_trans; [exact E1|]. eapply evolve_trans; [exact E2|]. eapply evolve_trans; [exact E3|exact Hev].
      + rewrite decide_False by done. apply (del_left_ok fuel C h c p kp vp br kb vb s1 s2 t n); try done. lia.
    - pose proof (tree_rd h C _ _ _ _ _ _ H) as Hp. rewrite Hp. cbn [left right]. rewrite decide_False by done.
      destruct s as [|cb br kb vb s1 s2]; [simpl in Hsib; lia|]. cbn [root_of rd rbind].
      assert (Hbr : ncol (h br) = cb) by (by rewrite (tree_rd h (FL c p kp vp t :: C) _ _ _ _ _ _ H)).
      rewrite Hbr. destruct cb; cbn [decide].
      + (* red brother *)
        rewrite decide_True by done. destruct HK as (HK1 & HK2 & HK3). cbn [fcol fsib] in *.
        destruct c; [by destruct (HK2 eq_refl)|]. destruct HC as [HC1 HC2]. cbn [fcol fsib] in *.
        cbn [wr rbind].
        pose proof (ev_color h (FL Black p kp vp t :: C) Red br kb vb _ _ Black H) as E1.
        set (h1 := <[br := _]> h) in *. pose proof (proj1 E1) as H1. cbn [plug fill1] in E1, H1.
        pose proof (ev_color h1 C Black p kp vp _ _ Red H1) as E2.
        set (h2 := <[p := _]> h1) in *. pose proof (proj1 E2) as H2.
        destruct (ev_right h2 C _ _ _ _ _ _ _ _ _ _ _ H2) as (h3 & Er & E3). rewrite Er. cbn [rbind rd].
        pose proof (proj1 E3) as H3.
        rewrite (tree_rd h3 (FR Black br kb vb s1 :: C) _ _ _ _ _ _ H3). cbn [left].
        simpl in Hsib, HK1. destruct HK1 as (HK4 & HK5 & HK6). destruct (HK4 eq_refl) as [HK7 HK8].
        destruct s2 as [|c1 b1 k1 v1 x y]; [simpl in Hsib; lia|]. simpl in HK8. subst c1. cbn [root_of].
        destruct (del_right_ok fuel (FR Black br kb vb s1 :: C) h3 Red p kp vp b1 k1 v1 y x t n) as (h' & E & t' & Hev & Hrb);
          [exact H3|done|done|done| | |done|lia|].
        * split; [simpl in Hsib |- *; tauto|]. split; [simpl; tauto|done].
        * simpl in HK5, HK6 |- *. tauto.
        * exists h'. split; [exact E|]. exists t'. split; [|done].
          eapply evolve_trans; [exact E1|]. eapply evolve_trans; [exact E2|]. eapply evolve_trans; [exact E3|exact Hev].
      + rewrite decide_False by done. apply (del_right_ok fuel C h c p kp vp br kb vb s2 s1 t n); try done. lia.
  Qed.
End del.
