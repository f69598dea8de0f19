(** putRebalanced *)
From Verif Require Import Base RBTree_Model RBTree_Spec RBTree_Proofs RBTree_Proofs2.

Ltac rbs := simpl in *; repeat match goal with |- _ /\ _ => split | |- _ -> _ => intros ? end; try done; try tauto.

Section put.
  Context {K V : Type}.
  Notation btree := (btree K V).
  Notation heap := (heap K V).
  Notation frame := (frame K V).
  Implicit Types (h : heap) (t a b : btree) (C : list frame).

  (** [h'] holds [t'], same entries at the same addresses in the same order *)
  Definition evolve h t h' t' : Prop := is_tree h' t' /\ io t' = io t /\ same_else t h h'.
  Lemma evolve_refl h t : is_tree h t -> evolve h t h t.
  Proof. done. Qed.
  Lemma evolve_trans h t h1 t1 h2 t2 : evolve h t h1 t1 -> evolve h1 t1 h2 t2 -> evolve h t h2 t2.
  Proof.
    intros (H1 & H2 & H3) (H4 & H5 & H6). split; [done|]. split; [congruence|].
    eapply same_else_trans; [done|done|]. unfold locs. by rewrite H2.
  Qed.
  Lemma ev_color h C c l k v a b c' : is_tree h (plug C (T c l k v a b)) ->
    evolve h (plug C (T c l k v a b)) (<[l := set_color c' (h l)]> h) (plug C (T c' l k v a b)).
  Proof. intros H. destruct (tree_color h C c l k v a b c' H). split; [done|]. split; [|done]. by rewrite !io_plug. Qed.
  Lemma ev_left h C c x kx vx a c' y ky vy b d :
    is_tree h (plug C (T c x kx vx a (T c' y ky vy b d))) ->
    exists h', left_rotate h (Some x) = Ok h' /\
      evolve h (plug C (T c x kx vx a (T c' y ky vy b d))) h' (plug C (T c' y ky vy (T c x kx vx a b) d)).
  Proof.
    intros H. destruct (tree_left_rotate _ _ _ _ _ _ _ _ _ _ _ _ _ H) as (h' & E & H1 & H2). exists h'. split; [done|].
    split; [done|]. split; [|done]. rewrite !io_plug. simpl. by repeat (rewrite <- !app_assoc; simpl).
  Qed.
  Lemma ev_right h C c x kx vx a c' y ky vy b d :
    is_tree h (plug C (T c x kx vx (T c' y ky vy d b) a)) ->
    exists h', right_rotate h (Some x) = Ok h' /\
      evolve h (plug C (T c x kx vx (T c' y ky vy d b) a)) h' (plug C (T c' y ky vy d (T c x kx vx b a))).
  Proof.
    intros H. destruct (tree_right_rotate _ _ _ _ _ _ _ _ _ _ _ _ _ H) as (h' & E & H1 & H2). exists h'. split; [done|].
    split; [done|]. split; [|done]. rewrite !io_plug. simpl. by repeat (rewrite <- !app_assoc; simpl).
  Qed.

  (** *** colour conditions on contexts *)
  Fixpoint cbh (C : list frame) (n : nat) : Prop :=
    match C with [] => True | f :: C => bh (fsib f) n /\ cbh C (match fcol f with Red => n | Black => S n end) end.
  Definition top_black (C : list frame) : Prop := match C with [] => False | f :: _ => fcol f = Black end.
  Fixpoint cok (C : list frame) : Prop :=
    match C with
    | [] => True
    | f :: C => no_red_red (fsib f) /\ (fcol f = Red -> col (fsib f) = Black /\ top_black C) /\ cok C
    end.
  Lemma plug_bh C t n : bh t n -> cbh C n -> exists m, bh (plug C t) m.
  Proof.
    revert t n. induction C as [|f C IH]; intros t n Ht HC; [by eexists|]. destruct HC as [H1 H2]. simpl.
    apply (IH _ (match fcol f with Red => n | Black => S n end)); [|done].
    destruct f as [[] ? ? ? s|[] ? ? ? s]; simpl in *; try done; exists n; done.
  Qed.
  Lemma plug_ok C t : no_red_red t -> cok C -> (col t = Red -> C = [] \/ top_black C) -> no_red_red (plug C t).
  Proof.
    revert t. induction C as [|f C IH]; intros t Ht HC Hc; [done|]. destruct HC as (H1 & H2 & H3). simpl. apply IH; [|done|].
    - destruct f as [c ? ? ? s|c ? ? ? s]; simpl in *; splits; try done; intros ->; destruct (H2 eq_refl); split; try done;
        destruct (col t) eqn:E; try done; by destruct (Hc eq_refl).
    - intros E. right. apply H2. by destruct f.
  Qed.
  Lemma plug_black C t : cok C -> C <> [] -> col (plug C t) = Black.
  Proof.
    revert t. induction C as [|f C IH]; intros t HC Hne; [done|]. destruct HC as (H1 & H2 & H3). simpl.
    destruct C as [|f' C]; [|by apply IH]. simpl. assert (col (fill1 f t) = fcol f) as -> by (by destruct f).
    destruct (fcol f) eqn:E; [|done]. by destruct (H2 eq_refl).
  Qed.
  Lemma plug_bh_inv C t m : bh (plug C t) m -> exists n, bh t n /\ cbh C n.
  Proof.
    revert t. induction C as [|f C IH]; intros t H; [by eexists|]. simpl in H. apply IH in H as (n & H1 & H2).
    destruct f as [[] ? ? ? s|[] ? ? ? s]; simpl in *.
    - exists n. tauto.
    - destruct H1 as (m' & -> & H3 & H4). exists m'. done.
    - exists n. tauto.
    - destruct H1 as (m' & -> & H3 & H4). exists m'. done.
  Qed.
  Lemma plug_ok_inv C t : no_red_red (plug C t) -> col (plug C t) = Black ->
    no_red_red t /\ cok C /\ (col t = Red -> top_black C).
  Proof.
    revert t. induction C as [|f C IH]; intros t H Hb; [simpl in *; by rewrite Hb|]. simpl in H, Hb. apply IH in H as (H1 & H2 & H3); [|done].
    destruct f as [c ? ? ? s|c ? ? ? s]; simpl in *; destruct H1 as (H4 & H5 & H6); splits; try done;
      try (intros ->; destruct (H4 eq_refl); split; [done|]; by apply H3);
      intros Hc; destruct c; try done; destruct (H4 eq_refl); congruence.
  Qed.
  Lemma rb_plug C t n : cok C -> cbh C n -> bh t n -> no_red_red t -> (col t = Red -> top_black C) -> red_black (plug C t).
  Proof.
    intros H1 H2 H3 H4 H5. split; [|split].
    - destruct C as [|f C]; [|by apply plug_black]. simpl. destruct (col t) eqn:E; [|done]. by destruct (H5 eq_refl).
    - apply plug_ok; [done|done|]. intros E. right. by apply H5.
    - by eapply plug_bh.
  Qed.

  (** nodes of the context are not the focused node *)
  Lemma tree_nodup h C t : is_tree h (plug C t) -> NoDup (locs t ++ clocs C).
  Proof. intros (_ & _ & H). apply NoDup_cons in H as [_ H]. by rewrite locs_plug' in H. Qed.
  Lemma rootC_in C p : C <> [] -> exists f : frame, rootC p C = Some (floc f) /\ floc f ∈ clocs C.
  Proof.
    revert p. induction C as [|f C IH]; intros p H; [done|]. rewrite rootC_cons. destruct (decide (C = [])) as [->|Hne].
    - exists f. split; [done|]. rewrite clocs_cons. by left.
    - destruct (IH (Some (floc f)) Hne) as (f' & E & Hin). exists f'. split; [done|]. rewrite clocs_cons. right. apply elem_of_app. by right.
  Qed.
  Lemma not_root h C c l k v a b : is_tree h (plug C (T c l k v a b)) -> C <> [] -> Some l <> parent (h 0).
  Proof.
    intros H Hne E. rewrite (tree_root _ _ _ H) in E. destruct (rootC_in C (root_of (T c l k v a b)) Hne) as (f & E' & Hin).
    rewrite E' in E. injection E as ->. apply tree_nodup in H. apply NoDup_app in H as (_ & H & _). apply (H (floc f)); [|done].
    rewrite locs_T. by left.
  Qed.

  Definition blacken t : btree := match t with Leaf => Leaf | T _ l k v a b => T Black l k v a b end.
  Lemma put_done_ok h t : is_tree h t -> t <> Leaf ->
    exists h', put_done h = Ok h' /\ evolve h t h' (blacken t).
  Proof.
    intros H Hne. destruct t as [|c l k v a b]; [done|]. unfold put_done, hdr. simpl.
    pose proof (tree_root h [] _ H) as E. simpl in E. rewrite E. simpl. eexists. split; [done|].
    by apply (ev_color h [] c l k v a b Black).
  Qed.
  Lemma blacken_black t : col t = Black -> blacken t = t.
  Proof. destruct t; simpl; congruence. Qed.
  Lemma plug_not_leaf C c l k v a b : plug C (T c l k v a b) <> Leaf.
  Proof. intros E. apply (f_equal io) in E. rewrite io_plug in E. simpl in E. by destruct (iol C), (io a). Qed.

  Definition put_fixed h t h' : Prop := exists t', evolve h t h' t' /\ red_black t'.

  Lemma finish_black h C c l k v a b n :
    is_tree h (plug C (T c l k v a b)) -> cok C -> cbh C n -> bh (T c l k v a b) n ->
    no_red_red (T c l k v a b) -> (c = Red -> top_black C) ->
    exists h', put_done h = Ok h' /\ put_fixed h (plug C (T c l k v a b)) h'.
  Proof.
    intros H H1 H2 H3 H4 H5. destruct (put_done_ok _ _ H) as (h' & E & Hev); [by apply plug_not_leaf|].
    exists h'. split; [done|]. eexists. split; [exact Hev|]. assert (Hrb : red_black (plug C (T c l k v a b))) by (by eapply rb_plug).
    rewrite blacken_black; [done|apply Hrb].
  Qed.

  Lemma is_red_col h C t : is_tree h (plug C t) -> is_red h (root_of t) = bool_decide (col t = Red).
  Proof. intros H. destruct t as [|c l k v a b]; [done|]. simpl. by rewrite (tree_rd _ _ _ _ _ _ _ _ H). Qed.
  Lemma put_stop fuel h f C c l k v a b : is_tree h (plug (f :: C) (T c l k v a b)) -> fcol f = Black ->
    put_rebalanced (S fuel) h (Some l) = put_done h.
  Proof.
    intros H Hf. cbn [put_rebalanced hdr rd rbind]. rewrite decide_False by (by eapply not_root).
    rewrite (tree_rd _ _ _ _ _ _ _ _ H). cbn [parent rd rbind top].
    assert (ncol (h (floc f)) = fcol f) as ->.
    { destruct f as [c' p kp vp s|c' p kp vp s]; simpl; by rewrite (tree_rd h C c' p kp vp _ _ H). }
    by rewrite decide_True.
  Qed.

  Lemma put_rebalanced_ok m : forall C h l (k : K) (v : V) a b n fuel, length C <= m ->
    is_tree h (plug C (T Red l k v a b)) -> no_red_red (T Red l k v a b) -> bh (T Red l k v a b) n ->
    cbh C n -> cok C -> length C < fuel ->
    exists h', put_rebalanced fuel h (Some l) = Ok h' /\ put_fixed h (plug C (T Red l k v a b)) h'.
  Proof.
    induction m as [m IH] using lt_wf_ind. intros C h l k v a b n fuel Hm H Hr Hb HC HK Hf.
    destruct fuel as [|fuel]; [lia|]. cbn [put_rebalanced hdr rd rbind].
    destruct C as [|f C].
    { (* the node is the root *)
      pose proof (tree_root h [] _ H) as E. cbn [rootC root_of last] in E. rewrite E. rewrite decide_True by done.
      destruct (put_done_ok _ _ H) as (h' & E' & Hev); [done|]. exists h'. split; [done|].
      eexists. split; [exact Hev|]. simpl in Hr, Hb |- *. split; [done|]. split.
      - simpl. split; [done|]. tauto.
      - exists (S n). simpl. exists n. tauto. }
    rewrite decide_False by (by eapply not_root).
    pose proof (tree_rd _ _ _ _ _ _ _ _ H) as Hl. rewrite Hl. cbn [parent rd rbind top].
    assert (Hp : h (floc f) = match f with FL c p kp vp s => Node c (top C) (Some l) (root_of s) kp vp
                                         | FR c p kp vp s => Node c (top C) (root_of s) (Some l) kp vp end).
    { destruct f as [c p kp vp s|c p kp vp s]; [exact (tree_rd h C c p kp vp _ _ H)|exact (tree_rd h C c p kp vp _ _ H)]. }
    assert (Hpc : ncol (h (floc f)) = fcol f) by (rewrite Hp; by destruct f).
    destruct (decide (ncol (h (floc f)) = Black)) as [Eb|Eb].
    { eapply finish_black; try done. intros _. simpl. congruence. }
    assert (Ecol : fcol f = Red) by (destruct (fcol f); congruence). clear Eb Hpc.
    destruct HK as (HK1 & HK2 & HK3). destruct (HK2 Ecol) as [Hsb Htb]. clear HK2.
    destruct C as [|g C]; [done|]. simpl in Htb.
    assert (Hpp : parent (h (floc f)) = Some (floc g)) by (rewrite Hp; by destruct f).
    rewrite Hpp. cbn [rd rbind].
    destruct HC as [HC1 HC2]. rewrite Ecol in HC2. simpl in HC2. destruct HC2 as [HC2 HC3]. rewrite Htb in HC3.
    destruct HK3 as (HK4 & _ & HK5).
    destruct Hr as [Hab Hr]. specialize (Hab eq_refl).
    destruct g as [cg g kg vg u|cg g kg vg u]; cbn [fcol fsib floc] in *; subst cg.
    - (* parent is a left child *)
      destruct f as [cf p kp vp s|cf p kp vp s]; cbn [fcol fsib floc] in *; subst cf; cbn [plug fill1] in H.
      + assert (Hg : h g = Node Black (top C) (Some p) (root_of u) kg vg) by exact (tree_rd h C _ _ _ _ _ _ H).
        rewrite Hg. cbn [left right].
        assert (Hu : is_red h (root_of u) = bool_decide (col u = Red)).
        { exact (is_red_col h (FR Black g kg vg (T Red p kp vp (T Red l k v a b) s) :: C) u H). }
        rewrite decide_True by done.
        rewrite Hu. case_bool_decide as Ecu.
        * (* recolour and go up *)
          destruct u as [|cu ul ku vu u1 u2]; [done|]. simpl in Ecu. subst cu. cbn [root_of wr rbind].
          pose proof (ev_color h (FL Black g kg vg (T Red ul ku vu u1 u2) :: C) Red p kp vp (T Red l k v a b) s Black H) as E1.
          set (h1 := <[p := _]> h) in *. pose proof (proj1 E1) as H1. cbn [plug fill1] in E1, H1.
          pose proof (ev_color h1 (FR Black g kg vg (T Black p kp vp (T Red l k v a b) s) :: C) Red ul ku vu u1 u2 Black H1) as E2.
          set (h2 := <[ul := _]> h1) in *. pose proof (proj1 E2) as H2. cbn [plug fill1] in E2, H2.
          pose proof (ev_color h2 C Black g kg vg _ _ Red H2) as E3.
          set (h3 := <[g := _]> h2) in *. pose proof (proj1 E3) as H3.
          destruct (IH (length C)) with (C := C) (h := h3) (l := g) (k := kg) (v := vg)
            (a := (T Black p kp vp (T Red l k v a b) s)) (b := T Black ul ku vu u1 u2) (n := S n) (fuel := fuel)
            as (h' & E & t' & Hev & Hrb); [simpl in Hm; lia|done|done| | |done|done|simpl in Hf; lia|].
          -- clear -Hr HK1 HK4 Hab Hsb. rbs.
          -- simpl in HC2, Hb |- *. split; exists n; tauto.
          -- exists h'. split; [exact E|]. exists t'. split; [|exact Hrb]. cbn [plug fill1].
             eapply evolve_trans; [exact E1|]. eapply evolve_trans; [exact E2|]. eapply evolve_trans; [exact E3|exact Hev].
        * assert (Hcu : col u = Black) by (destruct (col u); done). clear Ecu Hu.
          assert (Hin : Some l <> right (h p)).
          { rewrite Hp. simpl. intros E. symmetry in E. apply root_in in E.
            pose proof (tree_nodup h (FL Red p kp vp s :: FL Black g kg vg u :: C) _ H) as Hn. apply NoDup_app in Hn as (_ & Hn & _).
            apply (Hn l); [rewrite locs_T; by left|]. rewrite clocs_cons. right. apply elem_of_app. by left. }
          destruct (decide (Some l = right (h p))) as [|_]; [done|]. cbn [rbind wr rd]. rewrite Hl. cbn [rbind wr rd parent top floc].
          pose proof (ev_color h (FL Black g kg vg u :: C) Red p kp vp (T Red l k v a b) s Black H) as E1.
          set (h1 := <[p := _]> h) in *. pose proof (proj1 E1) as H1. cbn [plug fill1] in E1, H1.
          assert (Hp1 : parent (h1 p) = Some g) by (by rewrite (tree_rd h1 (FL Black g kg vg u :: C) _ _ _ _ _ _ H1)).
          rewrite Hp1. cbn [rbind wr rd].
          pose proof (ev_color h1 C Black g kg vg _ _ Red H1) as E2.
          set (h2 := <[g := _]> h1) in *. pose proof (proj1 E2) as H2.
          destruct (ev_right _ _ _ _ _ _ _ _ _ _ _ _ _ H2) as (h3 & Er & E3). rewrite Er. cbn [rbind].
          pose proof (proj1 E3) as H3. destruct fuel as [|fuel]; [simpl in Hf; lia|].
          rewrite (put_stop fuel h3 (FL Black p kp vp (T Red g kg vg s u)) C _ _ _ _ _ _ H3) by done.
          destruct (finish_black h3 C Black p kp vp (T Red l k v a b) (T Red g kg vg s u) (S n)) as (h' & E & t' & Hev & Hrb);
            [done|done|done|simpl in Hb |- *; exists n; tauto|clear -Hr HK1 HK4 Hab Hsb Hcu; rbs|done|].
          exists h'. split; [exact E|]. exists t'. split; [|exact Hrb]. cbn [plug fill1].
             eapply evolve_trans; [exact E1|]. eapply evolve_trans; [exact E2|]. eapply evolve_trans; [exact E3|exact Hev].
      + assert (Hg : h g = Node Black (top C) (Some p) (root_of u) kg vg) by exact (tree_rd h C _ _ _ _ _ _ H).
        rewrite Hg. cbn [left right].
        assert (Hu : is_red h (root_of u) = bool_decide (col u = Red)).
        { exact (is_red_col h (FR Black g kg vg (T Red p kp vp s (T Red l k v a b)) :: C) u H). }
        rewrite decide_True by done.
        rewrite Hu. case_bool_decide as Ecu.
        * (* recolour and go up *)
          destruct u as [|cu ul ku vu u1 u2]; [done|]. simpl in Ecu. subst cu. cbn [root_of wr rbind].
          pose proof (ev_color h (FL Black g kg vg (T Red ul ku vu u1 u2) :: C) Red p kp vp s (T Red l k v a b) Black H) as E1.
          set (h1 := <[p := _]> h) in *. pose proof (proj1 E1) as H1. cbn [plug fill1] in E1, H1.
          pose proof (ev_color h1 (FR Black g kg vg (T Black p kp vp s (T Red l k v a b)) :: C) Red ul ku vu u1 u2 Black H1) as E2.
          set (h2 := <[ul := _]> h1) in *. pose proof (proj1 E2) as H2. cbn [plug fill1] in E2, H2.
          pose proof (ev_color h2 C Black g kg vg _ _ Red H2) as E3.
          set (h3 := <[g := _]> h2) in *. pose proof (proj1 E3) as H3.
          destruct (IH (length C)) with (C := C) (h := h3) (l := g) (k := kg) (v := vg)
            (a := (T Black p kp vp s (T Red l k v a b))) (b := T Black ul ku vu u1 u2) (n := S n) (fuel := fuel)
            as (h' & E & t' & Hev & Hrb); [simpl in Hm; lia|done|done| | |done|done|simpl in Hf; lia|].
          -- clear -Hr HK1 HK4 Hab Hsb. rbs.
          -- simpl in HC2, Hb |- *. split; exists n; tauto.
          -- exists h'. split; [exact E|]. exists t'. split; [|exact Hrb]. cbn [plug fill1].
             eapply evolve_trans; [exact E1|]. eapply evolve_trans; [exact E2|]. eapply evolve_trans; [exact E3|exact Hev].
        * assert (Hcu : col u = Black) by (destruct (col u); done). clear Ecu Hu.
          assert (Hin : Some l = right (h p)) by (by rewrite Hp).
          destruct (decide (Some l = right (h p))) as [_|]; [|done].
          destruct (ev_left h (FL Black g kg vg u :: C) _ _ _ _ _ _ _ _ _ _ _ H) as (h0 & Er0 & E0). rewrite Er0. cbn [rbind rd].
          pose proof (proj1 E0) as H0. cbn [plug fill1] in E0, H0.
          assert (Hl0 : parent (h0 p) = Some l) by (by rewrite (tree_rd h0 (FL Red l k v b :: FL Black g kg vg u :: C) _ _ _ _ _ _ H0)).
          rewrite Hl0. cbn [rbind rd wr].
          pose proof (ev_color h0 (FL Black g kg vg u :: C) Red l k v _ _ Black H0) as E1.
          set (h1 := <[l := _]> h0) in *. pose proof (proj1 E1) as H1. cbn [plug fill1] in E1, H1.
          assert (Hp1 : parent (h1 l) = Some g) by (by rewrite (tree_rd h1 (FL Black g kg vg u :: C) _ _ _ _ _ _ H1)).
          rewrite Hp1. cbn [rbind wr rd].
          pose proof (ev_color h1 C Black g kg vg _ _ Red H1) as E2.
          set (h2 := <[g := _]> h1) in *. pose proof (proj1 E2) as H2.
          destruct (ev_right _ _ _ _ _ _ _ _ _ _ _ _ _ H2) as (h3 & Er & E3). rewrite Er. cbn [rbind].
          pose proof (proj1 E3) as H3. destruct fuel as [|fuel]; [simpl in Hf; lia|].
          rewrite (put_stop fuel h3 (FL Black l k v (T Red g kg vg b u)) C _ _ _ _ _ _ H3) by done.
          destruct (finish_black h3 C Black l k v (T Red p kp vp s a) (T Red g kg vg b u) (S n)) as (h' & E & t' & Hev & Hrb);
            [done|done|done|simpl in Hb |- *; exists n; tauto|clear -Hr HK1 HK4 Hab Hsb Hcu; rbs|done|].
          exists h'. split; [exact E|]. exists t'. split; [|exact Hrb]. cbn [plug fill1].
             eapply evolve_trans; [exact E0|]. eapply evolve_trans; [exact E1|]. eapply evolve_trans; [exact E2|]. eapply evolve_trans; [exact E3|exact Hev].
    - (* parent is a right child *)
      destruct f as [cf p kp vp s|cf p kp vp s]; cbn [fcol fsib floc] in *; subst cf; cbn [plug fill1] in H.
      + assert (Hg : h g = Node Black (top C) (root_of u) (Some p) kg vg) by exact (tree_rd h C _ _ _ _ _ _ H).
        rewrite Hg. cbn [left right].
        assert (Hu : is_red h (root_of u) = bool_decide (col u = Red)).
        { exact (is_red_col h (FL Black g kg vg (T Red p kp vp (T Red l k v a b) s) :: C) u H). }
        rewrite decide_False by (intros E; symmetry in E; apply root_in in E;
          pose proof (tree_nodup h (FL Black g kg vg (T Red p kp vp (T Red l k v a b) s) :: C) u H) as Hn; apply NoDup_app in Hn as (_ & Hn & _);
          apply (Hn p E); rewrite clocs_cons; right; apply elem_of_app; left; cbn [fsib]; rewrite locs_T; by left).
        rewrite Hu. case_bool_decide as Ecu.
        * (* recolour and go up *)
          destruct u as [|cu ul ku vu u1 u2]; [done|]. simpl in Ecu. subst cu. cbn [root_of wr rbind].
          pose proof (ev_color h (FR Black g kg vg (T Red ul ku vu u1 u2) :: C) Red p kp vp (T Red l k v a b) s Black H) as E1.
          set (h1 := <[p := _]> h) in *. pose proof (proj1 E1) as H1. cbn [plug fill1] in E1, H1.
          pose proof (ev_color h1 (FL Black g kg vg (T Black p kp vp (T Red l k v a b) s) :: C) Red ul ku vu u1 u2 Black H1) as E2.
          set (h2 := <[ul := _]> h1) in *. pose proof (proj1 E2) as H2. cbn [plug fill1] in E2, H2.
          pose proof (ev_color h2 C Black g kg vg _ _ Red H2) as E3.
          set (h3 := <[g := _]> h2) in *. pose proof (proj1 E3) as H3.
          destruct (IH (length C)) with (C := C) (h := h3) (l := g) (k := kg) (v := vg)
            (a := T Black ul ku vu u1 u2) (b := (T Black p kp vp (T Red l k v a b) s)) (n := S n) (fuel := fuel)
            as (h' & E & t' & Hev & Hrb); [simpl in Hm; lia|done|done| | |done|done|simpl in Hf; lia|].
          -- clear -Hr HK1 HK4 Hab Hsb. rbs.
          -- simpl in HC2, Hb |- *. split; exists n; tauto.
          -- exists h'. split; [exact E|]. exists t'. split; [|exact Hrb]. cbn [plug fill1].
             eapply evolve_trans; [exact E1|]. eapply evolve_trans; [exact E2|]. eapply evolve_trans; [exact E3|exact Hev].
        * assert (Hcu : col u = Black) by (destruct (col u); done). clear Ecu Hu.
          assert (Hin : Some l = left (h p)) by (by rewrite Hp).
          destruct (decide (Some l = left (h p))) as [_|]; [|done].
          destruct (ev_right h (FR Black g kg vg u :: C) _ _ _ _ _ _ _ _ _ _ _ H) as (h0 & Er0 & E0). rewrite Er0. cbn [rbind rd].
          pose proof (proj1 E0) as H0. cbn [plug fill1] in E0, H0.
          assert (Hl0 : parent (h0 p) = Some l) by (by rewrite (tree_rd h0 (FR Red l k v a :: FR Black g kg vg u :: C) _ _ _ _ _ _ H0)).
          rewrite Hl0. cbn [rbind rd wr].
          pose proof (ev_color h0 (FR Black g kg vg u :: C) Red l k v _ _ Black H0) as E1.
          set (h1 := <[l := _]> h0) in *. pose proof (proj1 E1) as H1. cbn [plug fill1] in E1, H1.
          assert (Hp1 : parent (h1 l) = Some g) by (by rewrite (tree_rd h1 (FR Black g kg vg u :: C) _ _ _ _ _ _ H1)).
          rewrite Hp1. cbn [rbind wr rd].
          pose proof (ev_color h1 C Black g kg vg _ _ Red H1) as E2.
          set (h2 := <[g := _]> h1) in *. pose proof (proj1 E2) as H2.
          destruct (ev_left _ _ _ _ _ _ _ _ _ _ _ _ _ H2) as (h3 & Er & E3). rewrite Er. cbn [rbind].
          pose proof (proj1 E3) as H3. destruct fuel as [|fuel]; [simpl in Hf; lia|].
          rewrite (put_stop fuel h3 (FR Black l k v (T Red g kg vg u a)) C _ _ _ _ _ _ H3) by done.
          destruct (finish_black h3 C Black l k v (T Red g kg vg u a) (T Red p kp vp b s) (S n)) as (h' & E & t' & Hev & Hrb);
            [done|done|done|simpl in Hb |- *; exists n; tauto|clear -Hr HK1 HK4 Hab Hsb Hcu; rbs|done|].
          exists h'. split; [exact E|]. exists t'. split; [|exact Hrb]. cbn [plug fill1].
             eapply evolve_trans; [exact E0|]. eapply evolve_trans; [exact E1|]. eapply evolve_trans; [exact E2|]. eapply evolve_trans; [exact E3|exact Hev].
      + assert (Hg : h g = Node Black (top C) (root_of u) (Some p) kg vg) by exact (tree_rd h C _ _ _ _ _ _ H).
        rewrite Hg. cbn [left right].
        assert (Hu : is_red h (root_of u) = bool_decide (col u = Red)).
        { exact (is_red_col h (FL Black g kg vg (T Red p kp vp s (T Red l k v a b)) :: C) u H). }
        rewrite decide_False by (intros E; symmetry in E; apply root_in in E;
          pose proof (tree_nodup h (FL Black g kg vg (T Red p kp vp s (T Red l k v a b)) :: C) u H) as Hn; apply NoDup_app in Hn as (_ & Hn & _);
          apply (Hn p E); rewrite clocs_cons; right; apply elem_of_app; left; cbn [fsib]; rewrite locs_T; by left).
        rewrite Hu. case_bool_decide as Ecu.
        * (* recolour and go up *)
          destruct u as [|cu ul ku vu u1 u2]; [done|]. simpl in Ecu. subst cu. cbn [root_of wr rbind].
          pose proof (ev_color h (FR Black g kg vg (T Red ul ku vu u1 u2) :: C) Red p kp vp s (T Red l k v a b) Black H) as E1.
          set (h1 := <[p := _]> h) in *. pose proof (proj1 E1) as H1. cbn [plug fill1] in E1, H1.
          pose proof (ev_color h1 (FL Black g kg vg (T Black p kp vp s (T Red l k v a b)) :: C) Red ul ku vu u1 u2 Black H1) as E2.
          set (h2 := <[ul := _]> h1) in *. pose proof (proj1 E2) as H2. cbn [plug fill1] in E2, H2.
          pose proof (ev_color h2 C Black g kg vg _ _ Red H2) as E3.
          set (h3 := <[g := _]> h2) in *. pose proof (proj1 E3) as H3.
          destruct (IH (length C)) with (C := C) (h := h3) (l := g) (k := kg) (v := vg)
            (a := T Black ul ku vu u1 u2) (b := (T Black p kp vp s (T Red l k v a b))) (n := S n) (fuel := fuel)
            as (h' & E & t' & Hev & Hrb); [simpl in Hm; lia|done|done| | |done|done|simpl in Hf; lia|].
          -- clear -Hr HK1 HK4 Hab Hsb. rbs.
          -- simpl in HC2, Hb |- *. split; exists n; tauto.
          -- exists h'. split; [exact E|]. exists t'. split; [|exact Hrb]. cbn [plug fill1].
             eapply evolve_trans; [exact E1|]. eapply evolve_trans; [exact E2|]. eapply evolve_trans; [exact E3|exact Hev].
        * assert (Hcu : col u = Black) by (destruct (col u); done). clear Ecu Hu.
          assert (Hin : Some l <> left (h p)).
          { rewrite Hp. simpl. intros E. symmetry in E. apply root_in in E.
            pose proof (tree_nodup h (FR Red p kp vp s :: FR Black g kg vg u :: C) _ H) as Hn. apply NoDup_app in Hn as (_ & Hn & _).
            apply (Hn l); [rewrite locs_T; by left|]. rewrite clocs_cons. right. apply elem_of_app. by left. }
          destruct (decide (Some l = left (h p))) as [|_]; [done|]. cbn [rbind wr rd]. rewrite Hl. cbn [rbind wr rd parent top floc].
          pose proof (ev_color h (FR Black g kg vg u :: C) Red p kp vp s (T Red l k v a b) Black H) as E1.
          set (h1 := <[p := _]> h) in *. pose proof (proj1 E1) as H1. cbn [plug fill1] in E1, H1.
          assert (Hp1 : parent (h1 p) = Some g) by (by rewrite (tree_rd h1 (FR Black g kg vg u :: C) _ _ _ _ _ _ H1)).
          rewrite Hp1. cbn [rbind wr rd].
          pose proof (ev_color h1 C Black g kg vg _ _ Red H1) as E2.
          set (h2 := <[g := _]> h1) in *. pose proof (proj1 E2) as H2.
          destruct (ev_left _ _ _ _ _ _ _ _ _ _ _ _ _ H2) as (h3 & Er & E3). rewrite Er. cbn [rbind].
          pose proof (proj1 E3) as H3. destruct fuel as [|fuel]; [simpl in Hf; lia|].
          rewrite (put_stop fuel h3 (FR Black p kp vp (T Red g kg vg u s)) C _ _ _ _ _ _ H3) by done.
          destruct (finish_black h3 C Black p kp vp (T Red g kg vg u s) (T Red l k v a b) (S n)) as (h' & E & t' & Hev & Hrb);
            [done|done|done|simpl in Hb |- *; exists n; tauto|clear -Hr HK1 HK4 Hab Hsb Hcu; rbs|done|].
          exists h'. split; [exact E|]. exists t'. split; [|exact Hrb]. cbn [plug fill1].
             eapply evolve_trans; [exact E1|]. eapply evolve_trans; [exact E2|]. eapply evolve_trans; [exact E3|exact Hev].
  Qed.
End put.
