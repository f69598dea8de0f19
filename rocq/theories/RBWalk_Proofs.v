(** Proofs for C76: walking a red-black tree from node to node. *)
From Verif Require Import Base RBTree_Model RBTree_Spec RBTree_Proofs RBTree_Proofs2 RBTree_Proofs3 RBTree_Proofs4 RBTree_Proofs5 RBTree_Proofs6
  RBTree_Proofs7 RBTree_Proofs8 RBTree_Proofs9 RBTree_Proofs10 RBTree_Proofs11 RBWalk_Spec.

Section walk.
  Context {K V : Type}.
  Implicit Types (h : heap K V).
  Lemma locs_T' c l (k : K) (v : V) a b : locs (T c l k v a b) = locs a ++ l :: locs b.
  Proof. unfold locs. cbn [io]. by rewrite fmap_app. Qed.
  Lemma under_step h l y x : left (h l) = Some y \/ right (h l) = Some y -> under h y x -> under h l x.
  Proof.
    intros Hy. induction 1 as [|p z _ IH E|p z _ IH E]; [|by eapply UL|by eapply UR].
    destruct Hy as [Hy|Hy]; [eapply UL|eapply UR]; [apply U0|done|apply U0|done].
  Qed.
  Lemma under_locs h C t0 l x : is_tree h (plug C t0) -> root_of t0 = Some l -> under h l x <-> x ∈ locs t0.
  Proof.
    intros H El. split.
    - assert (Ch : forall p y, p ∈ locs t0 -> left (h p) = Some y \/ right (h p) = Some y -> y ∈ locs t0).
      { intros p y Hp Hy. apply focus_loc in Hp as (C' & c & k & v & a & b & ->).
        rewrite <- plug_app in H. rewrite (tree_rd _ _ _ _ _ _ _ _ H) in Hy. cbn in Hy.
        rewrite locs_plug', locs_T. destruct Hy as [Hy|Hy]; apply root_in in Hy; set_solver. }
      induction 1 as [|p y _ IH E|p y _ IH E]; [by apply root_in|apply (Ch p y IH); by left|apply (Ch p y IH); by right].
    - revert C l H El. induction t0 as [|c l' k v a IHa b IHb]; intros C l H El Hx; [by apply elem_of_nil in Hx|].
      injection El as ->. rewrite locs_T' in Hx. pose proof (tree_rd _ _ _ _ _ _ _ _ H) as Hl.
      pose proof (under_step h l) as Tr.
      rewrite elem_of_app, elem_of_cons in Hx. destruct Hx as [Hx|[->|Hx]]; [|apply U0|].
      + destruct a as [|ca la ka va a1 a2] eqn:Ea; [by apply elem_of_nil in Hx|]. apply (Tr la x); [left; by rewrite Hl|].
        by apply (IHa (FL c l k v b :: C)).
      + destruct b as [|ca la ka va a1 a2] eqn:Ea; [by apply elem_of_nil in Hx|]. apply (Tr la x); [right; by rewrite Hl|].
        by apply (IHb (FR c l k v a :: C)).
  Qed.

  Lemma locs_app (C : list (frame K V)) t0 : locs (plug C t0) = (iol C).*1 ++ locs t0 ++ (ior C).*1.
  Proof. unfold locs. by rewrite io_plug, !fmap_app. Qed.
  Lemma step_ok h bt fuel : is_tree h bt -> height bt <= fuel -> forall a l b, locs bt = a ++ l :: b ->
    next fuel h l = Ok (head b) /\ prev fuel h l = Ok (last a).
  Proof.
    intros H Hf a l b E. assert (Hl : l ∈ locs bt) by (rewrite E; set_solver).
    apply focus_loc in Hl as (C & c & k & v & x & y & ->).
    rewrite (next_ok _ _ _ _ _ _ _ _ _ H Hf), (prev_ok _ _ _ _ _ _ _ _ _ H Hf).
    pose proof H as (_ & _ & ND). apply NoDup_cons in ND as [_ ND].
    rewrite locs_app, locs_T' in E. rewrite locs_app, locs_T' in ND.
    assert (E2 : ((iol C).*1 ++ locs x) ++ l :: (locs y ++ (ior C).*1) = a ++ l :: b) by (rewrite <- E, <- !app_assoc; done).
    assert (N2 : NoDup (((iol C).*1 ++ locs x) ++ l :: (locs y ++ (ior C).*1))) by (by rewrite <- !app_assoc in ND |- *).
    assert (a = (iol C).*1 ++ locs x /\ b = locs y ++ (ior C).*1) as [-> ->].
    { revert E2 N2. generalize ((iol C).*1 ++ locs x), (locs y ++ (ior C).*1). clear. intros p q. revert a.
      induction p as [|z p IH]; intros [|u a] E ND; cbn in E.
      - by injection E as ->.
      - injection E as -> ->. apply NoDup_cons in ND as [ND _]. set_solver.
      - injection E as -> <-. apply NoDup_cons in ND as [ND _]. set_solver.
      - injection E as -> E. apply NoDup_cons in ND as [_ ND]. destruct (IH a E ND) as [-> ->]. done. }
    rewrite !fmap_app. done.
  Qed.
  Lemma leads_next h bt fuel : is_tree h bt -> height bt <= fuel -> leads (next fuel h) (locs bt).
  Proof.
    intros H Hf. assert (G : forall b a, locs bt = a ++ b -> leads (next fuel h) b).
    { induction b as [|l b IH]; intros a E; [done|]. split; [by apply (step_ok h bt fuel H Hf a l b)|]. apply (IH (a ++ [l])). by rewrite <- app_assoc. }
    by apply (G _ []).
  Qed.
  Lemma head_reverse {A} (l : list A) : head (reverse l) = last l.
  Proof. by rewrite <- last_reverse, reverse_involutive. Qed.
  Lemma leads_prev h bt fuel : is_tree h bt -> height bt <= fuel -> leads (prev fuel h) (reverse (locs bt)).
  Proof.
    intros H Hf. assert (G : forall a b, locs bt = a ++ b -> leads (prev fuel h) (reverse a)).
    { induction a as [|l a IH] using rev_ind; intros b E; [done|]. rewrite reverse_app. cbn. rewrite <- app_assoc in E. split; [|by eapply IH].
      rewrite head_reverse. by apply (step_ok h bt fuel H Hf a l b). }
    apply (G _ []). by rewrite app_nil_r.
  Qed.
  Lemma child_ok h bt fuel l : is_tree h bt -> height bt <= fuel -> l ∈ locs bt ->
    exists xs, (forall x, under h l x <-> x ∈ xs) /\ (exists a b, locs bt = a ++ xs ++ b)
      /\ (exists m, min_child fuel h l = Ok m /\ head xs = Some m) /\ (exists m, max_child fuel h l = Ok m /\ last xs = Some m).
  Proof.
    intros H Hf Hl. apply focus_loc in Hl as (C & c & k & v & x & y & ->). exists (locs (T c l k v x y)).
    pose proof (plug_height C (T c l k v x y)). pose proof H as (_ & Hh & _). apply holds_plug in Hh as [Hh _].
    splits.
    - intros z. by eapply under_locs.
    - eexists _, _. by rewrite locs_app.
    - eapply min_child_ok; [exact Hh|done|lia].
    - eapply max_child_ok; [exact Hh|done|lia].
  Qed.
End walk.
