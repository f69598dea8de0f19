(** Rotations, linking and splicing inside a represented tree. *)
From Verif Require Import Base RBTree_Model RBTree_Spec RBTree_Proofs.

Ltac mem := rewrite ?elem_of_cons, ?elem_of_app; tauto.

Section rot.
  Context {K V : Type}.
  Notation btree := (btree K V).
  Notation heap := (heap K V).
  Notation frame := (frame K V).
  Implicit Types (h : heap) (t a b : btree) (C : list frame).

  (** changing the parent pointer of a subtree's root *)
  Lemma holds_reparent h h' par par' t : holds h par t -> NoDup (locs t) ->
    (forall l, root_of t = Some l -> h' l = set_parent par' (h l)) ->
    (forall l, l ∈ locs t -> root_of t <> Some l -> h' l = h l) -> holds h' par' t.
  Proof.
    destruct t as [|c l k v a b]; [done|]. rewrite locs_T. intros (H1 & H2 & H3) [Hnd _]%NoDup_cons Hr He. simpl. splits.
    - rewrite Hr, H1; done.
    - apply (holds_frame h); [done|]. intros l' Hl'. apply He; [set_solver|]. intros [= ->]. set_solver.
    - apply (holds_frame h); [done|]. intros l' Hl'. apply He; [set_solver|]. intros [= ->]. set_solver.
  Qed.
  (** changing the child pointer the context has for its hole *)
  Definition set_hole (f : frame) (p : option loc) (n : node K V) : node K V :=
    match f with FL _ _ _ _ _ => set_left p n | FR _ _ _ _ _ => set_right p n end.
  Lemma holdsC_rechild h h' p p' C : holdsC h p C -> NoDup (clocs C) ->
    (forall f C', C = f :: C' -> h' (floc f) = set_hole f p' (h (floc f))) ->
    (forall l, l ∈ clocs C -> top C <> Some l -> h' l = h l) -> holdsC h' p' C.
  Proof.
    destruct C as [|f C]; [done|]. rewrite clocs_cons. intros H [Hnd _]%NoDup_cons Hf He. specialize (Hf f C eq_refl).
    destruct f as [c l k v s|c l k v s]; destruct H as (H1 & H2 & H3); simpl in *; splits.
    all: try (rewrite Hf, H1; done).
    all: try (apply (holds_frame h); [done|]; intros l' Hl'; apply He; [set_solver|]; intros [= ->]; set_solver).
    all: apply (holdsC_frame h); [done|]; intros l' Hl'; unfold clocs in He, Hnd; apply He; [set_solver|]; intros [= ->]; set_solver.
  Qed.
  Lemma top_in C p : top C = Some p -> p ∈ clocs C.
  Proof. destruct C as [|f C]; [done|]. intros [= <-]. rewrite clocs_cons. by left. Qed.
  Lemma root_in t p : root_of t = Some p -> p ∈ locs t.
  Proof. destruct t; [done|]. intros [= <-]. rewrite locs_T. by left. Qed.

  Lemma tree_left_rotate h C c x kx vx a c' y ky vy b d :
    is_tree h (plug C (T c x kx vx a (T c' y ky vy b d))) ->
    exists h', left_rotate h (Some x) = Ok h' /\
      is_tree h' (plug C (T c' y ky vy (T c x kx vx a b) d)) /\
      same_else (plug C (T c x kx vx a (T c' y ky vy b d))) h h'.
  Proof.
    intros H. pose proof (tree_rd _ _ _ _ _ _ _ _ H) as Hx.
    assert (Hy : h y = Node c' (Some x) (root_of b) (root_of d) ky vy) by exact (tree_rd h (FR c x kx vx a :: C) _ _ _ _ _ _ H).
    destruct H as (Hr & H & Hnd).
    assert (P1 : 0 :: locs (plug C (T c x kx vx a (T c' y ky vy b d))) ≡ₚ 0 :: x :: y :: locs b ++ clocs C ++ locs a ++ locs d).
    { rewrite locs_plug', !locs_T. solve_Permutation. }
    assert (P2 : 0 :: locs (plug C (T c' y ky vy (T c x kx vx a b) d)) ≡ₚ 0 :: x :: y :: locs b ++ clocs C ++ locs a ++ locs d).
    { rewrite locs_plug', !locs_T. solve_Permutation. }
    rewrite root_plug in Hr. apply holds_plug in H as ((_ & Ha & (_ & Hb & Hd)) & HC).
    pose proof Hnd as Hnd0. rewrite P1 in Hnd.
    apply NoDup_cons in Hnd as [N0 Hnd]. apply NoDup_cons in Hnd as [Nx Hnd]. apply NoDup_cons in Hnd as [Ny Hnd].
    apply NoDup_app in Hnd as (Nb & Nb' & Hnd). apply NoDup_app in Hnd as (NC & NC' & Hnd).
    rewrite !elem_of_cons, !elem_of_app in N0. rewrite !elem_of_cons, !elem_of_app in Nx. rewrite !elem_of_app in Ny.
    assert (Hb1 : forall r, root_of b = Some r -> r <> x /\ r <> y /\ r <> 0 /\ top C <> Some r).
    { intros r E. pose proof (root_in _ _ E). splits; try (intros ->; tauto). intros E'%top_in. apply (Nb' r); mem. }
    assert (HC1 : forall p, top C = Some p -> p <> x /\ p <> y /\ p <> 0 /\ root_of b <> Some p).
    { intros r E. pose proof (top_in _ _ E). splits; try (intros ->; tauto). intros E'%root_in. apply (Nb' r); mem. }
    destruct (left_rotate_spec h x y) as (h' & E & Ex & Ey & Er & Ep & E0 & Eo).
    { by rewrite Hx. } { intros ->. tauto. } { intros ->. tauto. } { intros ->. tauto. }
    { rewrite Hy. simpl. intros r Hr'. by destruct (Hb1 r Hr') as (? & ? & ? & ?). }
    { rewrite Hx, Hy. simpl. intros r Hr'. by destruct (HC1 r Hr') as (? & ? & ? & ?). }
    rewrite Hx in Ex, Ep, E0, Eo. rewrite Hy in Ex, Ey, Er, Eo. rewrite Hx in Ey. simpl in Ex, Ey, Er, Ep, E0, Eo.
    exists h'. split; [done|].
    assert (Hout : forall l, l <> 0 -> l <> x -> l <> y -> root_of b <> Some l -> top C <> Some l -> h' l = h l).
    { intros l ? ? ? ? ?. by apply Eo. }
    split; [split; [|split]|split].
    - rewrite E0, root_plug. destruct C as [|f C]; simpl; [done|]. rewrite Hr. by rewrite !rootC_cons.
    - apply holds_plug. cbn [holds root_of]. splits.
      + rewrite Ey. done.
      + rewrite Ex. done.
      + apply (holds_frame h); [done|]. intros l Hl. apply Hout; try (intros ->; tauto).
        * intros E'%root_in. apply (Nb' l); mem.
        * intros E'%top_in. apply (NC' l); mem.
      + apply (holds_reparent h _ (Some y)); [done|done|done|]. intros l Hl Hnr. apply Hout; try (intros ->; tauto); [done|].
        intros E'%top_in. apply (Nb' l); mem.
      + apply (holds_frame h); [done|]. intros l Hl. apply Hout; try (intros ->; tauto).
        * intros E'%root_in. apply (Nb' l); mem.
        * intros E'%top_in. apply (NC' l); mem.
      + apply (holdsC_rechild h _ (Some x)); [done|done| |].
        * intros f C' ->. rewrite (Ep (floc f)) by done. simpl in HC.
          destruct f as [cf l k v s|cf l k v s]; simpl in *; destruct HC as (HC2 & HC3 & HC4).
          -- rewrite decide_True; [done|]. by rewrite HC2.
          -- rewrite decide_False; [done|]. rewrite HC2. simpl. intros E'. symmetry in E'. apply root_in in E'.
             apply Nx. right. right. left. rewrite clocs_cons. mem.
        * intros l Hl Ht. apply Hout; try (intros ->; tauto); [|done].
          intros E'%root_in. apply (Nb' l); mem.
    - rewrite P2. by rewrite P1 in Hnd0.
    - intros l Hl. rewrite P1 in Hl. rewrite !not_elem_of_cons, !not_elem_of_app in Hl. destruct Hl as (? & ? & ? & ? & ? & ? & ?).
      apply Hout; try done; [intros E'%root_in; done|intros E'%top_in; done].
    - rewrite E0. by destruct (top C).
  Qed.
  Lemma tree_right_rotate h C c x kx vx a c' y ky vy b d :
    is_tree h (plug C (T c x kx vx (T c' y ky vy d b) a)) ->
    exists h', right_rotate h (Some x) = Ok h' /\
      is_tree h' (plug C (T c' y ky vy d (T c x kx vx b a))) /\
      same_else (plug C (T c x kx vx (T c' y ky vy d b) a)) h h'.
  Proof.
    intros H. pose proof (tree_rd _ _ _ _ _ _ _ _ H) as Hx.
    assert (Hy : h y = Node c' (Some x) (root_of d) (root_of b) ky vy) by exact (tree_rd h (FL c x kx vx a :: C) _ _ _ _ _ _ H).
    destruct H as (Hr & H & Hnd).
    assert (P1 : 0 :: locs (plug C (T c x kx vx (T c' y ky vy d b) a)) ≡ₚ 0 :: x :: y :: locs b ++ clocs C ++ locs a ++ locs d).
    { rewrite locs_plug', !locs_T. solve_Permutation. }
    assert (P2 : 0 :: locs (plug C (T c' y ky vy d (T c x kx vx b a))) ≡ₚ 0 :: x :: y :: locs b ++ clocs C ++ locs a ++ locs d).
    { rewrite locs_plug', !locs_T. solve_Permutation. }
    rewrite root_plug in Hr. apply holds_plug in H as ((_ & (_ & Hd & Hb) & Ha) & HC).
    pose proof Hnd as Hnd0. rewrite P1 in Hnd.
    apply NoDup_cons in Hnd as [N0 Hnd]. apply NoDup_cons in Hnd as [Nx Hnd]. apply NoDup_cons in Hnd as [Ny Hnd].
    apply NoDup_app in Hnd as (Nb & Nb' & Hnd). apply NoDup_app in Hnd as (NC & NC' & Hnd).
    rewrite !elem_of_cons, !elem_of_app in N0. rewrite !elem_of_cons, !elem_of_app in Nx. rewrite !elem_of_app in Ny.
    assert (Hb1 : forall r, root_of b = Some r -> r <> x /\ r <> y /\ r <> 0 /\ top C <> Some r).
    { intros r E. pose proof (root_in _ _ E). splits; try (intros ->; tauto). intros E'%top_in. apply (Nb' r); mem. }
    assert (HC1 : forall p, top C = Some p -> p <> x /\ p <> y /\ p <> 0 /\ root_of b <> Some p).
    { intros r E. pose proof (top_in _ _ E). splits; try (intros ->; tauto). intros E'%root_in. apply (Nb' r); mem. }
    destruct (right_rotate_spec h x y) as (h' & E & Ex & Ey & Er & Ep & E0 & Eo).
    { by rewrite Hx. } { intros ->. tauto. } { intros ->. tauto. } { intros ->. tauto. }
    { rewrite Hy. simpl. intros r Hr'. by destruct (Hb1 r Hr') as (? & ? & ? & ?). }
    { rewrite Hx, Hy. simpl. intros r Hr'. by destruct (HC1 r Hr') as (? & ? & ? & ?). }
    rewrite Hx in Ex, Ep, E0, Eo. rewrite Hy in Ex, Ey, Er, Eo. rewrite Hx in Ey. simpl in Ex, Ey, Er, Ep, E0, Eo.
    exists h'. split; [done|].
    assert (Hout : forall l, l <> 0 -> l <> x -> l <> y -> root_of b <> Some l -> top C <> Some l -> h' l = h l).
    { intros l ? ? ? ? ?. by apply Eo. }
    split; [split; [|split]|split].
    - rewrite E0, root_plug. destruct C as [|f C]; simpl; [done|]. rewrite Hr. by rewrite !rootC_cons.
    - apply holds_plug. cbn [holds root_of]. splits.
      + rewrite Ey. done.
      + apply (holds_frame h); [done|]. intros l Hl. apply Hout; try (intros ->; tauto).
        * intros E'%root_in. apply (Nb' l); mem.
        * intros E'%top_in. apply (NC' l); mem.
      + rewrite Ex. done.
      + apply (holds_reparent h _ (Some y)); [done|done|done|]. intros l Hl Hnr. apply Hout; try (intros ->; tauto); [done|].
        intros E'%top_in. apply (Nb' l); mem.
      + apply (holds_frame h); [done|]. intros l Hl. apply Hout; try (intros ->; tauto).
        * intros E'%root_in. apply (Nb' l); mem.
        * intros E'%top_in. apply (NC' l); mem.
      + apply (holdsC_rechild h _ (Some x)); [done|done| |].
        * intros f C' ->. rewrite (Ep (floc f)) by done. simpl in HC.
          destruct f as [cf l k v s|cf l k v s]; simpl in *; destruct HC as (HC2 & HC3 & HC4).
          -- rewrite decide_False; [done|]. rewrite HC2. simpl. intros E'. symmetry in E'. apply root_in in E'.
             apply Nx. right. right. left. rewrite clocs_cons. mem.
          -- rewrite decide_True; [done|]. by rewrite HC2.
        * intros l Hl Ht. apply Hout; try (intros ->; tauto); [|done].
          intros E'%root_in. apply (Nb' l); mem.
    - rewrite P2. by rewrite P1 in Hnd0.
    - intros l Hl. rewrite P1 in Hl. rewrite !not_elem_of_cons, !not_elem_of_app in Hl. destruct Hl as (? & ? & ? & ? & ? & ? & ?).
      apply Hout; try done; [intros E'%root_in; done|intros E'%top_in; done].
    - rewrite E0. by destruct (top C).
  Qed.

  (** *** replacing the content of the hole *)
  Lemma tree_replace h h' C t t' :
    is_tree h (plug C t) -> holds h' (top C) t' -> NoDup (0 :: locs t' ++ clocs C) ->
    parent (h' 0) = (if top C then parent (h 0) else root_of t') ->
    (forall f C', C = f :: C' -> h' (floc f) = set_hole f (root_of t') (h (floc f))) ->
    (forall l, l ∈ clocs C -> top C <> Some l -> h' l = h l) ->
    is_tree h' (plug C t').
  Proof.
    intros (H1 & H2 & H3) H4 H5 H6 H7 H8. split; [|split].
    - rewrite H6, root_plug. destruct C as [|f C]; simpl; [done|]. rewrite H1, root_plug. by rewrite !rootC_cons.
    - apply holds_plug in H2 as [_ H2]. apply holds_plug. split; [done|].
      apply (holdsC_rechild h _ (root_of t)); [done| |done|done].
      apply NoDup_cons in H5 as [_ H5]. by apply NoDup_app in H5 as (_ & _ & H5).
    - rewrite locs_plug'. done.
  Qed.
  (** changing header.left / header.right *)
  Lemma tree_hdr h t f : is_tree h t -> (forall n, parent (f n) = parent n) -> is_tree (<[0 := f (h 0)]> h) t.
  Proof.
    intros (H1 & H2 & H3) Hf. split; [|split; [|done]].
    - by rewrite fn_lookup_insert, Hf.
    - apply (holds_frame h); [done|]. intros l Hl. apply NoDup_cons in H3 as [H3 _]. rewrite fn_lookup_insert_ne; [done|]. by intros <-.
  Qed.
  (** changing key/value of the focused node *)
  Lemma tree_kv h C c l k v a b k' v' :
    is_tree h (plug C (T c l k v a b)) -> is_tree (<[l := set_kv k' v' (h l)]> h) (plug C (T c l k' v' a b)).
  Proof.
    intros H. pose proof (tree_rd _ _ _ _ _ _ _ _ H) as Hl.
    assert (Hnd : NoDup (0 :: l :: locs a ++ locs b ++ clocs C)).
    { destruct H as (_ & _ & H). eapply NoDup_Permutation_proper; [|exact H]. rewrite locs_plug', locs_T. solve_Permutation. }
    apply NoDup_cons in Hnd as [N0 Hnd]. pose proof Hnd as Hnd0. apply NoDup_cons in Hnd as [Nl Hnd].
    rewrite !elem_of_cons in N0. rewrite !elem_of_app in Nl.
    apply (tree_replace h _ C (T c l k v a b)).
    - done.
    - destruct H as (_ & H & _). apply holds_plug in H as [(H1 & H2 & H3) _]. simpl. splits.
      + rewrite fn_lookup_insert, Hl. done.
      + apply (holds_frame h); [done|]. intros l' Hl'. rewrite fn_lookup_insert_ne; [done|]. intros ->. tauto.
      + apply (holds_frame h); [done|]. intros l' Hl'. rewrite fn_lookup_insert_ne; [done|]. intros ->. tauto.
    - rewrite locs_T. simpl. rewrite <- app_assoc. apply NoDup_cons. split; [|done]. by rewrite !elem_of_cons.
    - rewrite fn_lookup_insert_ne by (intros ->; tauto). rewrite (tree_root _ _ _ H). destruct C; done.
    - intros f C' ->. rewrite fn_lookup_insert_ne.
      + destruct H as (_ & H & _). apply holds_plug in H as [_ H]. destruct f; simpl in *; destruct H as (H & _); by rewrite H.
      + intros ->. apply Nl. right. right. rewrite clocs_cons. by left.
    - intros l' Hl' _. rewrite fn_lookup_insert_ne; [done|]. intros ->. tauto.
  Qed.
End rot.
