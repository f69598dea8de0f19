(** Heap lemmas: reading, recolouring, rotating, inside a represented tree. *)
From Verif Require Import Base RBTree_Model RBTree_Spec.

Section rb.
  Context {K V : Type}.
  Notation btree := (btree K V).
  Notation heap := (heap K V).
  Implicit Types (h : heap) (t a b : btree).

  (** one-hole contexts, innermost frame first; [FL]: the hole is the left child *)
  Inductive frame :=
  | FL (c : color) (l : loc) (k : K) (v : V) (sib : btree)
  | FR (c : color) (l : loc) (k : K) (v : V) (sib : btree).
  Definition floc (f : frame) : loc := match f with FL _ l _ _ _ | FR _ l _ _ _ => l end.
  Definition fcol (f : frame) : color := match f with FL c _ _ _ _ | FR c _ _ _ _ => c end.
  Definition fsib (f : frame) : btree := match f with FL _ _ _ _ s | FR _ _ _ _ s => s end.
  Definition fill1 (f : frame) (t : btree) : btree :=
    match f with FL c l k v s => T c l k v t s | FR c l k v s => T c l k v s t end.
  Fixpoint plug (C : list frame) (t : btree) : btree :=
    match C with [] => t | f :: C => plug C (fill1 f t) end.
  Definition top (C : list frame) : option loc := match C with [] => None | f :: _ => Some (floc f) end.

  (** in-order entries before and after the hole *)
  Fixpoint iol (C : list frame) : list (loc * (K * V)) :=
    match C with
    | [] => []
    | FL _ _ _ _ _ :: C => iol C
    | FR _ l k v s :: C => iol C ++ io s ++ [(l, (k, v))]
    end.
  Fixpoint ior (C : list frame) : list (loc * (K * V)) :=
    match C with
    | [] => []
    | FR _ _ _ _ _ :: C => ior C
    | FL _ l k v s :: C => (l, (k, v)) :: io s ++ ior C
    end.
  Lemma io_plug C t : io (plug C t) = iol C ++ io t ++ ior C.
  Proof.
    revert t. induction C as [|[c l k v s|c l k v s] C IH]; intros t; simpl; [by rewrite app_nil_r| |];
      rewrite IH; simpl; by rewrite <- ?app_assoc.
  Qed.
  Lemma locs_plug C t : locs (plug C t) ≡ₚ locs t ++ (iol C ++ ior C).*1.
  Proof. unfold locs. rewrite io_plug, !fmap_app. solve_Permutation. Qed.

  (** the context in the heap, around a hole whose content has root [p] *)
  Fixpoint holdsC (h : heap) (p : option loc) (C : list frame) : Prop :=
    match C with
    | [] => True
    | FL c l k v s :: C =>
        h l = Node c (top C) p (root_of s) k v /\ holds h (Some l) s /\ holdsC h (Some l) C
    | FR c l k v s :: C =>
        h l = Node c (top C) (root_of s) p k v /\ holds h (Some l) s /\ holdsC h (Some l) C
    end.
  Definition rootC (p : option loc) (C : list frame) : option loc :=
    match last C with None => p | Some f => Some (floc f) end.
  Lemma root_plug C t : root_of (plug C t) = rootC (root_of t) C.
  Proof.
    revert t. induction C as [|f C IH]; intros t; [done|]. simpl. rewrite IH. unfold rootC.
    destruct C as [|f' C]; simpl; [by destruct f|]. by destruct (last (f' :: C)) eqn:E; [|apply last_None in E].
  Qed.
  Lemma rootC_cons p f C : rootC p (f :: C) = rootC (Some (floc f)) C.
  Proof. unfold rootC. destruct C as [|f' C]; [done|]. change (last (f :: f' :: C)) with (last (f' :: C)). by destruct (last (f' :: C)) eqn:E; [|apply last_None in E]. Qed.

  Lemma holds_plug h C t : holds h None (plug C t) <-> holds h (top C) t /\ holdsC h (root_of t) C.
  Proof.
    revert t. induction C as [|f C IH]; intros t; simpl; [naive_solver|].
    rewrite IH. destruct f; simpl; naive_solver.
  Qed.

  (** reading *)
  Lemma tree_rd h C c l k v a b : is_tree h (plug C (T c l k v a b)) ->
    h l = Node c (top C) (root_of a) (root_of b) k v.
  Proof. intros (_ & H & _). apply holds_plug in H as [H _]. apply H. Qed.
  Lemma tree_root h C t : is_tree h (plug C t) -> parent (h 0) = rootC (root_of t) C.
  Proof. intros (H & _ & _). by rewrite H, root_plug. Qed.

  (** frames *)
  Lemma holds_frame h h' par t : holds h par t -> (forall l, l ∈ locs t -> h' l = h l) -> holds h' par t.
  Proof.
    revert par. induction t as [|c l k v a IHa b IHb]; intros par H He; [done|].
    destruct H as (H1 & H2 & H3). unfold locs in He. simpl in He. rewrite fmap_app, fmap_cons in He. simpl. splits.
    - rewrite He; [done|]. set_solver.
    - apply IHa; [done|]. intros l' Hl. apply He. apply elem_of_app. by left.
    - apply IHb; [done|]. intros l' Hl. apply He. apply elem_of_app. right. by right.
  Qed.
  Lemma holdsC_frame h h' p C : holdsC h p C -> (forall l, l ∈ (iol C ++ ior C).*1 -> h' l = h l) -> holdsC h' p C.
  Proof.
    revert p. induction C as [|f C IH]; intros p H He; [done|].
    destruct f as [c l k v s|c l k v s]; destruct H as (H1 & H2 & H3); simpl in *; splits.
    all: try (rewrite He; [done|]; rewrite ?fmap_app, ?fmap_cons; set_solver).
    all: try (apply (holds_frame h); [done|]; intros l' Hl; apply He; unfold locs in Hl; rewrite ?fmap_app, ?fmap_cons; set_solver).
    all: apply IH; [done|]; intros l' Hl; apply He; rewrite ?fmap_app, ?fmap_cons in *; set_solver.
  Qed.

  (** [h'] differs from [h] only at nodes of [t] and in the header's root pointer *)
  Definition same_else (t : btree) (h h' : heap) : Prop :=
    (forall l, l ∉ 0 :: locs t -> h' l = h l) /\ set_parent None (h' 0) = set_parent None (h 0).
  Lemma same_else_refl t h : same_else t h h.
  Proof. done. Qed.
  Lemma same_else_trans t t' h1 h2 h3 : same_else t h1 h2 -> same_else t' h2 h3 -> locs t' ≡ₚ locs t -> same_else t h1 h3.
  Proof.
    intros [H1 H2] [H3 H4] E. split; [|by rewrite H4].
    intros l Hl. rewrite H3; [by apply H1|]. by rewrite E.
  Qed.

  Lemma setp_eq (n n' : node K V) :
    set_parent None n' = set_parent None n ->
    ncol n' = ncol n /\ left n' = left n /\ right n' = right n /\ key n' = key n /\ val n' = val n.
  Proof. destruct n, n'; unfold set_parent; simpl. intros [=]. done. Qed.

  (** recolouring the focused node *)
  Lemma tree_color h C c l k v a b c' :
    is_tree h (plug C (T c l k v a b)) ->
    is_tree (<[l := set_color c' (h l)]> h) (plug C (T c' l k v a b)) /\
    same_else (plug C (T c l k v a b)) h (<[l := set_color c' (h l)]> h).
  Proof.
    intros H. pose proof (tree_rd _ _ _ _ _ _ _ _ H) as Hl. destruct H as (Hr & H & Hnd).
    assert (Hperm : forall c, 0 :: locs (plug C (T c l k v a b)) ≡ₚ l :: 0 :: locs a ++ locs b ++ (iol C ++ ior C).*1).
    { intros c0. rewrite locs_plug. unfold locs. simpl. rewrite fmap_app, fmap_cons. simpl. solve_Permutation. }
    pose proof Hnd as Hnd'. rewrite Hperm in Hnd. apply NoDup_cons in Hnd as [Hnl _].
    apply holds_plug in H as [(H1 & H2 & H3) H4].
    assert (He : forall l', l' ∈ 0 :: locs a ++ locs b ++ (iol C ++ ior C).*1 -> (<[l := set_color c' (h l)]> h : heap) l' = h l').
    { intros l' Hl'. rewrite fn_lookup_insert_ne; [done|]. intros <-. done. }
    splits.
    - split; [|split].
      + rewrite He by (by left). rewrite Hr, !root_plug. done.
      + apply holds_plug. split; [simpl; splits|].
        * rewrite fn_lookup_insert, Hl. done.
        * apply (holds_frame h); [done|]. intros l' Hl'. apply He. right. apply elem_of_app. by left.
        * apply (holds_frame h); [done|]. intros l' Hl'. apply He. right. rewrite !elem_of_app. auto.
        * apply (holdsC_frame h); [done|]. intros l' Hl'. apply He. right. rewrite !elem_of_app. rewrite fmap_app, elem_of_app in Hl'. rewrite fmap_app, elem_of_app. auto.
      + rewrite Hperm. rewrite Hperm in Hnd'. done.
    - split; [|by rewrite He by (by left)]. intros l' Hl'. rewrite fn_lookup_insert_ne; [done|]. intros <-. apply Hl'. rewrite Hperm. by left.
  Qed.

  Definition clocs (C : list frame) : list loc := (iol C ++ ior C).*1.
  Lemma locs_T c l k v a b : locs (T c l k v a b) ≡ₚ l :: locs a ++ locs b.
  Proof. unfold locs. simpl. rewrite fmap_app, fmap_cons. solve_Permutation. Qed.
  Lemma clocs_cons f C : clocs (f :: C) ≡ₚ floc f :: locs (fsib f) ++ clocs C.
  Proof. unfold clocs, locs. destruct f; simpl; rewrite !fmap_app, ?fmap_cons; simpl; rewrite ?fmap_app; solve_Permutation. Qed.
  Lemma locs_plug' C t : locs (plug C t) ≡ₚ locs t ++ clocs C.
  Proof. apply locs_plug. Qed.

  Lemma nodup_split (s g : list loc) : NoDup (s ++ g) -> NoDup s /\ forall l, l ∈ g -> l ∉ s.
  Proof. intros (H1 & H2 & H3)%NoDup_app. split; [done|]. intros l Hl Hs. by apply (H2 l). Qed.
End rb.


Arguments frame : clear implicits.
Section rot.
  Context {K V : Type}.
  Notation btree := (btree K V).
  Notation heap := (heap K V).
  Implicit Types (h : heap) (t a b : btree).

  Lemma ins_eq (h : heap) l n l' : (<[l := n]> h : heap) l' = if decide (l = l') then n else h l'.
  Proof. case_decide; subst; [by rewrite fn_lookup_insert|by rewrite fn_lookup_insert_ne]. Qed.
End rot.
(** evaluate nested updates at a point, using disequalities in the context *)
Ltac ev1 :=
  match goal with
  | |- context [ (<[?l := ?n]> ?h) ?l' ] =>
      rewrite (ins_eq h l n l');
      first [rewrite (decide_True (P := l = l')) by congruence
            |rewrite (decide_False (P := l = l')) by congruence]
  end.
Ltac ev := repeat (ev1; cbn [parent left right key val ncol set_parent set_left set_right set_color set_kv set_val]).

Section rot.
  Context {K V : Type}.
  Notation btree := (btree K V).
  Notation heap := (heap K V).
  Implicit Types (h : heap) (t a b : btree).

  Lemma left_rotate_spec h x y :
    right (h x) = Some y -> x <> y -> x <> 0 -> y <> 0 ->
    (forall r, left (h y) = Some r -> r <> x /\ r <> y /\ r <> 0) ->
    (forall p, parent (h x) = Some p -> p <> x /\ p <> y /\ p <> 0 /\ left (h y) <> Some p) ->
    exists h', left_rotate h (Some x) = Ok h' /\
      h' x = set_parent (Some y) (set_right (left (h y)) (h x)) /\
      h' y = set_left (Some x) (set_parent (parent (h x)) (h y)) /\
      (forall r, left (h y) = Some r -> h' r = set_parent (Some x) (h r)) /\
      (forall p, parent (h x) = Some p ->
         h' p = if decide (Some x = left (h p)) then set_left (Some y) (h p) else set_right (Some y) (h p)) /\
      h' 0 = (if parent (h x) then h 0 else set_parent (Some y) (h 0)) /\
      (forall l, l <> x -> l <> y -> left (h y) <> Some l -> parent (h x) <> Some l -> l <> 0 -> h' l = h l).
  Proof.
    intros Ey Hxy Hx Hy Hr Hp. unfold left_rotate, hdr. cbn [rd wr rbind]. rewrite Ey. cbn [rd wr rbind].
    destruct (left (h y)) as [r|] eqn:Er; [destruct (Hr r eq_refl) as (Hr1 & Hr2 & Hr3)|]; clear Hr; cbn [rd wr rbind]; ev;
      (destruct (parent (h x)) as [p|] eqn:Ep; [destruct (Hp p eq_refl) as (Hp1 & Hp2 & Hp3 & Hp4)|]; clear Hp; cbn [rd wr rbind]; ev).
    all: try destruct (decide (Some x = left (h p))) eqn:Ed; cbn [rd wr rbind]; eexists; (split; [reflexivity|]); splits; intros; simplify_eq; ev; rewrite ?Ed;
      try (destruct (h x), (h y); simpl in *; congruence); try congruence.
  Qed.
  Lemma right_rotate_spec h x y :
    left (h x) = Some y -> x <> y -> x <> 0 -> y <> 0 ->
    (forall r, right (h y) = Some r -> r <> x /\ r <> y /\ r <> 0) ->
    (forall p, parent (h x) = Some p -> p <> x /\ p <> y /\ p <> 0 /\ right (h y) <> Some p) ->
    exists h', right_rotate h (Some x) = Ok h' /\
      h' x = set_parent (Some y) (set_left (right (h y)) (h x)) /\
      h' y = set_right (Some x) (set_parent (parent (h x)) (h y)) /\
      (forall r, right (h y) = Some r -> h' r = set_parent (Some x) (h r)) /\
      (forall p, parent (h x) = Some p ->
         h' p = if decide (Some x = right (h p)) then set_right (Some y) (h p) else set_left (Some y) (h p)) /\
      h' 0 = (if parent (h x) then h 0 else set_parent (Some y) (h 0)) /\
      (forall l, l <> x -> l <> y -> right (h y) <> Some l -> parent (h x) <> Some l -> l <> 0 -> h' l = h l).
  Proof.
    intros Ey Hxy Hx Hy Hr Hp. unfold right_rotate, hdr. cbn [rd wr rbind]. rewrite Ey. cbn [rd wr rbind].
    destruct (right (h y)) as [r|] eqn:Er; [destruct (Hr r eq_refl) as (Hr1 & Hr2 & Hr3)|]; clear Hr; cbn [rd wr rbind]; ev;
      (destruct (parent (h x)) as [p|] eqn:Ep; [destruct (Hp p eq_refl) as (Hp1 & Hp2 & Hp3 & Hp4)|]; clear Hp; cbn [rd wr rbind]; ev).
    all: try destruct (decide (Some x = right (h p))) eqn:Ed; cbn [rd wr rbind]; eexists; (split; [reflexivity|]); splits; intros; simplify_eq; ev; rewrite ?Ed;
      try (destruct (h x), (h y); simpl in *; congruence); try congruence.
  Qed.

End rot.
