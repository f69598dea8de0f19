(** Walking a represented tree: minimum, successor, predecessor, search. *)
From Verif Require Import Base RBTree_Model RBTree_Spec RBTree_Proofs RBTree_Proofs2 RBTree_Proofs3.

Section nav.
  Context {K V : Type}.
  Notation btree := (btree K V).
  Notation heap := (heap K V).
  Notation frame := (frame K V).
  Implicit Types (h : heap) (t a b : btree) (C : list frame).

  Lemma head_app {A} (l1 l2 : list A) : head (l1 ++ l2) = match head l1 with Some x => Some x | None => head l2 end.
  Proof. by destruct l1. Qed.
  Lemma last_app' {A} (l1 l2 : list A) : last (l1 ++ l2) = match last l2 with Some x => Some x | None => last l1 end.
  Proof. apply last_app. Qed.

  Lemma locs_app t : locs t = match t with Leaf => [] | T _ l _ _ a b => locs a ++ l :: locs b end.
  Proof. destruct t; [done|]. unfold locs. simpl. by rewrite fmap_app. Qed.
  Lemma locs_nil t : locs t = [] -> t = Leaf.
  Proof. destruct t as [|c l k v a b]; [done|]. rewrite locs_app. by destruct (locs a). Qed.
  Lemma head_locs_T c l k v a b : exists m, head (locs (T c l k v a b)) = Some m.
  Proof. rewrite locs_app, head_app. destruct (head (locs a)); eauto. Qed.
  Lemma last_locs_T c l k v a b : exists m, last (locs (T c l k v a b)) = Some m.
  Proof. rewrite locs_app. rewrite last_app', last_cons. destruct (last (locs b)); eauto. Qed.

  Lemma min_child_ok h par t : holds h par t -> forall l fuel, root_of t = Some l -> height t <= fuel ->
    exists m, min_child fuel h l = Ok m /\ head (locs t) = Some m.
  Proof.
    revert par. induction t as [|c l k v a IHa b IHb]; intros par H l' fuel E Hf; [done|]. injection E as <-.
    simpl in Hf. destruct fuel as [|fuel]; [lia|]. destruct H as (H1 & H2 & H3). simpl. rewrite H1. simpl.
    rewrite locs_app, head_app. destruct a as [|ca la ka va a1 a2]; [by eexists|].
    destruct (IHa _ H2 la fuel eq_refl) as (m & E & Em); [simpl in *; lia|]. exists m. split; [done|]. by rewrite Em.
  Qed.
  Lemma max_child_ok h par t : holds h par t -> forall l fuel, root_of t = Some l -> height t <= fuel ->
    exists m, max_child fuel h l = Ok m /\ last (locs t) = Some m.
  Proof.
    revert par. induction t as [|c l k v a IHa b IHb]; intros par H l' fuel E Hf; [done|]. injection E as <-.
    simpl in Hf. destruct fuel as [|fuel]; [lia|]. destruct H as (H1 & H2 & H3). simpl. rewrite H1. simpl.
    rewrite locs_app, last_app', last_cons. destruct b as [|ca la ka va b1 b2]; [by eexists|].
    destruct (IHb _ H3 la fuel eq_refl) as (m & E & Em); [simpl in *; lia|]. exists m. split; [done|]. by rewrite Em.
  Qed.

  Lemma plug_height C t : height t + length C <= height (plug C t).
  Proof.
    revert t. induction C as [|f C IH]; intros t; simpl; [lia|]. specialize (IH (fill1 f t)).
    destruct f; simpl in *; lia.
  Qed.
  Lemma height_locs t : height t <= length (locs t).
  Proof. induction t as [|c l k v a IHa b IHb]; [done|]. rewrite locs_app, app_length. simpl. lia. Qed.

  Lemma up_next_ok h C : forall t l fuel, is_tree h (plug C t) -> root_of t = Some l -> length C < fuel ->
    up_next fuel h l (top C) = Ok (head (ior C).*1).
  Proof.
    induction C as [|f C IH]; intros t l fuel H E Hf; (destruct fuel as [|fuel]; [simpl in Hf; lia|]); [done|].
    destruct f as [c p kp vp s|c p kp vp s]; cbn [up_next top floc].
    - assert (Hp : h p = Node c (top C) (root_of t) (root_of s) kp vp) by exact (tree_rd h C _ _ _ _ _ _ H).
      rewrite Hp. cbn [right]. rewrite decide_False; [done|]. intros E'. apply root_in in E'.
      apply tree_nodup in H. apply NoDup_app in H as (_ & H & _). apply (H l); [by apply root_in|]. rewrite clocs_cons. right. apply elem_of_app. by left.
    - assert (Hp : h p = Node c (top C) (root_of s) (root_of t) kp vp) by exact (tree_rd h C _ _ _ _ _ _ H).
      rewrite Hp. cbn [right parent]. rewrite decide_True by done.
      apply (IH (T c p kp vp s t)); [exact H|done|]. simpl in Hf. lia.
  Qed.
  Lemma up_prev_ok h C : forall t l fuel, is_tree h (plug C t) -> root_of t = Some l -> length C < fuel ->
    up_prev fuel h l (top C) = Ok (last (iol C).*1).
  Proof.
    induction C as [|f C IH]; intros t l fuel H E Hf; (destruct fuel as [|fuel]; [simpl in Hf; lia|]); [done|].
    destruct f as [c p kp vp s|c p kp vp s]; cbn [up_prev top floc].
    - assert (Hp : h p = Node c (top C) (root_of t) (root_of s) kp vp) by exact (tree_rd h C _ _ _ _ _ _ H).
      rewrite Hp. cbn [left parent]. rewrite decide_True by done.
      apply (IH (T c p kp vp t s)); [exact H|done|]. simpl in Hf. lia.
    - assert (Hp : h p = Node c (top C) (root_of s) (root_of t) kp vp) by exact (tree_rd h C _ _ _ _ _ _ H).
      rewrite Hp. cbn [left]. rewrite decide_False.
      + cbn [iol]. rewrite !fmap_app. by rewrite app_assoc, last_app'.
      + intros E'. apply root_in in E'.
        apply tree_nodup in H. apply NoDup_app in H as (_ & H & _). apply (H l); [by apply root_in|]. rewrite clocs_cons. right. apply elem_of_app. by left.
  Qed.

  (** Next is the in-order successor, Prev the predecessor *)
  Lemma next_ok h C c l k v a b fuel : is_tree h (plug C (T c l k v a b)) -> height (plug C (T c l k v a b)) <= fuel ->
    next fuel h l = Ok (head (io b ++ ior C).*1).
  Proof.
    intros H Hf. unfold next. pose proof (plug_height C (T c l k v a b)) as Hh. simpl in Hh.
    rewrite (tree_rd _ _ _ _ _ _ _ _ H). cbn [right parent]. destruct b as [|cb bl kb vb b1 b2].
    - cbn [root_of io app]. eapply up_next_ok; [exact H|done|]. lia.
    - cbn [root_of]. destruct H as (_ & H & _). apply holds_plug in H as [(_ & _ & H) _].
      destruct (min_child_ok _ _ _ H bl fuel eq_refl) as (m & E & Em); [simpl in *; lia|]. rewrite E. cbn [rbind].
      rewrite fmap_app, head_app. unfold locs in Em. by rewrite Em.
  Qed.
  Lemma prev_ok h C c l k v a b fuel : is_tree h (plug C (T c l k v a b)) -> height (plug C (T c l k v a b)) <= fuel ->
    prev fuel h l = Ok (last (iol C ++ io a).*1).
  Proof.
    intros H Hf. unfold prev. pose proof (plug_height C (T c l k v a b)) as Hh. simpl in Hh.
    rewrite (tree_rd _ _ _ _ _ _ _ _ H). cbn [left parent]. destruct a as [|ca al ka va a1 a2].
    - cbn [root_of io]. rewrite app_nil_r. eapply up_prev_ok; [exact H|done|]. lia.
    - cbn [root_of]. destruct H as (_ & H & _). apply holds_plug in H as [(_ & H & _) _].
      destruct (max_child_ok _ _ _ H al fuel eq_refl) as (m & E & Em); [simpl in *; lia|]. rewrite E. cbn [rbind].
      rewrite fmap_app, last_app'. unfold locs in Em. by rewrite Em.
  Qed.

  (** focusing on a node *)
  Lemma focus t l kv : (l, kv) ∈ io t -> exists C c a b, t = plug C (T c l kv.1 kv.2 a b).
  Proof.
    destruct kv as [k v]. simpl. intros H.
    enough (G : forall C, exists C' c a b, plug C t = plug C' (T c l k v a b)) by exact (G []).
    induction t as [|c l' k' v' a IHa b IHb]; [by apply elem_of_nil in H|]. simpl in H.
    intros C. apply elem_of_app in H as [H|H]; [by apply (IHa H (FL c l' k' v' b :: C))|].
    apply elem_of_cons in H as [[= -> -> ->]|H]; [by eauto|by apply (IHb H (FR c l' k' v' a :: C))].
  Qed.
  Lemma focus_loc t l : l ∈ locs t -> exists C c k v a b, t = plug C (T c l k v a b).
  Proof.
    unfold locs. intros ([l' kv] & -> & H)%elem_of_list_fmap. simpl. apply focus in H as (C & c & a & b & H). by eauto 10.
  Qed.

  (** ** searching *)
  Context (comp : K -> K -> Z).

  (** every turn on the way to the hole is the one the comparator asks for *)
  Definition turn (k : K) (f : frame) : Prop :=
    match f with FL _ _ k' _ _ => comp k k' = (-1)%Z | FR _ _ k' _ _ => comp k k' = 1%Z end.

  Lemma descend_ok h k : forall t C fuel, is_tree h (plug C t) -> Forall (turn k) C -> height t < fuel ->
    (exists C' c l k' v a b, plug C t = plug C' (T c l k' v a b) /\ Forall (turn k) C' /\
       comp k k' <> (-1)%Z /\ comp k k' <> 1%Z /\ descend comp fuel h k (top C) (root_of t) = Ok (inl l)) \/
    (exists C', plug C t = plug C' Leaf /\ Forall (turn k) C' /\
       descend comp fuel h k (top C) (root_of t) = Ok (inr (top C'))).
  Proof.
    induction t as [|c l k' v a IHa b IHb]; intros C fuel H HC Hf; (destruct fuel as [|fuel]; [simpl in Hf; lia|]); cbn [descend root_of].
    { right. by exists C. }
    rewrite (tree_rd _ _ _ _ _ _ _ _ H). cbn [key left right]. simpl in Hf. case_decide as E1; [|case_decide as E2].
    - apply (IHa (FL c l k' v b :: C)); [exact H| |lia]. by constructor.
    - apply (IHb (FR c l k' v a :: C)); [exact H| |lia]. by constructor.
    - left. exists C, c, l, k', v, a, b. done.
  Qed.
  Lemma search_descend h k fuel : forall par p,
    search comp fuel h k p = match descend comp fuel h k par p with
                             | Ok (inl l) => Ok (Some l) | Ok (inr _) => Ok None | Panic => Panic | Fuel => Fuel end.
  Proof. induction fuel as [|fuel IH]; intros par p; [done|]. simpl. destruct p as [l|]; [|done]. do 2 (case_decide; [apply IH|]). done. Qed.
  Lemma search_ok h k t fuel : is_tree h t -> height t < fuel ->
    (exists C c l k' v a b, t = plug C (T c l k' v a b) /\ Forall (turn k) C /\
       comp k k' <> (-1)%Z /\ comp k k' <> 1%Z /\ search comp fuel h k (parent (h 0)) = Ok (Some l)) \/
    (exists C, t = plug C Leaf /\ Forall (turn k) C /\ search comp fuel h k (parent (h 0)) = Ok None).
  Proof.
    intros H Hf. rewrite (search_descend _ _ _ None). destruct H as (E & H). rewrite E.
    destruct (descend_ok h k t [] fuel) as [(C & c & l & k' & v & a & b & H1 & H2 & H3 & H4 & H5)|(C & H1 & H2 & H3)];
      [by split|done|done| |]; cbn [top plug] in *.
    - left. exists C, c, l, k', v, a, b. rewrite H5. done.
    - right. exists C. rewrite H3. done.
  Qed.
End nav.
