(** Insertion. *)
From Verif Require Import Base BPlus_Model BPlus_Spec BPlus_Proofs BPlus_Proofs2.

Lemma strong_app {A} (R : A -> A -> Prop) (a b : list A) :
  StronglySorted R (a ++ b) <-> StronglySorted R a /\ StronglySorted R b /\ (forall x y, x ∈ a -> y ∈ b -> R x y).
Proof.
  induction a as [|z a IH]; cbn.
  - split; [intros H; splits; [constructor|done|by intros ?? ?%elem_of_nil]|by intros (_&H&_)].
  - split.
    + intros H. inversion H as [|?? H1 H2]; subst. apply IH in H1 as (H3&H4&H5).
      apply Forall_app in H2 as [H6 H7]. splits; [by constructor|done|].
      intros x y [->|Hx]%elem_of_cons Hy; [|by apply H5]. by eapply Forall_forall in H7.
    + intros (H1&H2&H3). inversion H1 as [|?? H4 H5]; subst. constructor.
      * apply IH. splits; [done|done|]. intros x y Hx Hy. apply H3; [by right|done].
      * apply Forall_app. split; [done|]. apply Forall_forall. intros y Hy. apply H3; [by left|done].
Qed.

Section ins.
  Context {K V : Type} (kzero : K) (vzero : V) (comp : K -> K -> Z).
  Implicit Types (t : @tree K V) (w pre post : list (@item K V)).

  (** the steps by which a reading changes: a leaf is split between two of its
      entries, the left one of which is copied up, and the new entry is put in *)
  Inductive inserts (M : nat) (p : K * V) : list (@item K V) -> list (@item K V) -> Prop :=
  | ins_here a b : inserts M p (a ++ b) (a ++ Entry p :: b)
  | ins_split a es1 k es2 b w' : length es1 = M - 1 -> length es2 = M - 1 ->
      inserts M p (a ++ ((Entry <$> es1) ++ [Entry k]) ++ Sep k :: (Entry <$> es2) ++ b) w' ->
      inserts M p (a ++ ((Entry <$> es1) ++ [Entry k]) ++ (Entry <$> es2) ++ b) w'.
  Lemma inserts_ctx M p pre w w' post : inserts M p w w' -> inserts M p (pre ++ w ++ post) (pre ++ w' ++ post).
  Proof.
    induction 1 as [a b|a es1 k es2 b w' L1 L2 _ IH].
    - rewrite <-!app_assoc, !(app_assoc pre a). apply ins_here.
    - pose proof (ins_split M p (pre ++ a) es1 k es2 (b ++ post) (pre ++ w' ++ post) L1 L2) as H.
      repeat (rewrite <-app_assoc in H; cbn [app] in H). repeat (rewrite <-app_assoc in IH; cbn [app] in IH).
      repeat (rewrite <-app_assoc; cbn [app]). by apply H.
  Qed.

  (** what an insertion of [p] does to a reading *)
  Definition grows (M : nat) (p : K * V) w w' : Prop :=
    entries w' ≡ₚ p :: entries w
    /\ (forall x, x ∈ w' -> item_key x = p.1 \/ exists y, y ∈ w /\ item_key y = item_key x)
    /\ (cmp_ok comp -> in_order comp w -> in_order comp w')
    /\ inserts M p w w'.

  (** a context in which [p] may be put *)
  Definition fits (p : K * V) pre post : Prop :=
    (forall x, x ∈ pre -> (comp (item_key x) p.1 <= 0)%Z) /\ (forall x, x ∈ post -> (comp p.1 (item_key x) <= 0)%Z).

  Lemma grows_ctx M p pre w w' post :
    grows M p w w' -> (cmp_ok comp -> in_order comp (pre ++ w ++ post) -> fits p pre post) ->
    grows M p (pre ++ w ++ post) (pre ++ w' ++ post).
  Proof.
    intros (G1 & G2 & G3 & G4) F. unfold grows. splits; cycle 3; [by apply inserts_ctx| | |].
    - rewrite !entries_app, G1. cbn [app]. by rewrite <-Permutation_middle.
    - intros x. rewrite !elem_of_app. intros [H|[H|H]].
      + right. exists x. rewrite !elem_of_app. auto.
      + destruct (G2 x H) as [H'|(y&Hy&E)]; [by left|]. right. exists y. rewrite !elem_of_app. auto.
      + right. exists x. rewrite !elem_of_app. auto.
    - intros C S. destruct (F C S) as [F1 F2]. unfold in_order in *.
      rewrite !strong_app in S |- *. destruct S as (S1 & (S2 & S3 & S4) & S5).
      splits; [done|by apply G3|done| |].
      + intros x y Hx Hy. destruct (G2 x Hx) as [->|(z&Hz&<-)]; [by apply F2|by apply S4].
      + intros x y Hx [Hy|Hy]%elem_of_app.
        * destruct (G2 y Hy) as [->|(z&Hz&<-)]; [by apply F1|apply S5; [done|]]. apply elem_of_app. by left.
        * apply S5; [done|]. apply elem_of_app. by right.
  Qed.

  Lemma grows_trans M p w0 w w' :
    entries w = entries w0 ->
    (forall x, x ∈ w -> exists y, y ∈ w0 /\ item_key y = item_key x) ->
    (cmp_ok comp -> in_order comp w0 -> in_order comp w) ->
    (inserts M p w w' -> inserts M p w0 w') ->
    grows M p w w' -> grows M p w0 w'.
  Proof.
    intros E1 E2 E3 E4 (G1 & G2 & G3 & G4). unfold grows. splits; cycle 3; [by apply E4| | |].
    - by rewrite G1, E1.
    - intros x Hx. destruct (G2 x Hx) as [|(y&Hy&<-)]; [by left|]. right. by apply E2.
    - auto.
  Qed.

  (** splitting keeps order *)
  Lemma split_reading_facts M pre wc w1 w2 k post :
    split_reading M wc w1 w2 k ->
    let w0 := pre ++ wc ++ post in let w := pre ++ (w1 ++ Sep k :: w2) ++ post in
    entries w = entries w0 /\ (forall x, x ∈ w -> exists y, y ∈ w0 /\ item_key y = item_key x)
    /\ (cmp_ok comp -> in_order comp w0 -> in_order comp w)
    /\ (forall p w', inserts M p w w' -> inserts M p w0 w').
  Proof.
    intros [->|(es1 & es2 & L1 & L2 & -> & E2 & ->)]; cbn zeta.
    { splits; try done. intros x Hx. by exists x. }
    splits; cycle 3.
    { intros p w' H. subst w2. rewrite <-!app_assoc. 
      pose proof (ins_split M p pre es1 k es2 post w' L1 L2) as H'. rewrite <-!app_assoc in H, H'. by apply H'. }
    all: clear E2; set (v := Entry <$> es1); clearbody v.
    - rewrite !entries_app. cbn. done.
    - intros x. rewrite !elem_of_app, (elem_of_cons w2 x). intros [H|[[[H|H]|[->|H]]|H]];
        first [exists x; rewrite !elem_of_app; by auto 8
              |exists (Entry k); rewrite !elem_of_app, elem_of_list_singleton; by auto 8].
    - intros C S. unfold in_order in *.
      replace (pre ++ ((v ++ [Entry k]) ++ w2) ++ post) with ((pre ++ v) ++ Entry k :: (w2 ++ post)) in S
        by (rewrite <-!app_assoc; done).
      replace (pre ++ ((v ++ [Entry k]) ++ Sep k :: w2) ++ post) with ((pre ++ v) ++ [Entry k; Sep k] ++ (w2 ++ post))
        by (rewrite <-!app_assoc; done).
      rewrite strong_app in S. destruct S as (S1 & S2 & S3). inversion S2 as [|?? S4 S5]; subst.
      rewrite Forall_forall in S5.
      rewrite strong_app. splits; [done| |].
      + rewrite strong_app. splits; [|done|].
        * repeat constructor. cbn. rewrite cmp_refl by done. lia.
        * intros x y. rewrite !elem_of_cons, elem_of_nil. intros [->|[->|[]]] Hy; by apply (S5 y Hy).
      + intros x y Hx. cbn [app]. rewrite !elem_of_cons.
        intros [->|[->|Hy]]; [apply S3; [done|by left]|apply (S3 x (Entry k)); [done|by left]|apply S3; [done|by right]].
  Qed.

  Lemma down_pos_ok k (ks : list (K * V)) J :
    exists ks1 ks2, ks = ks1 ++ ks2 /\ down_pos comp k (length ks) (ks ++ J) = Ok (length ks1)
      /\ (forall x, last ks1 = Some x -> (comp k x.1 >= 0)%Z) /\ Forall (fun x => (comp k x.1 < 0)%Z) ks2.
  Proof.
    revert J. induction ks as [|x ks IH] using rev_ind; intros J.
    { exists [], []. by splits. }
    rewrite app_length, Nat.add_1_r. cbn [down_pos]. rewrite <-app_assoc. cbn [app].
    rewrite aget_app by done. cbn [rbind].
    destruct (Z.ltb_spec (comp k x.1) 0) as [L|L].
    - destruct (IH (x :: J)) as (ks1 & ks2 & -> & E & H1 & H2). exists ks1, (ks2 ++ [x]).
      splits; [by rewrite app_assoc|done|done|]. apply Forall_app. by repeat constructor.
    - exists (ks ++ [x]), []. splits; [by rewrite app_nil_r|f_equal; rewrite app_length; simpl; lia| |done].
      intros y. rewrite last_snoc. intros [= <-]. lia.
  Qed.

  Lemma leaf_shift_ok k (es : list (K * V)) j J :
    exists es1 es2 u, es = es1 ++ es2 /\ leaf_shift comp k (length es) (es ++ j :: J) = Ok (length es1, es1 ++ u :: es2 ++ J)
      /\ (forall x, last es1 = Some x -> (comp k x.1 >= 0)%Z) /\ Forall (fun x => (comp k x.1 < 0)%Z) es2.
  Proof.
    revert j J. induction es as [|x es IH] using rev_ind; intros j J.
    { exists [], [], j. by splits. }
    rewrite app_length, Nat.add_1_r. cbn [leaf_shift]. rewrite <-app_assoc. cbn [app].
    rewrite aget_app by done. cbn [rbind].
    destruct (Z.ltb_spec (comp k x.1) 0) as [L|L].
    - replace (es ++ x :: j :: J) with ((es ++ [x]) ++ j :: J) by by rewrite <-app_assoc.
      rewrite aset_app by (rewrite app_length; simpl; lia). cbn [rbind]. rewrite <-app_assoc. cbn [app].
      destruct (IH x (x :: J)) as (es1 & es2 & u & -> & E & H1 & H2). exists es1, (es2 ++ [x]), u.
      splits; [by rewrite app_assoc|rewrite E; by rewrite <-app_assoc|done|]. apply Forall_app. by repeat constructor.
    - exists (es ++ [x]), [], j. splits; [by rewrite app_nil_r| | |done].
      + rewrite <-app_assoc. cbn [app]. do 2 f_equal. rewrite app_length. simpl. lia.
      + intros y. rewrite last_snoc. intros [= <-]. lia.
  Qed.
End ins.
