(** Histories that keep the tree sorted: the tree is a map. *)
From Verif Require Import Base Iter_Model Iter_Spec RBTree_Model RBTree_Spec RBTree_Proofs RBTree_Proofs2 RBTree_Proofs3 RBTree_Proofs4 RBTree_Proofs5 RBTree_Proofs6 RBTree_Proofs7 RBTree_Proofs8 RBTree_Proofs9.

Section maps.
  Context {K V : Type} (vzero : V) (comp : K -> K -> Z).
  Implicit Types (m X Y : list (K * V)).
  Notation sorted := (sorted (V := V) comp).
  Definition differs (k : K) (e : K * V) : Prop := comp k e.1 <> 0%Z.

  Lemma filter_none {A} (P : A -> Prop) `{forall x, Decision (P x)} (l : list A) : Forall (fun x => ~ P x) l -> filter P l = [].
  Proof. induction 1 as [|x l Hx _ IH]; [done|]. by rewrite filter_cons_False. Qed.
  Lemma filter_all {A} (P : A -> Prop) `{forall x, Decision (P x)} (l : list A) : Forall P l -> filter P l = l.
  Proof. induction 1 as [|x l Hx _ IH]; [done|]. by rewrite filter_cons_True, IH. Qed.

  Lemma absent m k : Forall (differs k) m ->
    mem comp m k = false /\ lookup comp m k = None /\ erase comp m k = m.
  Proof.
    intros H. splits.
    - apply bool_decide_eq_false. intros G. apply Exists_exists in G as (e & He & E). rewrite Forall_forall in H. by apply (H e).
    - unfold lookup. by rewrite filter_none.
    - unfold erase. by apply filter_all.
  Qed.
  Lemma present X Y k k' v' : Forall (differs k) X -> Forall (differs k) Y -> comp k k' = 0%Z ->
    let m := X ++ (k', v') :: Y in
    mem comp m k = true /\ lookup comp m k = Some v' /\ erase comp m k = X ++ Y /\
    forall v, update comp m k v = X ++ (k', v) :: Y.
  Proof.
    intros HX HY E m. splits.
    - apply bool_decide_eq_true. apply Exists_exists. exists (k', v'). split; [|done]. unfold m. set_solver.
    - unfold lookup, m. rewrite filter_app, filter_none by done. rewrite filter_cons_True by done. done.
    - unfold erase, m. rewrite filter_app, filter_cons_False by (simpl; lia). rewrite !filter_all; done.
    - intros v. unfold update, m. rewrite fmap_app, fmap_cons. cbn [fst]. rewrite decide_True by done.
      assert (G : forall Z, Forall (differs k) Z -> (fun e => if decide (comp k e.1 = 0%Z) then (e.1, v) else e) <$> Z = Z).
      { induction 1 as [|x l Hx _ IH]; [done|]. rewrite fmap_cons, IH. by rewrite decide_False. }
      by rewrite !G.
  Qed.
End maps.

Section sorted.
  Context {K V : Type} (kzero : K) (vzero : V) (comp : K -> K -> Z) (Hc : cmp_ok comp) (Hu : cmp_unit comp).
  Notation btree := (btree K V).
  Notation tree := (tree K V).
  Notation inv := (inv kzero).
  Notation sorted := (sorted (V := V) comp).
  Notation "a ≺ b" := (comp a b < 0)%Z (at level 70).
  Implicit Types (bt a b : btree) (t : tree) (own : list loc) (C : list (frame K V)) (m X Y : list (K * V)).

  Lemma sorted_app X Y : sorted (X ++ Y) <-> sorted X /\ sorted Y /\ forall x y, x ∈ X -> y ∈ Y -> x.1 ≺ y.1.
  Proof.
    unfold RBTree_Spec.sorted. induction X as [|x X IH]; simpl.
    - split; [intros H; splits; [constructor|done|by intros ? ? ?%elem_of_nil]|by intros (_ & H & _)].
    - split.
      + intros H. apply StronglySorted_inv in H as [H1 H2]. apply IH in H1 as (H3 & H4 & H5). rewrite Forall_app in H2. destruct H2 as [H6 H7].
        splits; [by constructor|done|]. intros x' y [-> |Hx]%elem_of_cons Hy; [|by apply H5]. rewrite Forall_forall in H7. by apply H7.
      + intros (H1 & H2 & H3). apply StronglySorted_inv in H1 as [H4 H5]. constructor.
        * apply IH. splits; [done|done|]. intros a b Ha Hb. apply H3; [by right|done].
        * apply Forall_app. split; [done|]. apply Forall_forall. intros y Hy. apply H3; [by left|done].
  Qed.

  (** the entries before and after the hole of a search for [k] *)
  Lemma turns_sorted k : forall C (x : btree), sorted (entries (plug C x)) -> Forall (turn comp k) C ->
    (forall e, e ∈ iol C -> e.2.1 ≺ k) /\ (forall e, e ∈ ior C -> k ≺ e.2.1).
  Proof.
    induction C as [|f C IH]; intros x HS HC; [split; intros e He; simpl in He; by apply elem_of_nil in He|].
    apply Forall_cons in HC as [Hf HC]. cbn [plug] in HS. destruct (IH _ HS HC) as [I1 I2].
    unfold entries in HS. rewrite io_plug in HS. rewrite !fmap_app in HS. apply sorted_app in HS as (_ & HS & _). apply sorted_app in HS as (HS & _ & _).
    destruct f as [c l k' v s|c l k' v s]; simpl in Hf, HS; rewrite fmap_app, fmap_cons in HS; apply sorted_app in HS as (_ & H2 & H3); cbn [iol ior].
    - split; [done|]. intros e [-> |[He|He]%elem_of_app]%elem_of_cons; [cbn; lia| |by apply I2].
      apply (sorted_app [(k', v)]) in H2 as (_ & _ & H2). specialize (H2 (k', v) e.2). cbn in H2.
      apply (cmp_lt_trans comp Hc _ k'); [lia|]. apply H2; [by left|]. apply elem_of_list_fmap. eauto.
    - split; [|done]. intros e [He|[He|He]%elem_of_app]%elem_of_app; [by apply I1| |].
      + apply (cmp_lt_trans comp Hc _ k'); [|apply (cmp_lt_gt comp Hc); lia].
        apply (H3 e.2 (k', v)); [|by left]. apply elem_of_list_fmap. eauto.
      + apply elem_of_list_singleton in He as ->. cbn. apply (cmp_lt_gt comp Hc). lia.
  Qed.

  Lemma split_found C c l k k' v a b : sorted (entries (plug C (T c l k' v a b))) -> Forall (turn comp k) C ->
    comp k k' <> (-1)%Z -> comp k k' <> 1%Z ->
    comp k k' = 0%Z /\
    let X := (iol C ++ io a).*2 in let Y := (io b ++ ior C).*2 in
    entries (plug C (T c l k' v a b)) = X ++ (k', v) :: Y /\
    (forall e, e ∈ X -> e.1 ≺ k') /\ (forall e, e ∈ Y -> k' ≺ e.1) /\
    Forall (differs comp k) X /\ Forall (differs comp k) Y.
  Proof.
    intros HS HC N1 N2. assert (E : comp k k' = 0%Z) by (destruct (Hu k k') as [|[|]]; tauto). split; [done|]. intros X Y.
    assert (Ee : entries (plug C (T c l k' v a b)) = X ++ (k', v) :: Y).
    { unfold entries. rewrite io_plug. unfold X, Y. simpl. by repeat (rewrite fmap_app || rewrite fmap_cons || rewrite <- app_assoc || simpl). }
    split; [done|]. rewrite Ee in HS. apply sorted_app in HS as (_ & H2 & H3). apply (sorted_app [(k', v)]) in H2 as (_ & _ & H2).
    assert (HX : forall e, e ∈ X -> e.1 ≺ k') by (intros e He; apply (H3 e (k', v)); [done|by left]).
    assert (HY : forall e, e ∈ Y -> k' ≺ e.1) by (intros e He; apply (H2 (k', v) e); [by left|done]).
    splits; try done; apply Forall_forall; intros e He G.
    - specialize (HX e He). pose proof (cmp_eq_l comp Hc k k' e.1 E). apply (cmp_lt_gt comp Hc) in HX. lia.
    - specialize (HY e He). pose proof (cmp_eq_l comp Hc k k' e.1 E). lia.
  Qed.
  Lemma split_absent C k : sorted (entries (plug C Leaf)) -> Forall (turn comp k) C ->
    entries (plug C Leaf) = (iol C).*2 ++ (ior C).*2 /\
    (forall e, e ∈ (iol C).*2 -> e.1 ≺ k) /\ (forall e, e ∈ (ior C).*2 -> k ≺ e.1) /\
    Forall (differs comp k) (entries (plug C Leaf)).
  Proof.
    intros HS HC. destruct (turns_sorted k C Leaf HS HC) as [H1 H2].
    assert (Ee : entries (plug C Leaf) = (iol C).*2 ++ (ior C).*2). { unfold entries. rewrite io_plug. simpl. by rewrite fmap_app. }
    assert (G1 : forall e, e ∈ (iol C).*2 -> e.1 ≺ k) by (intros e (x & -> & Hx)%elem_of_list_fmap; by apply H1).
    assert (G2 : forall e, e ∈ (ior C).*2 -> k ≺ e.1) by (intros e (x & -> & Hx)%elem_of_list_fmap; by apply H2).
    splits; try done. rewrite Ee. apply Forall_forall. intros e [He|He]%elem_of_app; unfold differs.
    - specialize (G1 e He). apply (cmp_lt_gt comp Hc) in G1. lia.
    - specialize (G2 e He). lia.
  Qed.

  (** ** the invariant *)
  Definition left_ok t bt : Prop := locs bt <> [] -> left_most t = head (locs bt).
  Definition right_ok t bt : Prop := locs bt <> [] -> right_most t = last (locs bt).
  Record sinv own t bt m : Prop := SInv {
    s_inv : inv own t bt;
    s_entries : entries bt = m;
    s_sorted : sorted m;
    s_size : size t = Z.of_nat (length m);
    s_left : Exists (fun e => e.1 ≺ kzero) m -> left_most t = head (locs bt) }.

  Lemma locs_nil bt : locs bt = [] <-> entries bt = [].
  Proof. unfold locs, entries. by destruct (io bt). Qed.

  Lemma sinv_remove own t C c l k' v a b m fuel :
    let bt := plug C (T c l k' v a b) in
    let X := (iol C ++ io a).*2 in let Y := (io b ++ ior C).*2 in
    sinv own t bt m -> m = X ++ (k', v) :: Y -> height bt + 2 <= fuel ->
    exists r t' bt', remove_node comp fuel t l = Ok (r, t') /\ sinv (r :: own) t' bt' (X ++ Y) /\
      (left_ok t bt -> k' ≺ kzero \/ X <> [] -> left_ok t' bt').
  Proof.
    intros bt X Y [I Ee HS Hz HL] Em Hf.
    assert (HX : forall e, e ∈ X -> e.1 ≺ k'). { rewrite Em in HS. apply sorted_app in HS as (_ & _ & HS). intros e He. apply (HS e (k', v)); [done|by left]. }
    assert (HXY : sorted (X ++ Y)).
    { rewrite Em in HS. apply sorted_app in HS as (S1 & S2 & S3). apply (sorted_app [(k', v)]) in S2 as (_ & S2 & _). apply sorted_app.
      splits; [done|done|]. intros x y Hx Hy. apply S3; [done|by right]. }
    assert (El : head (locs bt) = head ((iol C ++ io a).*1 ++ [l])).
    { unfold locs, bt. rewrite io_plug. simpl. repeat (rewrite fmap_app || rewrite fmap_cons || rewrite <- app_assoc || simpl).
      rewrite !(app_assoc (iol C).*1), <- fmap_app. by destruct ((iol C ++ io a).*1). }
    assert (Hl : key (hp t l) = k') by (by rewrite (tree_rd _ _ _ _ _ _ _ _ (i_tree _ _ _ _ I))).
    assert (EXn : X <> [] <-> (iol C ++ io a).*1 <> []) by (unfold X; by destruct (iol C ++ io a)).
    (* the smallest key, when the smallest entry's node is x *)
    assert (Hmin : k' ≺ kzero -> exists x, left_most t = Some x /\ (if decide (X = []) then x = l else key (hp t x) ≺ k')).
    { intros G. specialize (HL ltac:(rewrite Em; apply Exists_app; right; by left)). rewrite El in HL.
      destruct (iol C ++ io a) as [|[x [kx vx]] A'] eqn:EA.
      - exists l. split; [done|]. by rewrite decide_True.
      - exists x. split; [done|]. rewrite decide_False by done.
        assert (Hx : (x, (kx, vx)) ∈ io bt). { unfold bt. rewrite io_plug. simpl. rewrite <- app_assoc, app_assoc, EA. by left. }
        apply focus in Hx as (C2 & c2 & a2 & b2 & E2). pose proof (i_tree _ _ _ _ I) as IT. rewrite E2 in IT. rewrite (tree_rd _ _ _ _ _ _ _ _ IT). simpl.
        apply (HX (kx, vx)). by left. }
    destruct (remove_found kzero comp own t C c l k' v a b fuel I Hf) as [[[G1 G2] _]|(_ & r & t' & G & bt' & I' & Hio & Hs & Hr & lf & rt & HR & HL' & HR')].
    { exfalso. destruct (Hmin ltac:(lia)) as (x & Hx & _). unfold left_most in Hx. congruence. }
    exists r, t', bt'. split; [done|].
    assert (E' : entries bt' = X ++ Y).
    { unfold entries. destruct Hio as [(_ & ->)|(kv & B' & _ & _ & EB & ->)]; [by rewrite fmap_app|].
      unfold X, Y. rewrite EB. rewrite fmap_app. done. }
    assert (Hlen : Z.of_nat (length (X ++ Y)) = (size t - 1)%Z). { rewrite Hz, Em, !app_length. simpl. lia. }
    (* the head of the new tree *)
    assert (Eh1 : X <> [] -> head (locs bt') = head (locs bt)).
    { intros HXn. rewrite El. apply EXn in HXn. unfold locs. destruct Hio as [(_ & ->)|(kv & B' & _ & _ & EB & ->)]; rewrite fmap_app; by destruct ((iol C ++ io a).*1). }
    assert (Eh2 : X = [] -> head (locs bt') = head (io b ++ ior C).*1).
    { intros HXn. assert (EA : iol C ++ io a = []) by (unfold X in HXn; by destruct (iol C ++ io a)).
      unfold locs. destruct Hio as [(_ & ->)|(kv & B' & Na & _ & EB & ->)]; rewrite EA; [done|]. exfalso. apply app_eq_nil in EA as [_ EA].
      destruct a; [done|]. simpl in EA. by apply app_eq_nil in EA as []. }
    (* the header after the removal *)
    assert (Hlf : k' ≺ kzero \/ (X <> [] /\ left_most t = head (locs bt)) -> X ++ Y <> [] -> left_most t' = head (locs bt')).
    { intros HH HN. unfold left_most. rewrite HL'. rewrite decide_False; [|intros Hs1; apply HN; destruct (X ++ Y); [done|simpl in Hlen; lia]].
      unfold hdr_remove in HR. rewrite (i_key _ _ _ _ I), Hl in HR. unfold left_most in *. clear HL' HR'. case_decide as D1.
      - injection HR as <- <-. destruct HH as [HH|[HH1 HH2]]; [lia|]. by rewrite Eh1.
      - destruct (Hmin ltac:(lia)) as (x & Hx & Hx2). rewrite Hx in HR.
        destruct (decide (X = [])) as [EX|EX].
        + subst x. rewrite Hl in HR. rewrite decide_True in HR by (rewrite (cmp_refl comp Hc); lia). injection HR as <- <-. by rewrite Eh2.
        + rewrite decide_False in HR by lia. injection HR as <- <-. rewrite Eh1 by done. rewrite <- Hx. apply HL. rewrite Em. apply Exists_app. right. left. simpl. lia. }
    split.
    - split; [done|done|done|lia|]. intros HE.
      assert (HN : X ++ Y <> []) by (intros EN; rewrite EN in HE; by apply Exists_nil in HE).
      apply Hlf; [|done]. destruct (decide (k' ≺ kzero)) as [|Hk]; [by left|right].
      (* some remaining key is below zero, hence below k' *)
      apply Exists_exists in HE as (e & He & Hez). apply elem_of_app in He as [He|He].
      + split; [intros EX; rewrite EX in He; by apply elem_of_nil in He|]. apply HL. rewrite Em. apply Exists_app. left. apply Exists_exists. eauto.
      + exfalso. rewrite Em in HS. apply sorted_app in HS as (_ & HS & _). apply (sorted_app [(k', v)]) in HS as (_ & _ & HS).
        specialize (HS (k', v) e ltac:(by left) He). simpl in HS. pose proof (cmp_lt_trans comp Hc _ _ _ HS Hez). lia.
    - intros HLO HH HN. apply Hlf; [|rewrite <- E'; intros EN; by apply HN, locs_nil].
      destruct HH as [HH|HH]; [by left|right]. split; [done|]. apply HLO.
      unfold locs, bt. rewrite io_plug. simpl. rewrite !fmap_app. simpl. intros EN. apply app_eq_nil in EN as [_ EN]. apply app_eq_nil in EN as [EN _]. by apply app_eq_nil in EN as [].
  Qed.

  Lemma sinv_new : sinv [] (new_tree kzero vzero) Leaf [].
  Proof. split; [by apply (inv_new kzero vzero comp)|done|constructor|done|]. intros H. by apply Exists_nil in H. Qed.

  Lemma sinv_free own t bt m r : sinv (r :: own) t bt m -> sinv own (free t r) bt m /\ hp (free t r) 0 = hp t 0.
  Proof.
    intros [I Ee HS Hz HL]. destruct (inv_free kzero comp own t bt r I) as (I2 & E1 & E2). split; [|done].
    split; try done; [congruence|]. unfold left_most. by rewrite E2.
  Qed.

  (** Put of a key that is greater than all *)
  Notation enough bt := (height bt + 2).
  Lemma sinv_put own t bt m k v fuel : sinv own t bt m -> ascending comp m (OPut k v) -> enough bt <= fuel ->
    exists t' bt' m', put comp fuel t k v = Ok (negb (mem comp m k), t') /\
      m' = (if mem comp m k then update comp m k v else m ++ [(k, v)]) /\ sinv own t' bt' m' /\
      (left_ok t bt -> left_ok t' bt') /\ (right_ok t bt -> right_ok t' bt').
  Proof.
    intros [I Ee HS Hz HL] HA Hf. subst m.
    destruct (put_ok kzero comp own t bt k v fuel I Hf) as [(C & c & l & k' & v' & a & b & t' & E & HC & N1 & N2 & Ep & I' & Hs & H0)|(C & n & t' & bt' & E & HC & Ep & I' & Hs & Hio & _ & _ & HL' & HR')].
    - subst bt. destruct (split_found C c l k k' v' a b HS HC N1 N2) as (E0 & Em & HX & HY & DX & DY).
      destruct (present comp _ _ k k' v' DX DY E0) as (P1 & P2 & P3 & P4).
      assert (Em' : entries (plug C (T c l k' v a b)) = (iol C ++ io a).*2 ++ (k', v) :: (io b ++ ior C).*2).
      { unfold entries. rewrite io_plug. simpl. by repeat (rewrite fmap_app || rewrite fmap_cons || rewrite <- app_assoc || simpl). }
      rewrite Em in *. rewrite P1. eexists t', _, _. split; [exact Ep|]. split; [done|]. rewrite P4.
      pose proof (locs_kv C c l k' v' k' v a b) as Elo.
      split; [split; [exact I'|done| |rewrite Hs, Hz, !app_length; done|]|].
      + apply sorted_app in HS as (S1 & S2 & S3). apply sorted_app. apply (sorted_app [(k', v')]) in S2 as (S4 & S5 & S6).
        splits; [done| |].
        * apply (sorted_app [(k', v)]). splits; [apply SSorted_cons; constructor|done|]. intros x y ->%elem_of_list_singleton Hy. by apply (S6 (k', v') y); [left|].
        * intros x y Hx [-> |Hy]%elem_of_cons; [by apply (S3 x (k', v')); [|left]|by apply (S3 x y); [|right]].
      + intros HE. rewrite <- Elo. unfold left_most. rewrite H0. apply HL. rewrite Exists_app, Exists_cons in *. done.
      + unfold left_ok, right_ok, left_most, right_most. by rewrite H0, Elo.
    - subst bt. destruct (split_absent C k HS HC) as (Em & HX & HY & HD). destruct (absent comp _ _ HD) as (P1 & P2 & P3).
      rewrite P1. cbn in HA. rewrite P1 in HA. destruct HA as [HA|HA]; [done|].
      assert (ER : ior C = []).
      { destruct (ior C) as [|e E2] eqn:ER; [done|]. rewrite Forall_forall in HA. specialize (HA e.2 ltac:(rewrite Em, fmap_cons; set_solver)).
        specialize (HY e.2 ltac:(rewrite fmap_cons; by left)). apply (cmp_lt_gt comp Hc) in HA. lia. }
      assert (Hio' : io bt' = iol C ++ [(n, (k, v))]). { rewrite Hio. destruct C as [|[] C]; simpl in *; try done; by rewrite ER. }
      assert (Elo : locs (plug C Leaf) = (iol C).*1). { unfold locs. by rewrite io_plug, ER, !app_nil_r. }
      assert (Elo' : locs bt' = locs (plug C Leaf) ++ [n]). { rewrite Elo. unfold locs. by rewrite Hio', fmap_app. }
      rewrite ER, app_nil_r in Em. 
      assert (Etop : top C = last (locs (plug C Leaf))).
      { rewrite Elo. destruct C as [|[] C]; [done|done|]. simpl. rewrite app_assoc, fmap_app. simpl. by rewrite last_snoc. }
      eexists t', bt', _. split; [exact Ep|]. split; [done|]. split; [split; [exact I'| | | |]|].
      + unfold entries at 1. rewrite Hio', fmap_app, Em. done.
      + rewrite Em. apply sorted_app. splits; [by rewrite <- Em|apply SSorted_cons; constructor|].
        intros x y Hx ->%elem_of_list_singleton. by apply HX.
      + rewrite Hs, Hz, app_length. simpl. lia.
      + intros HE. unfold left_most. rewrite HL', Elo', Etop. destruct (locs (plug C Leaf)) as [|x L] eqn:EL; [done|].
        destruct (last (x :: L)) eqn:EL2; [|by apply last_None in EL2].
        change (left_most t = Some x). apply HL. apply Exists_app in HE as [HE|HE]; [done|].
        apply Exists_cons in HE as [HE|HE]; [|by apply Exists_nil in HE]. simpl in HE.
        destruct (entries (plug C Leaf)) as [|e ES] eqn:EE; [by apply locs_nil in EE; congruence|].
        left. apply (cmp_lt_trans comp Hc _ k); [|done]. apply HX. rewrite <- Em. by left.
      + split; intros G HN.
        * unfold left_most. rewrite HL', Elo', Etop. destruct (locs (plug C Leaf)) as [|x L] eqn:EL; [done|].
          destruct (last (x :: L)) eqn:EL2; [|by apply last_None in EL2]. unfold left_ok in G. rewrite EL in G. by apply G.
        * unfold right_most. rewrite HR', Elo', last_snoc. unfold link_right. rewrite Etop. destruct (last (locs (plug C Leaf))) eqn:EL; [|done].
          rewrite decide_True; [done|]. unfold right_ok in G. rewrite EL in G. apply G. intros EN. by rewrite EN in EL.
  Qed.

  Lemma sinv_find own t bt m k fuel : sinv own t bt m -> height bt < fuel ->
    (exists C c l k' v a b, bt = plug C (T c l k' v a b) /\ find comp fuel t k = Ok (Some l) /\ val (hp t l) = v /\
       let X := (iol C ++ io a).*2 in let Y := (io b ++ ior C).*2 in
       comp k k' = 0%Z /\ m = X ++ (k', v) :: Y /\ (forall e, e ∈ X -> e.1 ≺ k') /\
       mem comp m k = true /\ lookup comp m k = Some v /\ erase comp m k = X ++ Y) \/
    (find comp fuel t k = Ok None /\ mem comp m k = false /\ lookup comp m k = None /\ erase comp m k = m).
  Proof.
    intros [I Ee HS Hz HL] Hf. subst m.
    destruct (find_ok kzero comp own t bt k fuel I Hf) as [(C & c & l & k' & v & a & b & E & HC & N1 & N2 & EF & _ & EV)|(C & E & HC & EF)]; subst bt.
    - left. exists C, c, l, k', v, a, b. destruct (split_found C c l k k' v a b HS HC N1 N2) as (E0 & Em & HX & HY & DX & DY).
      destruct (present comp _ _ k k' v DX DY E0) as (P1 & P2 & P3 & P4). rewrite Em. done.
    - right. destruct (split_absent C k HS HC) as (Em & HX & HY & HD). destruct (absent comp _ _ HD) as (P1 & P2 & P3). done.
  Qed.

  Lemma sinv_delete own t bt m k fuel : sinv own t bt m -> enough bt <= fuel ->
    exists n t' bt', delete comp fuel t k = Ok (n, t') /\ (n <> None <-> mem comp m k = true) /\
      sinv (option_list n ++ own) t' bt' (erase comp m k) /\
      (left_ok t bt -> safe_delete comp kzero m k -> left_ok t' bt').
  Proof.
    intros I Hf. unfold delete. destruct (sinv_find own t bt m k fuel I ltac:(lia)) as [(C & c & l & k' & v & a & b & -> & EF & EV & E0 & Em & HX & P1 & P2 & P3)|(EF & P1 & P2 & P3)]; rewrite EF; cbn [rbind].
    - destruct (sinv_remove own t C c l k' v a b m fuel I Em Hf) as (r & t' & bt' & -> & I' & HLO). cbn [rbind].
      exists (Some r), t', bt'. split; [done|]. split; [done|]. rewrite P3. split; [done|]. intros G HSD. apply HLO; [done|].
      destruct HSD as [HSD|[HSD|HSD]]; [congruence| |].
      + left. pose proof (cmp_eq_l comp Hc _ _ kzero E0). lia.
      + right. intros EX. rewrite Em, EX in HSD. apply Exists_exists in HSD as (e & He & Hek). simpl in He.
        pose proof (cmp_eq_r comp Hc _ _ e.1 E0). destruct I as [_ _ HS _ _]. rewrite Em, EX in HS. apply elem_of_cons in He as [-> |He].
        * simpl in *. rewrite (cmp_refl comp Hc) in *. lia.
        * apply (sorted_app [(k', v)]) in HS as (_ & _ & HS). specialize (HS (k', v) e ltac:(by left) He). simpl in HS. apply (cmp_lt_gt comp Hc) in HS. lia.
    - exists None, t, bt. rewrite P1, P3. done.
  Qed.

  Lemma sinv_delete_keys own : forall ks t bt m fuel, sinv own t bt m -> length (locs bt) + 2 <= fuel ->
    exists t' bt', delete_keys comp fuel t ks = Ok ((Z.of_nat (length m) - Z.of_nat (length (erases comp m ks)))%Z, t') /\
      sinv own t' bt' (erases comp m ks) /\
      (left_ok t bt -> keeps_min comp kzero m (ODeleteKeys ks) -> left_ok t' bt').
  Proof.
    assert (Hlen : forall bt m, entries bt = m -> length (locs bt) = length m) by (intros bt m <-; unfold locs, entries; by rewrite !fmap_length).
    induction ks as [|k ks IH]; intros t bt m fuel I Hf; cbn [delete_keys erases foldl].
    - exists t, bt. split; [|done]. repeat f_equal. lia.
    - pose proof (height_locs bt) as Hh. destruct (sinv_delete own t bt m k fuel I ltac:(lia)) as (n & t1 & bt1 & -> & Hn & I1 & HLO). cbn [rbind].
      assert (G : exists t2, (match n with Some l => free t1 l | None => t1 end) = t2 /\ sinv own t2 bt1 (erase comp m k) /\ hp t2 0 = hp t1 0).
      { destruct n as [l|]; simpl in I1; [|by eauto]. destruct (sinv_free own t1 bt1 _ l I1) as [G1 G2]. eauto. }
      destruct G as (t2 & -> & I2 & E2).
      assert (Hl1 : length (erase comp m k) <= length m) by (unfold erase; apply filter_length).
      pose proof (Hlen _ _ (s_entries _ _ _ _ I)) as L1. pose proof (Hlen _ _ (s_entries _ _ _ _ I2)) as L2.
      destruct (IH t2 bt1 (erase comp m k) fuel I2 ltac:(lia)) as (t3 & bt3 & -> & I3 & HLO3). cbn [rbind].
      exists t3, bt3. split; [|split; [done|]].
      + f_equal. f_equal. change (foldl (erase comp) (erase comp m k) ks) with (erases comp (erase comp m k) ks).
        assert (Hcnt : length m = length (erase comp m k) + (if n then 1 else 0)).
        { pose proof (s_size _ _ _ _ I) as Z1. destruct (sinv_find own t bt m k fuel I ltac:(lia)) as [(C & c & l & k' & v & a & b & _ & _ & _ & _ & Em & _ & P1 & _ & P3)|(_ & P1 & _ & P3)].
          - rewrite P3, Em, !app_length. simpl. destruct n; [lia|]. rewrite P1 in Hn. exfalso. by apply (proj2 Hn).
          - rewrite P3. destruct n; [|lia]. rewrite P1 in Hn. exfalso. assert (false = true); [by apply Hn|done]. }
        destruct n; lia.
      + intros G HK. apply HLO3.
        * unfold left_ok, left_most in *. rewrite E2. apply HLO; [done|]. by apply (HK [] k ks).
        * intros ks1 k1 ks2 ->. by apply (HK (k :: ks1) k1 ks2).
  Qed.

  (** ** one call *)
  Local Ltac imp := first [solve [intros; first [assumption | auto]] | done].
  Lemma sinv_step own t bt m o fuel : sinv own t bt m -> ascending comp m o -> length m + 2 <= fuel ->
    exists r t' bt' m' own', step vzero comp fuel t o = Ok (r, t') /\ map_step vzero comp m o r m' /\ sinv own' t' bt' m' /\
      (left_ok t bt -> keeps_min comp kzero m o -> left_ok t' bt') /\ (right_ok t bt -> no_delete m o -> right_ok t' bt') /\
      length m' <= S (length m).
  Proof.
    intros I HA Hf. assert (Hlen : length (locs bt) = length m) by (rewrite <- (s_entries _ _ _ _ I); unfold locs, entries; by rewrite !fmap_length).
    pose proof (height_locs bt) as Hh. destruct o as [k v|n|k v|n k v|k|k| |k|ks|k v vc|]; cbn [step map_step] in *; try done.
    - destruct (sinv_put own t bt m k v fuel I HA ltac:(lia)) as (t' & bt' & m' & -> & Em & I' & H1 & H2). cbn [rbind].
      eexists _, _, bt', m', own. split; [imp|]. split; [imp|]. split; [imp|]. split; [imp|]. split; [imp|].
      rewrite Em. case_match; [unfold update; rewrite fmap_length; lia|rewrite app_length; simpl; lia].
    - unfold get. destruct (sinv_find own t bt m k fuel I ltac:(lia)) as [(C & c & l & k' & v & a & b & _ & EF & EV & E0 & Em & HX & P1 & P2 & P3)|(EF & P1 & P2 & P3)]; rewrite EF; cbn [rbind].
      + eexists _, t, bt, m, own. rewrite P2, EV. split; [imp|]. split; [imp|]. split; [imp|]. split; [imp|]. split; [imp|]. lia.
      + eexists _, t, bt, m, own. rewrite P2. split; [imp|]. split; [imp|]. split; [imp|]. split; [imp|]. split; [imp|]. lia.
    - unfold has. destruct (sinv_find own t bt m k fuel I ltac:(lia)) as [(C & c & l & k' & v & a & b & _ & EF & EV & E0 & Em & HX & P1 & P2 & P3)|(EF & P1 & P2 & P3)]; rewrite EF; cbn [rbind].
      + eexists _, t, bt, m, own. rewrite P1. split; [imp|]. split; [imp|]. split; [imp|]. split; [imp|]. split; [imp|]. lia.
      + eexists _, t, bt, m, own. rewrite P1. split; [imp|]. split; [imp|]. split; [imp|]. split; [imp|]. split; [imp|]. lia.
    - eexists _, t, bt, m, own. rewrite (s_size _ _ _ _ I). split; [imp|]. split; [imp|]. split; [imp|]. split; [imp|]. split; [imp|]. lia.
    - destruct (sinv_delete own t bt m k fuel I ltac:(lia)) as (n & t' & bt' & -> & Hn & I' & HLO). cbn [rbind].
      eexists _, t', bt', _, _. split; [imp|]. split; [by split; [by exists n|]|]. split; [imp|]. split; [imp|]. split; [imp|].
      unfold erase. etrans; [apply filter_length|lia].
    - destruct (sinv_delete_keys own ks t bt m fuel I ltac:(lia)) as (t' & bt' & -> & I' & HLO). cbn [rbind].
      eexists _, t', bt', _, _. split; [imp|]. split; [imp|]. split; [imp|]. split; [imp|]. split; [imp|].
      clear. revert m. induction ks as [|k ks IH]; intros m; cbn [erases foldl]; [lia|].
      etrans; [apply IH|]. apply le_n_S. unfold erase. apply filter_length.
    - unfold delete_whole. destruct (sinv_find own t bt m k fuel I ltac:(lia)) as [(C & c & l & k' & v' & a & b & -> & EF & EV & E0 & Em & HX & P1 & P2 & P3)|(EF & P1 & P2 & P3)]; rewrite EF, P2; cbn [rbind].
      + rewrite EV. case_decide as Hv.
        * pose proof (sinv_delete own t _ m k fuel I ltac:(lia)) as (n & t1 & bt1 & Ed & Hn & I1 & HLO). unfold delete in Ed. rewrite EF in Ed. cbn [rbind] in Ed.
          destruct (remove_node comp fuel t l) as [[r t2]| |]; cbn [rbind] in Ed; [|done|done]. injection Ed as <- <-. cbn [rbind].
          simpl in I1. destruct (sinv_free own t2 bt1 _ r I1) as [G1 G2].
          eexists _, _, bt1, _, own. split; [imp|]. split; [imp|]. split; [imp|]. split; [|split; [imp|]].
          -- unfold left_ok, left_most in *. rewrite G2. done.
          -- unfold erase. etrans; [apply filter_length|lia].
        * eexists _, _, _, m, own. split; [imp|]. split; [imp|]. split; [imp|]. split; [imp|]. split; [imp|]. lia.
      + eexists _, _, _, m, own. split; [imp|]. split; [imp|]. split; [imp|]. split; [imp|]. split; [imp|]. lia.
    - eexists _, _, Leaf, [], own. split; [imp|]. split; [imp|]. split; [|split; [by intros _ _ HN|split; [by intros _ _ HN|simpl; lia]]].
      split; [by eapply (inv_clear kzero comp), (s_inv _ _ _ _ I)|done|constructor|done|]. intros H. by apply Exists_nil in H.
  Qed.

  Lemma map_step_fun m o r1 m1 r2 m2 : map_step vzero comp m o r1 m1 -> map_step vzero comp m o r2 m2 -> m1 = m2.
  Proof.
    destruct o; cbn [map_step]; try (by intros [_ ->] [_ ->]); try done.
    destruct (lookup comp m k); [|by intros [_ ->] [_ ->]]. case_decide; by intros [_ ->] [_ ->].
  Qed.

  (** ** histories *)
  Lemma sinv_run (P : list (K * V) -> op K V -> Prop) os : forall own t bt m fuel, (forall m o, P m o -> ascending comp m o) ->
    sinv own t bt m -> allowed vzero comp P m os -> length m + length os + 2 <= fuel ->
    exists rs t' bt' m' own', run vzero comp fuel t os = Ok (rs, t') /\ map_run vzero comp m os rs m' /\ sinv own' t' bt' m' /\
      (left_ok t bt -> (forall m o, P m o -> keeps_min comp kzero m o) -> left_ok t' bt') /\
      (right_ok t bt -> (forall m o, P m o -> no_delete m o) -> right_ok t' bt').
  Proof.
    induction os as [|o os IH]; intros own t bt m fuel HP I HA Hf; cbn [run].
    - exists [], t, bt, m, own. split; [done|]. split; [constructor|]. done.
    - cbn [allowed length] in *. destruct HA as [Ho HA].
      destruct (sinv_step own t bt m o fuel I (HP _ _ Ho) ltac:(lia)) as (r & t1 & bt1 & m1 & own1 & -> & Hm & I1 & HL & HR & Hlen). cbn [rbind].
      destruct (IH own1 t1 bt1 m1 fuel HP I1 (HA _ _ Hm) ltac:(lia)) as (rs & t2 & bt2 & m2 & own2 & -> & Hm2 & I2 & HL2 & HR2). cbn [rbind].
      eexists _, t2, bt2, m2, own2. split; [done|]. split; [by econstructor|]. split; [done|]. split.
      + intros G1 G2. apply HL2; [|done]. apply HL; [done|]. by apply G2.
      + intros G1 G2. apply HR2; [|done]. apply HR; [done|]. by apply G2.
  Qed.

End sorted.

Section iteration.
  Context {K V : Type} (kzero : K).
  Notation btree := (btree K V).
  Notation tree := (tree K V).
  Notation inv := (inv kzero).
  Implicit Types (bt a b : btree) (t : tree) (own : list loc) (C : list (frame K V)).
  Lemma next_io own t bt fuel : inv own t bt -> height bt <= fuel ->
    forall l kv (X Y : list (nat * (K * V))), io bt = X ++ (l, kv) :: Y ->
    next fuel (hp t) l = Ok (head Y.*1) /\ entry t l = kv.
  Proof.
    intros I Hf l [k v] X Y E.
    assert (Hin : (l, (k, v)) ∈ io bt) by (rewrite E; set_solver).
    apply focus in Hin as (C & c & a & b & E2). cbn [fst snd] in E2. pose proof I as [IT _ _ _]. subst bt.
    rewrite (next_ok _ _ _ _ _ _ _ _ _ IT Hf). unfold entry. rewrite (tree_rd _ _ _ _ _ _ _ _ IT). cbn [key val]. split; [|done].
    assert (EY : io b ++ ior C = Y); [|by rewrite EY].
    rewrite io_plug in E. destruct IT as (_ & _ & ND). unfold locs in ND. rewrite io_plug in ND. simpl in E, ND.
    rewrite <- app_assoc in E. rewrite app_assoc in E. simpl in E. apply NoDup_cons in ND as [_ ND]. 
    rewrite <- app_assoc in ND. rewrite app_assoc in ND. simpl in ND.
    assert (G : forall (A B A' B' : list (nat * (K * V))), NoDup (A ++ (l, (k, v)) :: B).*1 -> A ++ (l, (k, v)) :: B = A' ++ (l, (k, v)) :: B' -> B = B').
    { clear. induction A as [|x A IH]; intros B A' B' ND E.
      - destruct A' as [|y A']; [by injection E|]. injection E as <- E. exfalso. simpl in ND. apply NoDup_cons in ND as [ND _]. apply ND. rewrite E, fmap_app. apply elem_of_app. right. left.
      - destruct A' as [|y A'].
        + injection E as -> E. exfalso. simpl in ND. apply NoDup_cons in ND as [ND _]. apply ND. rewrite fmap_app. apply elem_of_app. right. left.
        + injection E as <- E. apply IH in E; [done|]. simpl in ND. by apply NoDup_cons in ND as [_ ND]. }
    by eapply G.
  Qed.
  Lemma iter_pulls own t bt fuel : inv own t bt -> height bt <= fuel ->
    forall (Y X : list (nat * (K * V))), io bt = X ++ Y -> pulls (iter_next fuel t) (head Y.*1) Y.*2 None.
  Proof.
    intros I Hf. induction Y as [|[l [k v]] Y IH]; intros X E; [constructor|].
    change (pulls (iter_next fuel t) (Some l) ((k, v) :: Y.*2) None).
    econstructor; [|apply (IH (X ++ [(l, (k, v))])); by rewrite <- app_assoc].
    destruct (next_io own t bt fuel I Hf l (k, v) X Y E) as [E1 E2]. unfold iter_next. rewrite E1. cbn [rbind].
    unfold entry in E2. by rewrite E2.
  Qed.
  Lemma iter_drains own t bt fuel : inv own t bt -> left_ok t bt -> locs bt <> [] -> height bt <= fuel ->
    drains (iter_next fuel t) (left_most t) (entries bt) None.
  Proof.
    intros I HL HN Hf. exists None. split; [|done]. rewrite (HL HN). by apply (iter_pulls own t bt fuel I Hf (io bt) []).
  Qed.

  (** a tree whose header.left is the header itself: Next never returns *)
  Lemma min_child_loop fuel (h : heap K V) l : left (h l) = Some l -> min_child fuel h l = Fuel.
  Proof. intros H. induction fuel as [|f IH]; [done|]. simpl. by rewrite H. Qed.
  Lemma iter_empty t fuel : left (hp t 0) = Some 0 -> right (hp t 0) = Some 0 -> iter_next fuel t (left_most t) = Fuel.
  Proof. intros H1 H2. unfold left_most, iter_next, next. rewrite H1, H2, min_child_loop by done. done. Qed.
End iteration.
