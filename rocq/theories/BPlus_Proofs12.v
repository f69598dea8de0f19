(** Small histories, and comparators with the same signs. *)
From Verif Require Import Base BPlus_Model BPlus_Spec BPlus_Proofs BPlus_Proofs2 BPlus_Proofs3 BPlus_Proofs4 BPlus_Proofs5 BPlus_Proofs6 BPlus_Proofs7 BPlus_Proofs8 BPlus_Proofs9 BPlus_Proofs10 BPlus_Proofs11.

Lemma list_fmap_ext' {A B} (f g : A -> B) (l : list A) : (forall x, x ∈ l -> f x = g x) -> f <$> l = g <$> l.
Proof.
  induction l as [|x l IH]; intros H; [done|]. cbn. rewrite H by by left. f_equal. apply IH. intros y Hy. apply H. by right.
Qed.

Section walk.
  Context {K V : Type}.
  Lemma walk_ok M (h : nat -> @node K V) d l fp w fuel : reads M h d l fp w -> d < fuel -> walk fuel h l = w.
  Proof.
    revert l fp w fuel. induction d as [|d IH]; intros l fp w fuel R Hf; (destruct fuel as [|fuel]; [lia|]); cbn [reads] in R; cbn [walk].
    - destruct R as (nx&es&jk&cs&E&L1&L2&->&->). rewrite E. cbn [leaf num vals]. by rewrite take_app.
    - destruct R as (nx&ks&jk&ts&cj&E&N1&N2&L1&L2&->&->&F). rewrite E. cbn [leaf num vals kids].
      rewrite take_app. f_equal. rewrite <-N2. rewrite take_app_alt by by rewrite fmap_length.
      rewrite <-list_fmap_compose. apply list_fmap_ext'.
      intros c Hc. rewrite Forall_forall in F. destruct (F c Hc) as [_ R]. cbn. eapply IH; [done|lia].
  Qed.
  Lemma reading_ok (t : @tree K V) d w : tree_reads t d w -> reading t = w.
  Proof.
    intros T. pose proof (tree_fuel _ _ _ T) as Hf. destruct T as (r & fp & Er & R & _). unfold reading. rewrite Er.
    by eapply walk_ok.
  Qed.
End walk.

Section small.
  Context {K V : Type} (kzero : K) (vzero : V) (comp : K -> K -> Z) (compV : V -> V -> Z).
  Implicit Types (t : @tree K V) (w : list (@item K V)).
  Hypothesis C : cmp_ok comp.
  Notation do_op := (do_op kzero vzero comp compV).
  Notation run := (run kzero vzero comp compV).
  Notation run_new := (run_new kzero vzero comp compV).
  Notation has := (has comp).

  Lemma leaf_lookup k t w : tree_reads t 0 w -> in_order comp w ->
    exists o, found_entry comp k t = Ok o /\ contains_key comp k t = Ok (bool_decide (is_Some o))
      /\ match o with Some e => e ∈ entries w /\ comp k e.1 = 0%Z | None => ~ has k (entries w) end.
  Proof.
    intros T S. destruct (found_entry_ok comp k t 0 w T) as (o & EF & EC & So & Co). exists o. splits; try done.
    destruct o as [e|]; [destruct (So e eq_refl); auto|]. intros (e & He & Ce).
    apply (Co eq_refl C S) in He; [done|].
    destruct T as (r & fp & Er & R & _). cbn [reads] in R. destruct R as (nx&es&jk&cs&E&L1&L2&->&->).
    intros s Hs%elem_separators. apply elem_of_list_fmap in Hs as (? & [=] & _).
  Qed.

  Lemma leaf_delete k t w : 2 <= degree t -> tree_reads t 0 w -> in_order comp w ->
    exists t' b w', delete_key comp k t = Ok (t', b) /\ tree_reads t' 0 w' /\ in_order comp w' /\ degree t' = degree t
      /\ ((has k (entries w) /\ b = true /\ removed (fun x => comp k x.1 = 0%Z) (entries w) (entries w'))
          \/ (~ has k (entries w) /\ b = false /\ entries w' = entries w)).
  Proof.
    intros HM T S. destruct (leaf_lookup k t w T S) as (o & EF & EC & Ho). unfold delete_key. rewrite EC. cbn [rbind].
    destruct o as [e|].
    - rewrite bool_decide_true by by eexists. destruct Ho as [He Ce].
      destruct (delete_leaf_ok comp t w k e HM C T S He Ce) as (t' & r & w' & -> & T' & S' & Hd & Rm). cbn [rbind].
      exists (set_root (Some r) t'), true, w'. splits; try done. left. splits; try done. by exists e.
    - rewrite bool_decide_false by by intros [? ?]. exists t, false, w. splits; try done. by right.
  Qed.

  Lemma leaf_insert k v t w : 2 <= degree t -> tree_reads t 0 w -> in_order comp w -> length (entries w) < 2 * degree t - 1 ->
    exists t' r w', insert kzero vzero comp (root t) (k, v) t = Ok (t', r) /\ tree_reads (set_root r t') 0 w' /\ in_order comp w'
      /\ degree t' = degree t /\ entries w' ≡ₚ (k, v) :: entries w.
  Proof.
    intros HM T S L. destruct (insert_ok kzero vzero comp t 0 w (k, v) HM T) as (t' & r & d' & w' & E & T' & (G1 & G2 & G3 & G4) & Hd & D0).
    rewrite (D0 eq_refl L) in T'. exists t', (Some r), w'. splits; try done. by apply G3.
  Qed.

  Lemma leaf_op o t w : 2 <= degree t -> tree_reads t 0 w -> in_order comp w ->
    (is_insert o = true -> length (entries w) < 2 * degree t - 1) ->
    exists t' r w', do_op o t = Ok (t', r) /\ tree_reads t' 0 w' /\ in_order comp w' /\ degree t' = degree t
      /\ right_effect vzero comp compV o (entries w) (entries w') r
      /\ length (entries w') <= length (entries w) + (if is_insert o then 1 else 0).
  Proof.
    intros HM T S L.
    assert (RL : forall P (es es' : list (K * V)), removed P es es' -> length es' <= length es).
    { intros P es es' (a & x & c & -> & -> & _). rewrite !app_length. simpl. lia. }
    destruct o as [k v|k v|k|k v|k]; cbn [BPlus_Spec.do_op is_insert right_effect] in *.
    - destruct (leaf_insert k v t w HM T S (L eq_refl)) as (t' & r & w' & E & T' & S' & Hd & P).
      unfold insert_equal. rewrite E. cbn [rbind bpair]. exists (set_root r t'), (RBool true), w'. splits; try done.
      rewrite P. simpl. lia.
    - destruct (leaf_lookup k t w T S) as (o & EF & EC & Ho). unfold insert_unique. rewrite EC. cbn [rbind]. destruct o as [e|].
      + rewrite bool_decide_true by by eexists. exists t, (RBool false), w. splits; try done; [|lia]. left. splits; try done. exists e. tauto.
      + rewrite bool_decide_false by by intros [? ?].
        destruct (leaf_insert k v t w HM T S (L eq_refl)) as (t' & r & w' & E & T' & S' & Hd & P).
        rewrite E. cbn [rbind bpair]. exists (set_root r t'), (RBool true), w'. splits; try done; [|rewrite P; simpl; lia].
        right. done.
    - destruct (leaf_delete k t w HM T S) as (t' & b & w' & -> & T' & S' & Hd & H). cbn [bpair rbind].
      exists t', (RBool b), w'. splits; try done.
      + destruct H as [(? & -> & ?)|(? & -> & ?)]; [by left|by right].
      + destruct H as [(? & -> & ?%RL)|(? & -> & ->)]; lia.
    - destruct (leaf_lookup k t w T S) as (o & EF & EC & Ho). unfold delete_by_whole_mapping. rewrite EF. cbn [rbind]. destruct o as [e|].
      + destruct Ho as [He Ce]. destruct (Z.ltb_spec (compV e.2 v) 0) as [Lt|Ge].
        * destruct (leaf_delete k t w HM T S) as (t' & b & w' & -> & T' & S' & Hd & H). cbn [bpair rbind].
          exists t', (RBool b), w'. destruct H as [(H1 & -> & H2)|(H1 & _)]; [|by destruct H1; exists e].
          splits; try done; [|apply RL in H2; lia]. left. by exists e.
        * exists t, (RBool false), w. splits; try done; [|lia]. right. left. exists e. splits; try done; lia.
      + exists t, (RBool false), w. splits; try done; [|lia]. right. by right.
    - destruct (leaf_lookup k t w T S) as (o & EF & EC & Ho). unfold get_verify. rewrite EF. cbn [rbind]. destruct o as [e|]; cbn [rbind].
      + exists t, (RVal e.2 true), w. splits; try done; [|lia]. right. exists e. tauto.
      + exists t, (RVal vzero false), w. splits; try done; [|lia]. by left.
  Qed.

  Lemma leaf_run os t w : 2 <= degree t -> tree_reads t 0 w -> in_order comp w ->
    length (entries w) + insertions os <= 2 * degree t - 1 ->
    exists t' rs w', run os t = Ok (t', rs) /\ tree_reads t' 0 w' /\ in_order comp w'
      /\ right_history vzero comp compV (entries w) os rs (entries w').
  Proof.
    revert t w. induction os as [|o os IH]; intros t w HM T S L.
    { exists t, [], w. splits; try done. constructor. }
    unfold insertions in L. cbn [List.filter] in L.
    destruct (leaf_op o t w HM T S) as (t1 & r & w1 & E1 & T1 & S1 & Hd & Ef & L1).
    { intros H. rewrite H in L. simpl in L. lia. }
    rewrite <-Hd in HM. destruct (IH t1 w1 HM T1 S1) as (t2 & rs & w2 & E2 & T2 & S2 & H2).
    { unfold insertions. destruct (is_insert o); simpl in L; lia. }
    cbn [BPlus_Spec.run]. rewrite E1. cbn [rbind]. rewrite E2. cbn [rbind]. exists t2, (r :: rs), w2. splits; try done.
    by econstructor.
  Qed.
End small.

Lemma rbind_ext {A B} (m : res A) (f g : A -> res B) : (forall x, f x = g x) -> rbind m f = rbind m g.
Proof. intros H. destruct m; [apply H|done|done]. Qed.

Section sign.
  Context {K V : Type} (kzero : K) (vzero : V) (c1 c2 : K -> K -> Z) (v1 v2 : V -> V -> Z).
  Hypothesis HS : forall a b, Z.sgn (c1 a b) = Z.sgn (c2 a b).
  Hypothesis HV : forall a b, Z.sgn (v1 a b) = Z.sgn (v2 a b).
  Implicit Types (t : @tree K V).

  Lemma sgn_ltb x y : Z.sgn x = Z.sgn y -> (x <? 0)%Z = (y <? 0)%Z.
  Proof. intros H. destruct (Z.ltb_spec x 0), (Z.ltb_spec y 0); lia. Qed.
  Lemma sgn_gtb x y : Z.sgn x = Z.sgn y -> (0 <? x)%Z = (0 <? y)%Z.
  Proof. intros H. destruct (Z.ltb_spec 0 x), (Z.ltb_spec 0 y); lia. Qed.
  Lemma sgn_eqb x y : Z.sgn x = Z.sgn y -> (x =? 0)%Z = (y =? 0)%Z.
  Proof. intros H. destruct (Z.eqb_spec x 0), (Z.eqb_spec y 0); lia. Qed.
  Lemma Lt a b : (c1 a b <? 0)%Z = (c2 a b <? 0)%Z. Proof. by apply sgn_ltb. Qed.
  Lemma Gt a b : (0 <? c1 a b)%Z = (0 <? c2 a b)%Z. Proof. by apply sgn_gtb. Qed.
  Lemma Eq a b : (c1 a b =? 0)%Z = (c2 a b =? 0)%Z. Proof. by apply sgn_eqb. Qed.

  Ltac ext := apply rbind_ext; let x := fresh in intros x; try destruct x.

  Lemma leaf_shift_sg k pos (v : list (K * V)) : leaf_shift c1 k pos v = leaf_shift c2 k pos v.
  Proof. revert v. induction pos as [|q IH]; intros v; cbn; [done|]. ext. rewrite Lt. destruct (_ <? 0)%Z; [|done]. by ext. Qed.
  Lemma down_pos_sg k pos (v : list (K * V)) : down_pos c1 k pos v = down_pos c2 k pos v.
  Proof. induction pos as [|q IH]; cbn; [done|]. ext. rewrite Lt. by rewrite IH. Qed.
  Lemma up_pos_sg n k i (v : list (K * V)) : up_pos c1 n k i v = up_pos c2 n k i v.
  Proof. revert i. induction n as [|q IH]; intros i; cbn; [done|]. ext. rewrite Lt. by rewrite IH. Qed.
  Lemma bsearch_sg fuel k (v : list (K * V)) l hi mid : bsearch c1 fuel k v l hi mid = bsearch c2 fuel k v l hi mid.
  Proof.
    revert l hi mid. induction fuel as [|q IH]; intros l hi mid; cbn [bsearch]; [done|]. destruct (decide _); [|done].
    cbv zeta. ext. rewrite Lt, Gt. by rewrite !IH.
  Qed.
  Lemma search_loop_sg fuel nd k (h : nat -> @node K V) : search_loop c1 fuel nd k h = search_loop c2 fuel nd k h.
  Proof.
    revert nd. induction fuel as [|q IH]; intros nd; cbn [search_loop]; [done|]. apply rbind_ext; intros n. rewrite bsearch_sg.
    apply rbind_ext; intros [[l mid] ex]. destruct (leaf _); [done|]. by apply rbind_ext.
  Qed.
  Lemma search_sg k t : search c1 k t = search c2 k t.
  Proof. unfold search. by rewrite search_loop_sg. Qed.
  Lemma found_sg k t : found_entry c1 k t = found_entry c2 k t.
  Proof. unfold found_entry. by rewrite search_sg. Qed.
  Lemma contains_sg k t : contains_key c1 k t = contains_key c2 k t.
  Proof. unfold contains_key. by rewrite search_sg. Qed.
  Lemma inf_sg fuel nd p t : insert_non_full kzero vzero c1 fuel nd p t = insert_non_full kzero vzero c2 fuel nd p t.
  Proof.
    revert nd t. induction fuel as [|q IH]; intros nd t; cbn [insert_non_full]; [done|]. rewrite leaf_shift_sg, down_pos_sg.
    destruct (leaf _); [done|]. apply rbind_ext; intros pos. apply rbind_ext; intros c. apply rbind_ext; intros c'.
    match goal with |- rbind ?a _ = rbind ?b _ => assert (E : a = b) end.
    { destruct (decide _); [|done]. apply rbind_ext; intros t'. apply rbind_ext; intros x. by rewrite Lt. }
    rewrite E. apply rbind_ext; intros [t' pos']. apply rbind_ext; intros x. by apply rbind_ext.
  Qed.
  Lemma insert_sg r p t : insert kzero vzero c1 r p t = insert kzero vzero c2 r p t.
  Proof.
    unfold insert. destruct r as [r|]; [|done]. destruct (decide _).
    - destruct (new_node _ _ _). apply rbind_ext; intros t'. apply rbind_ext; intros t''. by rewrite inf_sg.
    - by rewrite inf_sg.
  Qed.
  Lemma dno_sg fuel r k t : delete_non_one c1 fuel r k t = delete_non_one c2 fuel r k t.
  Proof.
    revert r t. induction fuel as [|q IH]; intros r t; cbn [delete_non_one]; [done|]. rewrite up_pos_sg.
    apply rbind_ext; intros i. destruct (leaf _).
    { apply rbind_ext; intros x. by rewrite Eq. }
    do 4 (apply rbind_ext; intros ?). destruct (decide _); [|done].
    apply rbind_ext; intros [].
    { do 2 (apply rbind_ext; intros ?). apply IH. }
    apply rbind_ext; intros [].
    { do 2 (apply rbind_ext; intros ?). apply IH. }
    destruct (decide _); do 2 (apply rbind_ext; intros ?); apply IH.
  Qed.
  Lemma delete_sg r k t : delete c1 r k t = delete c2 r k t.
  Proof.
    unfold delete. apply rbind_ext; intros l. destruct (decide _); [|by rewrite dno_sg].
    apply rbind_ext; intros [y|]; apply rbind_ext; intros [z|]; try by rewrite dno_sg.
    destruct (decide _); [|by rewrite dno_sg]. apply rbind_ext; intros t'. by rewrite dno_sg.
  Qed.
  Lemma delete_key_sg k t : delete_key c1 k t = delete_key c2 k t.
  Proof. unfold delete_key. rewrite contains_sg. apply rbind_ext; intros []; [|done]. by rewrite delete_sg. Qed.
  Lemma do_op_sg o t : do_op kzero vzero c1 v1 o t = do_op kzero vzero c2 v2 o t.
  Proof.
    destruct o; cbn [do_op].
    - unfold insert_equal. by rewrite insert_sg.
    - unfold insert_unique. rewrite contains_sg. f_equal. apply rbind_ext; intros []; [done|]. by rewrite insert_sg.
    - by rewrite delete_key_sg.
    - unfold delete_by_whole_mapping. rewrite found_sg. f_equal. apply rbind_ext; intros [e|]; [|done].
      rewrite (sgn_ltb _ _ (HV e.2 v)). destruct (_ <? 0)%Z; [|done]. apply delete_key_sg.
    - unfold get_verify. by rewrite found_sg.
  Qed.
  Lemma run_sg os t : run kzero vzero c1 v1 os t = run kzero vzero c2 v2 os t.
  Proof.
    revert t. induction os as [|o os IH]; intros t; cbn [run]; [done|]. rewrite do_op_sg.
    apply rbind_ext; intros [t' r]. by rewrite IH.
  Qed.
End sign.
