(** Put on the wrong side; splitting; pooled nodes. *)
From Verif Require Import Base Iter_Model Iter_Spec Split_Model WalkSplit_Model WalkSplit_Spec WalkSplit_Proofs
  RBTree_Model RBTree_Spec RBTree_Proofs RBTree_Proofs2 RBTree_Proofs3 RBTree_Proofs4 RBTree_Proofs5 RBTree_Proofs6
  RBTree_Proofs7 RBTree_Proofs8 RBTree_Proofs9 RBTree_Proofs10.

Section left.
  Context {K V : Type} (kzero : K) (vzero : V) (comp : K -> K -> Z).
  Notation btree := (btree K V).
  Notation tree := (tree K V).
  Notation inv := (inv kzero).
  Implicit Types (bt a b : btree) (t : tree) (own : list loc) (C : list (frame K V)).

  Lemma plug_snoc C f (x : btree) : plug (C ++ [f]) x = fill1 f (plug C x).
  Proof. by rewrite plug_app. Qed.

  Lemma turns_unique k : forall (t : btree) C C', plug C Leaf = t -> plug C' Leaf = t -> Forall (turn comp k) C -> Forall (turn comp k) C' -> C = C'.
  Proof.
    induction t as [|c l k' v a IHa b IHb]; intros C C' E E' HC HC'.
    - destruct C as [|f C _] using rev_ind; [|rewrite plug_snoc in E; by destruct f].
      destruct C' as [|f C' _] using rev_ind; [done|rewrite plug_snoc in E'; by destruct f].
    - destruct C as [|f C _] using rev_ind; [done|]. destruct C' as [|f' C' _] using rev_ind; [done|].
      rewrite plug_snoc in E, E'. apply Forall_app in HC as [HC Hf]. apply Forall_app in HC' as [HC' Hf'].
      apply Forall_cons in Hf as [Hf _]. apply Forall_cons in Hf' as [Hf' _].
      destruct f, f'; simpl in E, E'; injection E as -> -> -> -> E1 E2; injection E' as -> -> -> -> E1' E2'; simpl in Hf, Hf'; try (exfalso; lia).
      + assert (C = C') as -> by (apply IHa; first [done|congruence]). congruence.
      + assert (C = C') as -> by (apply IHb; first [done|congruence]). congruence.
  Qed.
  Lemma ends_left_ctx k (t : btree) kp vp b : ends_left comp k t kp vp b ->
    exists C c p, t = plug (FL c p kp vp b :: C) Leaf /\ Forall (turn comp k) (FL c p kp vp b :: C).
  Proof.
    induction 1 as [c l kp vp b Hk|c l k' v' a b' kp vp b Hk H (C & c2 & p & -> & HC)|c l k' v' a b' kp vp b Hk H (C & c2 & p & -> & HC)].
    - exists [], c, l. split; [done|]. by constructor.
    - exists (C ++ [FL c l k' v' b']), c2, p. split; [by rewrite app_comm_cons, plug_snoc|]. rewrite app_comm_cons. apply Forall_app. split; [done|by constructor].
    - exists (C ++ [FR c l k' v' a]), c2, p. split; [by rewrite app_comm_cons, plug_snoc|]. rewrite app_comm_cons. apply Forall_app. split; [done|by constructor].
  Qed.

  (** the search as a function of the tree *)
  Fixpoint bfind (k : K) (t : btree) : option loc :=
    match t with
    | Leaf => None
    | T _ l k' _ a b => if decide (comp k k' = -1)%Z then bfind k a else if decide (comp k k' = 1)%Z then bfind k b else Some l
    end.
  Lemma bfind_search h k : forall (t : btree) par fuel, holds h par t -> height t < fuel -> search comp fuel h k (root_of t) = Ok (bfind k t).
  Proof.
    induction t as [|c l k' v a IHa b IHb]; intros par fuel H Hf; (destruct fuel as [|fuel]; [simpl in Hf; lia|]); [done|].
    simpl in Hf. destruct H as (Hl & Ha & Hb). cbn [root_of search bfind]. rewrite Hl. cbn [key left right].
    case_decide; [eapply IHa; [done|lia]|]. case_decide; [eapply IHb; [done|lia]|done].
  Qed.
  Lemma bfind_find own t bt k fuel : inv own t bt -> height bt < fuel -> find comp fuel t k = Ok (bfind k bt).
  Proof. intros [H _ _ _] Hf. unfold find. destruct H as (-> & H & _). by eapply bfind_search. Qed.
  Lemma bfind_in k : forall (t : btree) l, bfind k t = Some l -> exists kv, (l, kv) ∈ io t /\ comp k kv.1 <> (-1)%Z /\ comp k kv.1 <> 1%Z.
  Proof.
    induction t as [|c l' k' v a IHa b IHb]; intros l; cbn [bfind io]; [done|]. case_decide; [|case_decide].
    - intros (kv & H1 & H2)%IHa. exists kv. split; [|done]. set_solver.
    - intros (kv & H1 & H2)%IHb. exists kv. split; [|done]. set_solver.
    - intros [= ->]. exists (k', v). split; [|done]. set_solver.
  Qed.

  Lemma not_both kp kn P n vp vn : comp kn kp = (-1)%Z -> comp kp kn = 1%Z -> forall (t : btree) X Y,
    io t = X ++ (P, (kp, vp)) :: (n, (kn, vn)) :: Y -> NoDup (locs t) ->
    bfind kn t = Some n -> bfind kp t = Some P -> False.
  Proof.
    intros E1 E2. induction t as [|c l k v a IHa b IHb]; intros X Y E ND Fn Fp; [by destruct X|].
    unfold locs in ND. cbn [io] in E, ND.
    assert (Hroot : P = l -> kp = k -> forall Y', io b = (n, (kn, vn)) :: Y' -> False).
    { intros -> -> Y' Eb. cbn [bfind] in Fn. rewrite decide_True in Fn by done. apply bfind_in in Fn as (kv & Hin & _).
      rewrite fmap_app, fmap_cons in ND. apply NoDup_app in ND as (_ & ND & _). apply (ND n); [apply elem_of_list_fmap; by eexists (_, _)|].
      right. rewrite Eb. by left. }
    assert (Hsub : forall X', ((exists Y', io a = X' ++ (P, (kp, vp)) :: (n, (kn, vn)) :: Y') \/ (exists Y', io b = X' ++ (P, (kp, vp)) :: (n, (kn, vn)) :: Y')) -> False).
    { intros X' [[Y' Ea]|[Y' Eb]].
      - assert (Hn : n ∈ (io a).*1) by (rewrite Ea, fmap_app; apply elem_of_app; right; right; left).
        assert (HP : P ∈ (io a).*1) by (rewrite Ea, fmap_app; apply elem_of_app; right; left).
        rewrite fmap_app, fmap_cons in ND. apply NoDup_app in ND as (ND1 & ND2 & ND3).
        cbn [bfind] in Fn, Fp. apply (IHa X' Y' Ea); [done| |].
        + clear Fp. case_decide; [done|]. exfalso. apply (ND2 n Hn). case_decide; [|injection Fn as ->; by left].
          apply bfind_in in Fn as (kv & Hin & _). right. apply elem_of_list_fmap. by eexists (_, _).
        + clear Fn. case_decide; [done|]. exfalso. apply (ND2 P HP). case_decide; [|injection Fp as ->; by left].
          apply bfind_in in Fp as (kv & Hin & _). right. apply elem_of_list_fmap. by eexists (_, _).
      - assert (Hn : n ∈ (io b).*1) by (rewrite Eb, fmap_app; apply elem_of_app; right; right; left).
        assert (HP : P ∈ (io b).*1) by (rewrite Eb, fmap_app; apply elem_of_app; right; left).
        rewrite fmap_app, fmap_cons in ND. apply NoDup_app in ND as (ND1 & ND2 & ND3). apply NoDup_cons in ND3 as [ND3 ND4].
        cbn [bfind fst] in Fn, Fp, ND3. apply (IHb X' Y' Eb); [done| |].
        + clear Fp. case_decide; [|case_decide; [done|injection Fn as ->; done]].
          exfalso. apply bfind_in in Fn as (kv & Hin & _). apply (ND2 n); [apply elem_of_list_fmap; by eexists (_, _)|by right].
        + clear Fn. case_decide; [|case_decide; [done|injection Fp as ->; done]].
          exfalso. apply bfind_in in Fp as (kv & Hin & _). apply (ND2 P); [apply elem_of_list_fmap; by eexists (_, _)|by right]. }
    apply app_eq_inv in E as [(Z & Ea & Eb)|(Z & Ea & Eb)].
    - destruct Z as [|z [|z' Z]]; simpl in Eb.
      + injection Eb as <- <- <- Eb. by apply (Hroot eq_refl eq_refl Y).
      + injection Eb as <- <- <- <- Eb. cbn [bfind] in Fp. rewrite decide_False, decide_True in Fp by lia.
        apply bfind_in in Fp as (kv & Hin & _). rewrite fmap_app, fmap_cons in ND. apply NoDup_app in ND as (_ & ND & _).
        apply (ND P); [rewrite Ea, fmap_app; apply elem_of_app; right; left|]. right. apply elem_of_list_fmap. by eexists (_, _).
      + injection Eb as <- <- Eb. apply (Hsub X). left. by exists Z.
    - destruct Z as [|z Z]; simpl in Eb.
      + injection Eb as -> -> -> Eb. by apply (Hroot eq_refl eq_refl Y).
      + injection Eb as <- Eb. apply (Hsub Z). right. by exists Y.
  Qed.
End left.

Section leftput.
  Context {K V : Type} (kzero : K) (vzero : V) (comp : K -> K -> Z) (Hc : cmp_ok comp) (Hu : cmp_unit comp).
  Notation btree := (btree K V).
  Notation tree := (tree K V).
  Notation inv := (inv kzero).
  Notation sorted := (sorted (V := V) comp).
  Notation "a ≺ b" := (comp a b < 0)%Z (at level 70).
  Implicit Types (bt a b : btree) (t : tree) (own : list loc) (C : list (frame K V)).

  Lemma put_left own t bt k v kp vp b fuel :
    inv own t bt -> sorted (entries bt) -> ends_left comp k bt kp vp b -> height bt + 2 <= fuel ->
    exists t' bt' X Y, put comp fuel t k v = Ok (true, t') /\ size t' = (size t + 1)%Z /\ inv own t' bt' /\
      entries bt = X ++ (kp, vp) :: entries b ++ Y /\ entries bt' = X ++ (kp, vp) :: (k, v) :: Y /\
      k ≺ kp /\ (forall e, e ∈ X -> e.1 ≺ k) /\
      (forall f, height bt' < f ->
        ~ (has comp f t' k = Ok true /\ has comp f t' kp = Ok true) /\
        forall e, e ∈ entries b -> has comp f t' e.1 = Ok false).
  Proof.
    intros I HS HE Hf. apply ends_left_ctx in HE as (C & c & p & Ebt & HC).
    destruct (put_ok kzero comp own t bt k v fuel I Hf) as [(C2 & c2 & l & k' & v' & a2 & b2 & t' & E & HC2 & N1 & N2 & Ep & I' & Hs & H0)|(C2 & n & t' & bt' & E & HC2 & Ep & I' & Hs & Hio & Hn & _)].
    { exfalso. subst bt. rewrite E in HS. destruct (split_found comp Hc Hu C2 c2 l k k' v' a2 b2 HS HC2 N1 N2) as (E0 & Em & _).
      rewrite <- E in Em, HS. destruct (split_absent comp Hc _ k HS HC) as (_ & _ & _ & HD).
      rewrite Forall_forall in HD. apply (HD (k', v')); [rewrite Em; set_solver|done]. }
    assert (C2 = FL c p kp vp b :: C) as ->. { apply (turns_unique comp k bt); congruence. }
    set (X := (iol C).*2). set (Y := (ior C).*2).
    assert (Ee : entries bt = X ++ (kp, vp) :: entries b ++ Y).
    { rewrite Ebt. unfold entries. rewrite io_plug. simpl. by rewrite fmap_app, fmap_cons, fmap_app. }
    assert (Ee' : entries bt' = X ++ (kp, vp) :: (k, v) :: Y).
    { unfold entries. rewrite Hio. simpl. by rewrite fmap_app, !fmap_cons. }
    rewrite Ebt in HS. destruct (split_absent comp Hc _ k HS HC) as (_ & HX & HY & _). rewrite <- Ebt in HS.
    assert (HX' : forall e, e ∈ X -> e.1 ≺ k) by done.
    assert (HY' : forall e, e ∈ (kp, vp) :: entries b ++ Y -> k ≺ e.1). { intros e He. apply HY. simpl. by rewrite fmap_app. }
    assert (Hkp : k ≺ kp) by (apply (HY' (kp, vp)); by left).
    exists t', bt', X, Y. split; [done|]. split; [done|]. split; [done|]. split; [done|]. split; [done|]. split; [done|]. split; [done|].
    rewrite Ee in HS. apply (sorted_app comp) in HS as (_ & S2 & S3). apply (sorted_app comp [(kp, vp)]) in S2 as (_ & S4 & S5).
    apply (sorted_app comp) in S4 as (_ & _ & S4).
    intros f Hf2. 
    assert (Hhas : forall q, has comp f t' q = Ok true <-> exists l, bfind comp q bt' = Some l).
    { intros q. unfold has. rewrite (bfind_find kzero comp own t' bt' q f I' Hf2). cbn [rbind]. destruct (bfind comp q bt'); split; eauto; [done|by intros [? ?]]. }
    split.
    - intros [G1 G2]. apply Hhas in G1 as [l1 G1], G2 as [l2 G2].
      assert (io bt' = iol C ++ (p, (kp, vp)) :: (n, (k, v)) :: ior C) as Eio by exact Hio.
      pose proof (bfind_in comp _ _ _ G1) as (kv1 & Hin1 & M1 & M2). pose proof (bfind_in comp _ _ _ G2) as (kv2 & Hin2 & M3 & M4).
      assert (E1 : comp k kv1.1 = 0%Z) by (destruct (Hu k kv1.1) as [|[|]]; tauto).
      assert (E2 : comp kp kv2.1 = 0%Z) by (destruct (Hu kp kv2.1) as [|[|]]; tauto).
      assert (l1 = n) as ->.
      { rewrite Eio in Hin1. apply elem_of_app in Hin1 as [Hin1|Hin1]; [exfalso|apply elem_of_cons in Hin1 as [[= -> ->]|Hin1]; [exfalso|apply elem_of_cons in Hin1 as [[= -> ->]|Hin1]; [done|exfalso]]].
        - specialize (HX' kv1 ltac:(apply elem_of_list_fmap; by eexists (_, _))). apply (cmp_lt_gt comp Hc) in HX'. lia.
        - simpl in E1. lia.
        - specialize (HY' kv1 ltac:(right; apply elem_of_app; right; apply elem_of_list_fmap; by eexists (_, _))). lia. }
      assert (l2 = p) as ->.
      { rewrite Eio in Hin2. apply elem_of_app in Hin2 as [Hin2|Hin2]; [exfalso|apply elem_of_cons in Hin2 as [[= -> ->]|Hin2]; [done|apply elem_of_cons in Hin2 as [[= -> ->]|Hin2]; exfalso]].
        - specialize (HX' kv2 ltac:(apply elem_of_list_fmap; by eexists (_, _))). pose proof (cmp_lt_trans comp Hc _ _ _ HX' Hkp) as HH. apply (cmp_lt_gt comp Hc) in HH. lia.
        - simpl in E2. apply (cmp_lt_gt comp Hc) in Hkp. lia.
        - specialize (S5 (kp, vp) kv2 ltac:(by left) ltac:(apply elem_of_app; right; apply elem_of_list_fmap; by eexists (_, _))). simpl in S5. lia. }
      apply (not_both comp kp k p n vp v) with bt' (iol C) (ior C); try done.
      + destruct (Hu k kp) as [|[|]]; lia.
      + apply (cmp_lt_gt comp Hc) in Hkp. destruct (Hu kp k) as [|[|]]; lia.
      + pose proof (i_tree _ _ _ _ I') as (_ & _ & ND). by apply NoDup_cons in ND as [_ ND].
    - intros e He. unfold has. rewrite (bfind_find kzero comp own t' bt' e.1 f I' Hf2). cbn [rbind].
      destruct (bfind comp e.1 bt') as [l|] eqn:EB; [exfalso|done]. apply bfind_in in EB as (kv & Hin & M1 & M2).
      assert (E1 : comp e.1 kv.1 = 0%Z) by (destruct (Hu e.1 kv.1) as [|[|]]; tauto).
      assert (Hin2 : kv ∈ entries bt') by (apply elem_of_list_fmap; by eexists (_, _)). rewrite Ee' in Hin2.
      assert (Hke : k ≺ e.1) by (apply HY'; right; apply elem_of_app; by left).
      apply elem_of_app in Hin2 as [Hin2|[-> |[-> |Hin2]%elem_of_cons]%elem_of_cons]; simpl in *.
      + specialize (HX' kv Hin2). pose proof (cmp_lt_trans comp Hc _ _ _ HX' Hke) as HH. apply (cmp_lt_gt comp Hc) in HH. lia.
      + specialize (S5 (kp, vp) e ltac:(by left) ltac:(apply elem_of_app; by left)). simpl in S5. apply (cmp_lt_gt comp Hc) in S5. lia.
      + apply (cmp_lt_gt comp Hc) in Hke. lia.
      + specialize (S4 e kv He Hin2). lia.
  Qed.

  (** a key below all keys *)
  Lemma min_ends_left k : forall bt, bt <> Leaf -> (forall e, e ∈ entries bt -> k ≺ e.1) -> sorted (entries bt) ->
    exists kp vp b, ends_left comp k bt kp vp b /\ head (entries bt) = Some (kp, vp).
  Proof.
    induction bt as [|c l k' v a IHa b IHb]; intros HN HA HS; [done|].
    assert (Hk : comp k k' = (-1)%Z). { specialize (HA (k', v) ltac:(unfold entries; simpl; rewrite fmap_app; set_solver)). simpl in HA. destruct (Hu k k') as [|[|]]; lia. }
    assert (Ee : entries (T c l k' v a b) = entries a ++ (k', v) :: entries b) by (unfold entries; simpl; by rewrite fmap_app).
    destruct a as [|c1 l1 k1 v1 a1 a2].
    - exists k', v, b. split; [by constructor|done].
    - set (a := T c1 l1 k1 v1 a1 a2) in *. rewrite Ee in HA, HS. destruct IHa as (kp & vp & b' & E1 & E2).
      + done.
      + intros e He. apply HA. apply elem_of_app. by left.
      + by apply (sorted_app comp) in HS as (HS & _).
      + exists kp, vp, b'. split; [by constructor|]. rewrite Ee. by destruct (entries a).
  Qed.
End leftput.

Section split.
  Context {K V : Type} (kzero : K) (vzero : V) (comp : K -> K -> Z).
  Notation inv := (inv kzero).

  Lemma rb_path own (t : tree K V) bt fuel : inv own t bt -> height bt <= fuel ->
    forall (Y X : list (nat * (K * V))), io bt = X ++ Y -> node_path (next_node fuel t) (head Y.*1) Y.*1 /\ entry t <$> Y.*1 = Y.*2.
  Proof.
    intros I Hf. induction Y as [|[l [k v]] Y IH]; intros X E; [done|].
    destruct (next_io kzero own t bt fuel I Hf l (k, v) X Y E) as [E1 E2].
    destruct (IH (X ++ [(l, (k, v))]) ltac:(by rewrite <- app_assoc)) as [E3 E4]. rewrite !fmap_cons. cbn [fst snd]. split.
    - cbn [node_path head]. split; [done|]. unfold next_node at 2. rewrite E1. done.
    - rewrite E4. f_equal. exact E2.
  Qed.
  Lemma rb_split own (t : tree K V) bt fuel p : inv own t bt -> height bt <= fuel -> left_ok t bt -> locs bt <> [] ->
    size t = Z.of_nat (length (entries bt)) -> forall k,
    exists outs outs' fin fin',
      length outs = k /\
      pulled (split_next (entries bt) p) 0 outs fin /\
      pulled (walk_next (next_node fuel t) (size t) p) (walk_init (left_most t)) outs' fin' /\
      Forall2 (same_segment (next_node fuel t) (entry t)
                 (fun xs => exists st, drains (iter_next fuel t) (left_most t) xs st)) outs outs'.
  Proof.
    intros I Hf HL HN Hz k. destruct (rb_path own t bt fuel I Hf (io bt) [] eq_refl) as [P1 P2].
    pose proof (walk_agrees (next_node fuel t) (entry t) (fun xs => exists st, drains (iter_next fuel t) (left_most t) xs st) (left_most t) (locs bt) p) as W.
    assert (E1 : entry t <$> locs bt = entries bt) by exact P2.
    assert (E2 : Z.of_nat (length (locs bt)) = size t). { rewrite Hz. unfold locs, entries. by rewrite !fmap_length. }
    rewrite E1, E2 in W. apply W.
    - rewrite (HL HN). exact P1.
    - exists None. by eapply (iter_drains kzero).
  Qed.
End split.

Section pool.
  Context {K V : Type} (kzero : K) (vzero : V) (comp : K -> K -> Z).
  Notation inv := (inv kzero).
  Lemma chain_free_list (h : heap K V) p fl : chain h p fl <-> free_list h p fl.
  Proof.
    revert p. induction fl as [|l fl IH]; intros p; simpl.
    - split; [intros ->; constructor|by inversion 1].
    - split; [intros [-> H]; constructor; by apply IH|]. inversion 1; subst. split; [done|]. by apply IH.
  Qed.
  Lemma inv_pooled own (t : tree K V) bt : inv own t bt ->
    exists ls, pooled t ls /\ NoDup (0 :: locs bt ++ own ++ ls) /\ length ls <= 16 + cursor (buf t).
  Proof.
    intros [H1 H2 H3 (fl & P1 & P2 & P3 & P4 & P5 & P6)]. eexists. split; [exists fl; split; [by apply chain_free_list|done]|].
    rewrite (app_assoc (locs bt)). split; [done|]. rewrite app_length, seq_length. lia.
  Qed.
End pool.

(** running closed examples without normalising the heap *)
Lemma ok_ex {A B : Type} (r : res (A * B)) (P : A -> B -> Prop) :
  match r with Ok (x, y) => P x y | _ => False end -> exists x y, r = Ok (x, y) /\ P x y.
Proof. destruct r as [[x y]| |]; [eauto|done|done]. Qed.

Section more.
  Context {K V : Type} (kzero : K) (vzero : V) (comp : K -> K -> Z).
  Lemma holds_unique (h : heap K V) : forall t t' par par', holds h par t -> holds h par' t' -> root_of t = root_of t' -> t = t'.
  Proof.
    induction t as [|c l k v a IHa b IHb]; intros [|c' l' k' v' a' b'] par par' H H' E; try done. injection E as <-.
    destruct H as (E1 & Ha & Hb), H' as (E2 & Ha' & Hb'). rewrite E1 in E2. injection E2 as -> _ Ea Eb -> ->.
    f_equal; [by eapply IHa|by eapply IHb].
  Qed.
  Lemma tree_unique (h : heap K V) t t' : is_tree h t -> is_tree h t' -> t = t'.
  Proof. intros (E1 & H1 & _) (E2 & H2 & _). eapply holds_unique; [done|done|congruence]. Qed.
  Lemma inv_entry own (t : tree K V) bt l kv : inv kzero own t bt -> (l, kv) ∈ io bt -> entry t l = kv.
  Proof.
    intros I Hl. destruct kv as [k v]. apply focus in Hl as (C & c & a & b & ->). unfold entry.
    by rewrite (tree_rd _ _ _ _ _ _ _ _ (i_tree _ _ _ _ I)).
  Qed.
End more.

Section mlen.
  Context {K V : Type} (vzero : V) (comp : K -> K -> Z).
  Lemma erases_len m ks : length (erases (V := V) comp m ks) <= length m.
  Proof.
    revert m. induction ks as [|k ks IH]; intros m; [done|]. etrans; [apply IH|]. apply filter_length.
  Qed.
  Lemma map_step_len m o r m' : map_step vzero comp m o r m' -> length m' <= S (length m).
  Proof.
    destruct o; cbn [map_step]; try done.
    - intros [_ ->]. case_match; [unfold update; rewrite fmap_length; lia|rewrite app_length; simpl; lia].
    - intros [_ ->]. lia.
    - intros [_ ->]. lia.
    - intros [_ ->]. lia.
    - intros [_ ->]. unfold erase. etrans; [apply filter_length|lia].
    - intros [_ ->]. etrans; [apply erases_len|lia].
    - destruct (lookup comp m k); [|intros [_ ->]; lia]. case_decide; intros [_ ->]; [|lia]. unfold erase. etrans; [apply filter_length|lia].
    - intros [_ ->]. simpl. lia.
  Qed.
  Lemma map_run_len m os rs m' : map_run vzero comp m os rs m' -> length m' <= length m + length os.
  Proof. induction 1 as [|m o r m1 os rs m2 H _ IH]; simpl; [lia|]. pose proof (map_step_len m o r m1 H). lia. Qed.
End mlen.

Fixpoint pull_all {T St} (n : nat) (next : St -> res (option T * St)) (s : St) : res (list T * St) :=
  match n with
  | O => Fuel
  | S n => let! (o, s1) := next s in
           match o with
           | None => Ok ([], s1)
           | Some v => let! (l, s2) := pull_all n next s1 in Ok (v :: l, s2)
           end
  end.
Lemma pull_all_drains {T St} n (next : St -> res (option T * St)) : forall s l s', pull_all n next s = Ok (l, s') -> drains next s l s'.
Proof.
  induction n as [|n IH]; intros s l s'; cbn [pull_all]; [done|]. destruct (next s) as [[[v|] s1]| |] eqn:E; cbn [rbind]; try done.
  - destruct (pull_all n next s1) as [[l2 s2]| |] eqn:E2; cbn [rbind]; try done. intros [= <- <-]. apply IH in E2 as (s3 & H1 & H2).
    exists s3. split; [by econstructor|done].
  - intros [= <- <-]. exists s. split; [constructor|done].
Qed.
