(** Every reachable state, for any comparator: red-black shape, node ownership. *)
From Verif Require Import Base RBTree_Model RBTree_Spec RBTree_Proofs RBTree_Proofs2 RBTree_Proofs3 RBTree_Proofs4 RBTree_Proofs5 RBTree_Proofs6 RBTree_Proofs7 RBTree_Proofs8.

Section height.
  Context {K V : Type}.
  Implicit Types (t : btree K V).
  Lemma bh_size t n : bh t n -> 2 ^ n <= length (locs t) + 1.
  Proof.
    revert n. induction t as [|c l k v a IHa b IHb]; intros n H; [simpl in H; subst; simpl; lia|].
    rewrite locs_app, app_length. simpl. destruct c; simpl in H.
    - destruct H as [H1 H2]. specialize (IHa _ H1). lia.
    - destruct H as (m & -> & H1 & H2). specialize (IHa _ H1). specialize (IHb _ H2). simpl. lia.
  Qed.
  Lemma bh_height t n : bh t n -> no_red_red t -> height t <= 2 * n + (match col t with Red => 1 | Black => 0 end).
  Proof.
    revert n. induction t as [|c l k v a IHa b IHb]; intros n H Hr; [simpl; lia|].
    simpl in Hr. destruct Hr as (Hc & Ha & Hb). destruct c; simpl in H |- *.
    - destruct H as [H1 H2]. destruct (Hc eq_refl) as [E1 E2]. specialize (IHa _ H1 Ha). specialize (IHb _ H2 Hb). rewrite E1 in IHa. rewrite E2 in IHb. lia.
    - destruct H as (m & -> & H1 & H2). specialize (IHa _ H1 Ha). specialize (IHb _ H2 Hb). destruct (col a), (col b); lia.
  Qed.
  Lemma height_log t : red_black t -> height t <= 2 * Nat.log2 (length (locs t) + 1).
  Proof.
    intros (H1 & H2 & (n & H3)). pose proof (bh_height t n H3 H2) as Hh. rewrite H1 in Hh.
    pose proof (bh_size t n H3) as Hs. apply Nat.log2_le_mono in Hs. rewrite Nat.log2_pow2 in Hs by lia. lia.
  Qed.

  Lemma linked_locs (h : heap K V) t : is_tree h t -> forall l, linked h l <-> l ∈ locs t.
  Proof.
    intros H l. split.
    - induction 1 as [l E|p l _ IH E|p l _ IH E].
      + destruct H as (Hr & _). rewrite Hr in E. by apply root_in.
      + apply focus_loc in IH as (C & c & k & v & a & b & ->). rewrite (tree_rd _ _ _ _ _ _ _ _ H) in E. simpl in E.
        apply root_in in E. rewrite locs_plug', locs_T. set_solver.
      + apply focus_loc in IH as (C & c & k & v & a & b & ->). rewrite (tree_rd _ _ _ _ _ _ _ _ H) in E. simpl in E.
        apply root_in in E. rewrite locs_plug', locs_T. set_solver.
    - intros Hl.
      enough (G : forall C t', t = plug C t' -> (forall r, root_of t' = Some r -> linked h r) -> l ∈ locs t' -> linked h l).
      { apply (G [] t); [done| |done]. intros r Hr. apply linked_root. by rewrite (proj1 H). }
      clear Hl. intros C t'. revert C. induction t' as [|c l' k v a IHa b IHb]; intros C E Hr Hl; [by apply elem_of_nil in Hl|].
      rewrite locs_T, elem_of_cons, elem_of_app in Hl. specialize (Hr l' eq_refl). subst t. pose proof (tree_rd _ _ _ _ _ _ _ _ H) as Hl'.
      destruct Hl as [-> |[Hl|Hl]]; [done| |].
      + apply (IHa (FL c l' k v b :: C)); [done| |done]. intros r Er. apply linked_left with l'; [done|]. by rewrite Hl'.
      + apply (IHb (FR c l' k v a :: C)); [done| |done]. intros r Er. apply linked_right with l'; [done|]. by rewrite Hl'.
  Qed.
End height.

Section reach.
  Context {K V : Type} (kzero : K) (vzero : V) (comp : K -> K -> Z).
  Notation btree := (btree K V).
  Notation tree := (tree K V).
  Notation inv := (inv kzero).
  Notation enough bt := (length (locs bt) + 2).
  Implicit Types (bt a b : btree) (t : tree) (own : list loc) (C : list (frame K V)).

  Lemma find_ok own t bt k fuel : inv own t bt -> height bt < fuel ->
    (exists C c l k' v a b, bt = plug C (T c l k' v a b) /\ Forall (turn comp k) C /\
       comp k k' <> (-1)%Z /\ comp k k' <> 1%Z /\ find comp fuel t k = Ok (Some l) /\ key (hp t l) = k' /\ val (hp t l) = v) \/
    (exists C, bt = plug C Leaf /\ Forall (turn comp k) C /\ find comp fuel t k = Ok None).
  Proof.
    intros [H1 _ _ _] Hf. unfold find. destruct (search_ok comp (hp t) k bt fuel H1 Hf) as [(C & c & l & k' & v & a & b & E & H2 & H3 & H4 & H5)|(C & E & H2 & H3)].
    - left. exists C, c, l, k', v, a, b. subst bt. pose proof (tree_rd _ _ _ _ _ _ _ _ H1) as Hl. rewrite Hl. done.
    - right. by exists C.
  Qed.

  (** Delete *)
  Definition removed own t t' C l (a b : btree) (r : loc) : Prop :=
    let A := iol C ++ io a in let B := io b ++ ior C in
    exists bt', inv (r :: own) t' bt' /\
      (r = l /\ io bt' = A ++ B \/ exists kv B', a <> Leaf /\ r <> l /\ B = (r, kv) :: B' /\ io bt' = A ++ (l, kv) :: B') /\
      size t' = (size t - 1)%Z /\ hp t' r = hp t r /\
      exists lf rt, hdr_remove comp (hp t) (key (hp t l)) A B = Ok (lf, rt) /\
      left (hp t' 0) = (if decide (size t = 1)%Z then None else lf) /\
      right (hp t' 0) = (if decide (size t = 1)%Z then None else rt).
  Definition delete_panics t (k' : K) : Prop :=
    let c := comp k' kzero in ~ (c > -1)%Z /\ left (hp t 0) = None.

  Lemma hdr_remove_panic h (k : K) A B : key (h 0) = kzero ->
    ((let c := comp k kzero in ~ (c > -1)%Z) /\ left (h 0) = None <-> forall x, hdr_remove (V := V) comp h k A B <> Ok x) /\
    hdr_remove comp h k A B <> Fuel.
  Proof.
    intros Hk. unfold hdr_remove. rewrite Hk. case_decide; [split; [split|]; [tauto| |done]|].
    - intros G. by destruct (G _ eq_refl).
    - destruct (left (h 0)); [|done]. case_decide; (split; [split|]; [by intros []| |done]); intros G; by destruct (G _ eq_refl).
  Qed.

  Lemma remove_found own t C c l k' v a b fuel : inv own t (plug C (T c l k' v a b)) -> height (plug C (T c l k' v a b)) + 2 <= fuel ->
    (delete_panics t k' /\ remove_node comp fuel t l = Panic) \/
    (~ delete_panics t k' /\ exists r t', remove_node comp fuel t l = Ok (r, t') /\ removed own t t' C l a b r).
  Proof.
    intros I Hf. pose proof (remove_node_ok kzero comp own t C c l k' v a b fuel I Hf) as HR. pose proof I as [H1 H2 H3 H4].
    destruct (hdr_remove_panic (hp t) k' (iol C ++ io a) (io b ++ ior C) H3) as [HP HF].
    pose proof (tree_rd _ _ _ _ _ _ _ _ H1) as Hl.
    destruct (hdr_remove comp (hp t) k' (iol C ++ io a) (io b ++ ior C)) as [[lf rt]| |] eqn:EH.
    - right. split; [intros G; by destruct (proj1 HP G (lf, rt))|]. destruct HR as (r & t' & bt' & E & I' & Hio & Hs & Hr & HL & HR).
      exists r, t'. split; [done|]. exists bt'. splits; try done. exists lf, rt. rewrite Hl. done.
    - left. split; [|done]. by apply (proj2 HP).
    - done.
  Qed.

  Lemma delete_ok own t bt k fuel : inv own t bt -> height bt + 2 <= fuel ->
    (exists C, bt = plug C Leaf /\ Forall (turn comp k) C /\ delete comp fuel t k = Ok (None, t)) \/
    (exists C c l k' v a b, bt = plug C (T c l k' v a b) /\ Forall (turn comp k) C /\ comp k k' <> (-1)%Z /\ comp k k' <> 1%Z /\
       find comp fuel t k = Ok (Some l) /\ key (hp t l) = k' /\
       ((delete_panics t k' /\ delete comp fuel t k = Panic) \/
        (~ delete_panics t k' /\ exists r t', delete comp fuel t k = Ok (Some r, t') /\ removed own t t' C l a b r))).
  Proof.
    intros I Hf. destruct (find_ok own t bt k fuel I ltac:(lia)) as [(C & c & l & k' & v & a & b & E & H2 & H3 & H4 & H5 & H6 & H7)|(C & E & H2 & H3)].
    - right. exists C, c, l, k', v, a, b. split; [done|]. split; [done|]. split; [done|]. split; [done|]. split; [done|]. split; [done|].
      subst bt. unfold delete. rewrite H5. cbn [rbind].
      destruct (remove_found own t C c l k' v a b fuel I Hf) as [[G1 G2]|(G1 & r & t' & G2 & G3)].
      + left. by rewrite G2.
      + right. split; [done|]. exists r, t'. by rewrite G2.
    - left. exists C. split; [done|]. split; [done|]. unfold delete. by rewrite H3.
  Qed.

  Lemma io_locs_len bt l : io bt = l -> length (locs bt) = length l.
  Proof. intros <-. unfold locs. by rewrite fmap_length. Qed.
  Lemma removed_len own t t' C c l k v a b r : removed own t t' C l a b r ->
    exists bt', inv (r :: own) t' bt' /\ S (length (locs bt')) = length (locs (plug C (T c l k v a b))).
  Proof.
    intros (bt' & I & Hio & _). exists bt'. split; [done|]. rewrite (io_locs_len (plug C (T c l k v a b)) _ (io_plug _ _)).
    destruct Hio as [[_ Hio]|(kv & B' & _ & _ & EB & Hio)]; rewrite (io_locs_len bt' _ Hio).
    - rewrite !app_length. simpl. rewrite !app_length. simpl. lia.
    - assert (length (io b ++ ior C) = S (length B')) as E by (by rewrite EB). rewrite !app_length in *. simpl. rewrite !app_length. simpl. lia.
  Qed.

  Lemma delete_keys_ok own t bt ks fuel : inv own t bt -> enough bt <= fuel ->
    delete_keys comp fuel t ks = Panic \/
    exists z t' bt', delete_keys comp fuel t ks = Ok (z, t') /\ inv own t' bt' /\ length (locs bt') <= length (locs bt).
  Proof.
    revert t bt. induction ks as [|k ks IH]; intros t bt I Hf; simpl; [right; by eauto 10|].
    pose proof (height_locs bt) as Hh.
    destruct (delete_ok own t bt k fuel I ltac:(lia)) as [(C & E & H2 & H3)|(C & c & l & k' & v & a & b & E & H2 & H3 & H4 & H5 & H6 & [[_ G]|(_ & r & t' & G & HR)])].
    - rewrite H3. cbn [rbind]. destruct (IH t bt I Hf) as [-> |(z & t' & bt' & -> & I' & Hl)]; [by left|]. right. cbn [rbind]. eauto 10.
    - rewrite G. by left.
    - rewrite G. cbn [rbind]. subst bt. destruct (removed_len _ _ _ _ c _ k' v _ _ _ HR) as (bt' & I' & Hl).
      destruct (inv_free kzero comp own t' bt' r I') as (I2 & _). destruct (IH _ bt' I2 ltac:(lia)) as [-> |(z & t2 & bt2 & -> & I3 & Hl2)]; [by left|].
      right. cbn [rbind]. eexists _, _, _. split; [done|]. split; [done|]. lia.
  Qed.

  Lemma locs_kv C c l k v k' v' a b : locs (plug C (T c l k v a b)) = locs (plug C (T c l k' v' a b)).
  Proof. unfold locs. rewrite !io_plug. simpl. by repeat (rewrite fmap_app || rewrite fmap_cons). Qed.

  (** the operations that can panic are the deleting ones *)
  Definition deleting (o : op K V) : Prop :=
    match o with ODelete _ | ODeleteKeys _ | ODeleteWhole _ _ _ => True | _ => False end.

  Lemma link_io_len C (e : loc * (K * V)) : length (link_io C e) <= S (length (locs (plug C Leaf))).
  Proof.
    rewrite (io_locs_len (plug C Leaf) _ (io_plug _ _)). destruct C as [|[] C]; simpl; rewrite ?app_length; simpl; rewrite ?app_length; lia.
  Qed.

  Lemma step_ok own t bt o fuel : inv own t bt -> legal own o -> enough bt <= fuel ->
    (deleting o /\ step vzero comp fuel t o = Panic) \/
    exists r t' bt', step vzero comp fuel t o = Ok (r, t') /\ inv (own_after own o r) t' bt' /\ length (locs bt') <= S (length (locs bt)).
  Proof.
    intros I HL Hf. pose proof (height_locs bt) as Hh. destruct o as [k v|n|k v|n k v|k|k| |k|ks|k v vc|]; cbn [step legal] in *.
    - right. destruct (put_ok kzero comp own t bt k v fuel I ltac:(lia)) as [(C & c & l & k' & v' & a & b & t' & E & _ & _ & _ & Ep & I' & _)|(C & n & t' & bt' & E & _ & Ep & I' & _ & Eio & _)]; rewrite Ep; cbn [rbind].
      + eexists _, _, _. split; [done|]. split; [exact I'|]. subst bt. rewrite (locs_kv C c l k' v' k' v a b). apply Nat.le_succ_diag_r.
      + eexists _, _, _. split; [done|]. split; [exact I'|]. subst bt. rewrite (io_locs_len bt' _ Eio). apply link_io_len.
    - right. destruct (put_node_ok kzero comp own t bt n fuel I HL ltac:(lia)) as [(C & c & l & k' & v' & a & b & t' & E & _ & _ & _ & Ep & I' & _)|(C & t' & bt' & E & _ & Ep & I' & _ & Eio & _)]; rewrite Ep; cbn [rbind].
      + eexists _, _, _. split; [done|]. split; [exact I'|]. subst bt. rewrite (locs_kv C c l k' v' k' (val (hp t n)) a b). apply Nat.le_succ_diag_r.
      + eexists _, _, _. split; [done|]. split; [exact I'|]. subst bt. rewrite (io_locs_len bt' _ Eio). apply link_io_len.
    - right. eexists _, _, bt. split; [done|]. split; [by apply (inv_new_node kzero comp)|lia].
    - right. eexists _, _, _. split; [done|]. split; [by apply (inv_set_node kzero)|rewrite rekey_locs; lia].
    - right. unfold get. destruct (find_ok own t bt k fuel I ltac:(lia)) as [(C & c & l & k' & v & a & b & E & H2 & H3 & H4 & H5 & H6)|(C & E & H2 & H3)].
      + rewrite H5. cbn [rbind]. eexists _, _, bt. split; [done|]. split; [done|lia].
      + rewrite H3. cbn [rbind]. eexists _, _, bt. split; [done|]. split; [done|lia].
    - right. unfold has. destruct (find_ok own t bt k fuel I ltac:(lia)) as [(C & c & l & k' & v & a & b & E & H2 & H3 & H4 & H5 & H6)|(C & E & H2 & H3)].
      + rewrite H5. cbn [rbind]. eexists _, _, bt. split; [done|]. split; [done|lia].
      + rewrite H3. cbn [rbind]. eexists _, _, bt. split; [done|]. split; [done|lia].
    - right. eexists _, _, bt. split; [done|]. split; [done|lia].
    - destruct (delete_ok own t bt k fuel I ltac:(lia)) as [(C & E & H2 & H3)|(C & c & l & k' & v & a & b & E & H2 & H3 & H4 & H5 & H6 & [[_ G]|(_ & r & t' & G & HR)])].
      + right. rewrite H3. cbn [rbind]. eexists _, _, bt. split; [done|]. split; [done|lia].
      + left. by rewrite G.
      + right. rewrite G. cbn [rbind]. subst bt. destruct (removed_len _ _ _ _ c _ k' v _ _ _ HR) as (bt' & I' & Hl).
        eexists _, _, bt'. split; [done|]. split; [done|lia].
    - destruct (delete_keys_ok own t bt ks fuel I ltac:(lia)) as [-> |(z & t' & bt' & -> & I' & Hl)]; [by left|right].
      cbn [rbind]. eexists _, _, bt'. split; [done|]. split; [done|lia].
    - unfold delete_whole. destruct (find_ok own t bt k fuel I ltac:(lia)) as [(C & c & l & k' & v' & a & b & E & H2 & H3 & H4 & H5 & H6 & H7)|(C & E & H2 & H3)].
      + rewrite H5. cbn [rbind]. case_decide as Hv.
        * subst bt. destruct (remove_found own t C c l k' v' a b fuel I ltac:(lia)) as [[G1 G2]|(G1 & r & t' & G2 & G3)]; rewrite G2; [by left|right].
          cbn [rbind]. destruct (removed_len _ _ _ _ c _ k' v' _ _ _ G3) as (bt' & I' & Hl).
          destruct (inv_free kzero comp own t' bt' r I') as (I2 & _). eexists _, _, bt'. split; [done|]. split; [done|lia].
        * right. cbn [rbind]. eexists _, _, bt. split; [done|]. split; [done|lia].
      + right. rewrite H3. cbn [rbind]. eexists _, _, bt. split; [done|]. split; [done|lia].
    - right. eexists _, _, Leaf. split; [done|]. split; [by eapply (inv_clear kzero comp)|simpl; lia].
  Qed.

  Lemma reach_inv own t : reach kzero vzero comp own t -> exists bt, inv own t bt.
  Proof.
    induction 1 as [|own t fuel o r t' HR [bt I] HL E]; [exists Leaf; by apply (inv_new kzero vzero comp)|].
    set (f := fuel `max` enough bt).
    assert (E' : step vzero comp f t o = Ok (r, t')).
    { rewrite (step_st vzero comp t o fuel f); [done|lia|by rewrite E]. }
    destruct (step_ok own t bt o f I HL ltac:(lia)) as [[_ G]|(r2 & t2 & bt' & G & I' & _)]; rewrite E' in G; [done|].
    injection G as <- <-. by exists bt'.
  Qed.
End reach.
