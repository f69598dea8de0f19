(** Comparator calls of insertions into the B+ tree. *)
From Verif Require Import Base BPlus_Model BPlus_Spec BPlus_Proofs BPlus_Proofs2 BPlus_Proofs3 Cost_Model Cost_Proofs BPlusCost_Proofs.

Section ins.
  Context {K V : Type} (kzero : K) (vzero : V) (comp : K -> K -> Z).
  Implicit Types (t : @tree K V) (w : list (@item K V)).
  Notation child := (nat * list nat * list (@item K V))%type.
  Notation caddr := (fun c : child => Some c.1.1).

  Lemma leaf_shift_erase k pos : forall v : list (K * V), erase (leaf_shift_n comp k pos v) = leaf_shift comp k pos v.
  Proof.
    induction pos as [|q IH]; intros v; [done|]. cbn [leaf_shift_n leaf_shift]. rewrite erase_cbind, erase_lift. apply rbind_ext. intros x.
    rewrite erase_cbind. cbn [ask erase rbind]. destruct (_ <? 0)%Z; [|done]. rewrite erase_cbind, erase_lift. apply rbind_ext. intros v'. apply IH.
  Qed.
  Lemma down_pos_erase k pos : forall v : list (K * V), erase (down_pos_n comp k pos v) = down_pos comp k pos v.
  Proof.
    induction pos as [|q IH]; intros v; [done|]. cbn [down_pos_n down_pos]. rewrite erase_cbind, erase_lift. apply rbind_ext. intros x.
    rewrite erase_cbind. cbn [ask erase rbind]. destruct (_ <? 0)%Z; [|done]. apply IH.
  Qed.
  Lemma insert_non_full_erase fuel : forall nd p t, erase (insert_non_full_n comp kzero vzero fuel nd p t) = insert_non_full kzero vzero comp fuel nd p t.
  Proof.
    induction fuel as [|fuel IH]; intros nd p t; [done|]. cbn [insert_non_full_n insert_non_full]. destruct (leaf (hp t nd)).
    - rewrite erase_cbind, leaf_shift_erase. apply rbind_ext. intros [pos v]. rewrite erase_cbind, erase_lift. done.
    - rewrite erase_cbind, down_pos_erase. apply rbind_ext. intros pos. rewrite erase_cbind, erase_lift. apply rbind_ext. intros c.
      rewrite erase_cbind, erase_lift. apply rbind_ext. intros l. rewrite erase_cbind.
      match goal with |- rbind ?a _ = rbind ?b _ => assert (E : a = b) end.
      { case_decide; [|done]. rewrite erase_cbind, erase_lift. apply rbind_ext. intros t'. rewrite erase_cbind, erase_lift. done. }
      rewrite E. apply rbind_ext. intros [t' pos']. rewrite erase_cbind, erase_lift. apply rbind_ext. intros c'.
      rewrite erase_cbind, erase_lift. apply rbind_ext. intros l'. apply IH.
  Qed.
  Lemma insert_erase r p t : erase (insert_n comp kzero vzero r p t) = insert kzero vzero comp r p t.
  Proof.
    unfold insert_n, insert. destruct r as [r|]; [|done]. case_decide.
    - destruct (new_node kzero vzero t) as [t' nd]. rewrite erase_cbind, erase_lift. apply rbind_ext. intros t1. rewrite erase_cbind, erase_lift. apply rbind_ext. intros t2.
      rewrite erase_cbind, insert_non_full_erase. done.
    - rewrite erase_cbind, insert_non_full_erase. done.
  Qed.
  Lemma insert_equal_erase k v t : erase (insert_equal_n comp kzero vzero k v t) = insert_equal kzero vzero comp k v t.
  Proof. unfold insert_equal_n, insert_equal. rewrite erase_cbind, insert_erase. apply rbind_ext. by intros []. Qed.
  Lemma insert_unique_erase k v t : erase (insert_unique_n comp kzero vzero k v t) = insert_unique kzero vzero comp k v t.
  Proof.
    unfold insert_unique_n, insert_unique. rewrite erase_cbind, contains_erase. apply rbind_ext. intros []; [done|].
    rewrite erase_cbind, insert_erase. apply rbind_ext. by intros [].
  Qed.

  Lemma leaf_shift_costs k pos : forall v : list (K * V), costs (leaf_shift_n comp k pos v) pos.
  Proof.
    induction pos as [|q IH]; intros v; [apply costs_ok|]. cbn [leaf_shift_n]. apply costs_lift_bind. intros x _. apply costs_ask.
    destruct (_ <? 0)%Z; [|apply costs_ok]. apply costs_lift_bind. intros v' _. apply IH.
  Qed.
  Lemma down_pos_costs k pos : forall v : list (K * V), costs (down_pos_n comp k pos v) pos.
  Proof.
    induction pos as [|q IH]; intros v; [apply costs_ok|]. cbn [down_pos_n]. apply costs_lift_bind. intros x _. apply costs_ask.
    destruct (_ <? 0)%Z; [|apply costs_ok]. apply IH.
  Qed.

  Lemma ins_costs : forall d fuel t l fp w p, 2 <= degree t -> reads (degree t) (hp t) d l fp w -> num (hp t l) < 2 * degree t - 1 ->
    NoDup fp -> Forall (fun x => x < brk t) fp ->
    costs (insert_non_full_n comp kzero vzero fuel l p t) (S d * (2 * degree t - 1)).
  Proof.
    induction d as [|d IH]; intros fuel t l fp w p HM R Hn ND Hb; (destruct fuel as [|fuel]; [done|]); cbn [insert_non_full_n].
    { destruct R as (nx&es&jk&cs&E&L1&L2&->&->). rewrite E. cbn [leaf num vals] in *. rewrite E in Hn. cbn [num] in Hn.
      eapply costs_le; [apply (costs_cbind _ _ (length es) 0); [apply leaf_shift_costs|]|lia].
      intros [pos v] n _. apply costs_lift_bind. intros; apply costs_ok. }
    destruct R as (nx&ks&J&ts&JC&E&N1&N2&L1&L2&->&->&F). rewrite E. cbn [leaf num vals kids] in *. rewrite E in Hn. cbn [num] in Hn.
    set (B := 2 * degree t - 1) in *.
    eapply costs_le; [apply (costs_cbind _ _ (length ks) (1 + S d * B)); [apply down_pos_costs|]|lia].
    intros pos n Ep. destruct (down_pos_ok comp p.1 ks J) as (ks1 & ks2 & -> & EP & _ & _).
    pose proof (down_pos_erase p.1 (length (ks1 ++ ks2)) ((ks1 ++ ks2) ++ J)) as Er. rewrite Ep, EP in Er. cbn in Er. injection Er as ->. clear Ep EP.
    destruct (length_split (length ks1) (S (length ks2)) ts) as (ts1 & ts2' & -> & Lt1 & Lt2); [rewrite N2, app_length; lia|].
    destruct ts2' as [|c ts2]; [done|]. simpl in Lt2.
    rewrite (fmap_app caddr ts1 (c :: ts2)). cbn [fmap list_fmap]. rewrite <-app_assoc. cbn [app].
    rewrite aget_app by (rewrite fmap_length; lia).
    apply costs_lift_bind. intros c' [= <-]. apply costs_lift_bind. intros c' [= <-].
    destruct c as [[c fpc] wc]. cbn [fst snd] in *.
    pose proof F as F'. apply Forall_app in F' as [F1 [[F2n F2] F3]%Forall_cons]. cbn [fst snd] in F2, F2n.
    rewrite fmap_app in ND, Hb. cbn [fmap list_fmap] in ND, Hb. rewrite concat_app in ND, Hb. cbn [concat fst snd] in ND, Hb.
    apply NoDup_cons in ND as [ND0 ND]. apply Forall_cons in Hb as [Hlb Hb].
    assert (NDc : NoDup fpc). { apply NoDup_app in ND as (_ & _ & ND). by apply NoDup_app in ND as (? & _). }
    assert (Hbc : Forall (fun x => x < brk t) fpc). { apply Forall_app in Hb as [_ Hb]. by apply Forall_app in Hb as [? _]. }
    assert (Hlc : l ∉ fpc). { intros Hl. apply ND0. rewrite !elem_of_app. auto. }
    destruct (decide (B = num (hp t c))) as [Full|NF]; cycle 1.
    { eapply costs_le; [apply (costs_cbind _ _ 0 (S d * B)); [apply costs_ok|]|lia]. intros [t' pos'] m [= <- <- <-]. cbn beta iota. rewrite E. cbn [kids].
      rewrite (fmap_app caddr ts1 (_ :: ts2)). cbn [fmap list_fmap]. rewrite <-app_assoc. cbn [app]. rewrite aget_app by (rewrite fmap_length; lia).
      apply costs_lift_bind. intros c' [= <-]. apply costs_lift_bind. intros c' [= <-]. cbn [fst].
      eapply IH; try done. apply reads_lengths in F2 as (_ & _ & F2 & _). unfold B in *. lia. }
    assert (exists j J', J = j :: J') as (j & J' & ->). { destruct J; [|eauto]. rewrite app_nil_r in L1. lia. }
    assert (exists jc JC', JC = jc :: JC') as (jc & JC' & ->).
    { destruct JC; [|eauto]. rewrite !app_length in L1. rewrite !app_length in L2. simpl in *. lia. }
    destruct (split_child_ok kzero vzero t l c nx ks1 ks2 j J' (caddr <$> ts1) (caddr <$> ts2) jc JC' d fpc wc)
      as (t1 & k & fp1 & fp2 & w1 & w2 & E1 & (Ms & Md & Mr) & Eb & El & R1 & R2 & Pm & Nc & Nn & Fr & Sr); try done.
    { rewrite E. rewrite fmap_app. cbn [fmap list_fmap]. rewrite <-!app_assoc. cbn [app]. by rewrite app_length. }
    { rewrite fmap_length. lia. } { rewrite fmap_length. lia. }
    apply costs_cbind.
    { apply costs_lift_bind. intros t' _. apply costs_lift_bind. intros x _. apply costs_ask. apply costs_ok. }
    intros [t' pos'] m Em. assert (t' = t1 /\ (pos' = length ks1 \/ pos' = length ks1 + 1)) as [-> Hpos].
    { rewrite E1 in Em. cbn [lift rbind] in Em. unfold cbind in Em. cbn [rbind fst snd] in Em. destruct (lift _) as [[x' n']| |]; cbn in Em; [|done|done].
      injection Em as <- <- _. split; [done|]. destruct (_ <? 0)%Z; auto. }
    clear Em. cbn beta iota. rewrite El. cbn [kids].
    assert (Pn : NoDup (fp1 ++ fp2)).
    { rewrite Pm. apply NoDup_cons. split; [|done]. intros H. rewrite Forall_forall in Hbc. specialize (Hbc _ H). lia. }
    assert (Pb : Forall (fun x => x < brk t1) (fp1 ++ fp2)).
    { rewrite Pm, Eb. constructor; [lia|]. eapply Forall_impl; [exact Hbc|]. cbn. lia. }
    apply NoDup_app in Pn as (P1 & _ & P2). apply Forall_app in Pb as [B1 B2].
    unfold B. rewrite <-Md in *.
    destruct Hpos as [-> | ->].
    - rewrite aget_app by (rewrite fmap_length; lia). apply costs_lift_bind. intros c' [= <-]. apply costs_lift_bind. intros c' [= <-].
      eapply IH; try done. lia.
    - replace ((caddr <$> ts1) ++ Some c :: Some (brk t) :: (caddr <$> ts2) ++ JC') with (((caddr <$> ts1) ++ [Some c]) ++ Some (brk t) :: (caddr <$> ts2) ++ JC')
        by by rewrite <-app_assoc.
      rewrite aget_app by (rewrite app_length, fmap_length; simpl; lia). apply costs_lift_bind. intros c' [= <-]. apply costs_lift_bind. intros c' [= <-].
      eapply IH; try done. lia.
  Qed.

  Lemma insert_costs t d w p : 2 <= degree t -> tree_reads t d w -> costs (insert_n comp kzero vzero (root t) p t) ((d + 2) * (2 * degree t - 1)).
  Proof.
    intros HM (r & fp & Er & R & ND & Hb & Hsz). unfold insert_n. rewrite Er.
    destruct (decide (degree t * 2 - 1 = num (hp t r))) as [Full|NF]; cycle 1.
    { eapply costs_le; [apply (costs_cbind _ _ (S d * (2 * degree t - 1)) 0); [eapply ins_costs; try done|intros; apply costs_ok]|nia].
      pose proof (reads_lengths _ _ _ _ _ _ R) as (_ & _ & Hn & _). lia. }
    destruct (new_node kzero vzero t) as [t1 nd] eqn:EN.
    destruct (new_node_hp _ _ _ _ _ EN) as (End & Eb1 & (Ms & Md & Mr) & Hnd & Hoth).
    pose proof (reads_in _ _ _ _ _ _ R) as Hrin.
    assert (Hbf : forall x, x ∈ fp -> x <> nd). { rewrite Forall_forall in Hb. intros x Hx. specialize (Hb x Hx). lia. }
    set (M := degree t) in *.
    set (t2 := upd nd (set_leaf false) t1).
    assert (H2 : hp t2 nd = Node None (replicate (M * 2 - 1) (kzero, vzero)) (None :: replicate (M * 2 - 1) None) 0 false).
    { unfold t2. hs. rewrite Hnd. unfold set_leaf. cbn [next vals kids num]. f_equal.
      replace (M * 2) with (S (M * 2 - 1)) at 1 by lia. done. }
    erewrite set_kid_ok; cycle 1.
    { rewrite H2. cbn [kids]. apply (aset_app [] None (Some r)). done. }
    cbn [app]. set (t3 := upd nd (set_kids (Some r :: replicate (M * 2 - 1) None)) t2).
    assert (H3 : hp t3 nd = Node None (replicate (M * 2 - 1) (kzero, vzero)) (Some r :: replicate (M * 2 - 1) None) 0 false).
    { unfold t3. hs. rewrite H2. done. }
    assert (H3o : forall x, x <> nd -> hp t3 x = hp t x).
    { intros x Hx. unfold t3, t2. hs. by apply Hoth. }
    assert (R3 : reads M (hp t3) d r fp w). { eapply reads_frame; [|exact R]. intros x Hx. by apply H3o, Hbf. }
    apply costs_lift_bind. intros t3' [= <-].
    destruct (split_child_ok kzero vzero t3 nd r None [] [] (kzero, vzero) (replicate (M * 2 - 2) (kzero, vzero)) [] [] None (replicate (M * 2 - 2) None) d fp w)
      as (t4 & k & fp1 & fp2 & w1 & w2 & E4 & (Ms4 & Md4 & Mr4) & Eb4 & Hnd4 & R1 & R2 & Pm & Nc & Nn & Fr & Sr); try done.
    { cbn. by rewrite Md. }
    { rewrite H3. cbn [app length]. replace (M * 2 - 1) with (S (M * 2 - 2)) by lia. done. }
    { cbn. rewrite Md. exact R3. }
    { rewrite H3o by by apply Hbf. rewrite <-Full. cbn. rewrite Md. lia. }
    { intros H. by apply (Hbf nd). }
    { cbn. lia. }
    { eapply Forall_impl; [exact Hb|]. cbn. intros. lia. }
    cbn [length] in E4. rewrite E4. apply costs_lift_bind. intros t4' [= <-].
    assert (B3 : brk t3 = S nd) by (cbn; lia). rewrite B3 in *.
    change (degree t3) with (degree t1) in *. rewrite Md in *. cbn [app length] in *.
    set (c1 := ((r, fp1, w1) : child)). set (c2 := ((S nd, fp2, w2) : child)).
    assert (R4 : reads M (hp t4) (S d) nd (nd :: fp1 ++ fp2) (w1 ++ Sep k :: w2)).
    { cbn [reads]. exists None, [k], (replicate (M * 2 - 2) (kzero, vzero)), [c1; c2], (replicate (M * 2 - 2) None).
      cbn [length fmap list_fmap app concat]. rewrite Hnd4. splits; try done; try lia.
      - rewrite replicate_length. lia.
      - rewrite replicate_length. lia.
      - unfold c1, c2. cbn [fst snd]. by rewrite app_nil_r.
      - repeat constructor; unfold c1, c2; cbn [fst snd]; try done; lia. }
    assert (Hin : forall x, x ∈ fp1 ++ fp2 -> x ∈ fp \/ x = S nd). { intros x. rewrite Pm, elem_of_cons. tauto. }
    assert (ND4 : NoDup (nd :: fp1 ++ fp2)).
    { apply NoDup_cons. split.
      - intros [H|H]%Hin; [by apply (Hbf nd)|lia].
      - rewrite Pm. apply NoDup_cons. split; [|done]. intros H. rewrite Forall_forall in Hb. specialize (Hb _ H). lia. }
    assert (Hb4 : Forall (fun x => x < brk t4) (nd :: fp1 ++ fp2)).
    { rewrite Eb4. apply Forall_forall. intros x [->|Hx]%elem_of_cons; [lia|]. rewrite Forall_forall in Hb.
      destruct (Hin x Hx) as [H| ->]; [specialize (Hb _ H)|]; lia. }
    eapply costs_le; [apply (costs_cbind _ _ (S (S d) * (2 * degree t4 - 1)) 0); [eapply ins_costs; try done; rewrite Md4; [done|done|]|intros; apply costs_ok]|rewrite Md4; lia].
    rewrite Hnd4. cbn [num]. lia.
  Qed.
  Lemma insert_equal_costs t d w k v : 2 <= degree t -> tree_reads t d w -> costs (insert_equal_n comp kzero vzero k v t) ((d + 2) * (2 * degree t - 1)).
  Proof.
    intros HM R. unfold insert_equal_n. eapply costs_le; [apply costs_cbind; [by eapply insert_costs|]|rewrite Nat.add_0_r; done].
    intros [] n _. apply costs_ok.
  Qed.
  Lemma contains_costs t d w k : 2 <= degree t -> tree_reads t d w -> costs (contains_key_n comp k t) (S d * S (Nat.log2 (2 * degree t - 1))).
  Proof.
    intros HM (r & fp & Er & R & _). unfold contains_key_n. rewrite Er.
    eapply costs_le; [apply (costs_cbind _ _ (S d * S (Nat.log2 (2 * degree t - 1))) 0)|lia].
    - destruct (size t =? 0)%Z; [apply costs_ok|]. eapply search_loop_costs; [done|lia].
    - intros [[]] n _. apply costs_ok.
  Qed.
  Lemma insert_unique_costs t d w k v : 2 <= degree t -> tree_reads t d w ->
    costs (insert_unique_n comp kzero vzero k v t) (S d * S (Nat.log2 (2 * degree t - 1)) + (d + 2) * (2 * degree t - 1)).
  Proof.
    intros HM R. unfold insert_unique_n. apply costs_cbind; [by eapply contains_costs|]. intros [] n _; [apply costs_ok|].
    eapply costs_le; [apply costs_cbind; [by eapply insert_costs|]|rewrite Nat.add_0_r; done]. intros [] m _. apply costs_ok.
  Qed.
End ins.

Section bp_follows.
  Context {K V : Type} (kzero : K) (vzero : V) (comp comp' : K -> K -> Z).
  Lemma bsearch_follows fuel : forall k (v : list (K * V)) l hi mid, follows comp comp' (bsearch_n comp fuel k v l hi mid) (bsearch_n comp' fuel k v l hi mid).
  Proof. induction fuel as [|fuel IH]; intros k v l hi mid; [done|]. cbn [bsearch_n]. follow IH. Qed.
  Lemma search_loop_follows fuel : forall nd k (h : nat -> @node K V), follows comp comp' (search_loop_n comp fuel nd k h) (search_loop_n comp' fuel nd k h).
  Proof.
    induction fuel as [|fuel IH]; intros nd k h; [done|]. cbn [search_loop_n]. apply follows_cbind; [apply follows_refl|]. intros n.
    apply follows_cbind; [apply bsearch_follows|]. intros [[l mid] ex]. follow IH.
  Qed.
  Lemma contains_follows k (t : @tree K V) : follows comp comp' (contains_key_n comp k t) (contains_key_n comp' k t).
  Proof. unfold contains_key_n. apply follows_cbind; [destruct (size t =? 0)%Z; [apply follows_refl|apply search_loop_follows]|]. intros [[? ?] ?]. apply follows_refl. Qed.
  Lemma leaf_shift_follows k pos : forall v : list (K * V), follows comp comp' (leaf_shift_n comp k pos v) (leaf_shift_n comp' k pos v).
  Proof. induction pos as [|q IH]; intros v; [apply follows_refl|]. cbn [leaf_shift_n]. follow IH. Qed.
  Lemma down_pos_follows k pos : forall v : list (K * V), follows comp comp' (down_pos_n comp k pos v) (down_pos_n comp' k pos v).
  Proof. induction pos as [|q IH]; intros v; [apply follows_refl|]. cbn [down_pos_n]. follow IH. Qed.
  Lemma insert_non_full_follows fuel : forall nd p t, follows comp comp' (insert_non_full_n comp kzero vzero fuel nd p t) (insert_non_full_n comp' kzero vzero fuel nd p t).
  Proof.
    induction fuel as [|fuel IH]; intros nd p t; [done|]. cbn [insert_non_full_n]. destruct (leaf (hp t nd)).
    - apply follows_cbind; [apply leaf_shift_follows|]. intros [pos v]. apply follows_refl.
    - apply follows_cbind; [apply down_pos_follows|]. intros pos. apply follows_cbind; [apply follows_refl|]. intros c. apply follows_cbind; [apply follows_refl|]. intros c'. apply follows_cbind; [follow IH|]. intros [t' pos']. follow IH.
  Qed.
  Lemma insert_follows r p t : follows comp comp' (insert_n comp kzero vzero r p t) (insert_n comp' kzero vzero r p t).
  Proof.
    unfold insert_n. destruct r as [r|]; [|apply follows_refl]. case_decide.
    - destruct (new_node kzero vzero t) as [t' nd]. apply follows_cbind; [apply follows_refl|]. intros t1. apply follows_cbind; [apply follows_refl|]. intros t2.
      apply follows_cbind; [apply insert_non_full_follows|]. intros t3. apply follows_refl.
    - apply follows_cbind; [apply insert_non_full_follows|]. intros t3. apply follows_refl.
  Qed.
  Lemma insert_equal_follows k v t : follows comp comp' (insert_equal_n comp kzero vzero k v t) (insert_equal_n comp' kzero vzero k v t).
  Proof. unfold insert_equal_n. apply follows_cbind; [apply insert_follows|]. intros []. apply follows_refl. Qed.
  Lemma insert_unique_follows k v t : follows comp comp' (insert_unique_n comp kzero vzero k v t) (insert_unique_n comp' kzero vzero k v t).
  Proof.
    unfold insert_unique_n. apply follows_cbind; [apply contains_follows|]. intros []; [apply follows_refl|].
    apply follows_cbind; [apply insert_follows|]. intros []. apply follows_refl.
  Qed.
End bp_follows.
