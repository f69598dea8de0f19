(** Proofs for C75: abandoned insertions, seen from the whole tree. *)
From Verif Require Import Base BPlus_Model BPlus_Spec BPlus_Proofs BPlus_Proofs2 BPlus_Proofs3 BPlus_Proofs4 BPlus_Proofs5 BPlus_Proofs6 BPlus_Proofs12.
From Verif Require Import PanicComp_Model PanicComp_Spec PanicComp_Proofs PanicCompBP_Model PanicCompBP_Spec PanicCompBP_Proofs PanicCompBP_Proofs2.

  Lemma NoDup_le n (l : list nat) : NoDup l -> Forall (fun x => x < n) l -> length l <= n.
  Proof.
    intros N F. rewrite <-(seq_length n 0). apply submseteq_length, NoDup_submseteq; [done|].
    intros x Hx. rewrite Forall_forall in F. specialize (F x Hx). apply elem_of_seq. lia.
  Qed.

Section ins.
  Context {K V : Type} (kzero : K) (vzero : V) (comp : K -> K -> Z).
  Implicit Types (t : @tree K V) (w pre post : list (@item K V)).
  Notation child := (nat * list nat * list (@item K V))%type.

  Lemma reads_stands t d w : tree_reads t d w -> tree_stands t d w.
  Proof. intros (r & fp & A1 & A2 & A3 & A4 & A5). exists r, fp. splits; try done. lia. Qed.
  Lemma stands_fuel t d w : tree_stands t d w -> d < S (brk t).
  Proof.
    intros (r & fp & A1 & A2 & A3 & A4 & A5). apply (tree_fuel (set_size (Z.of_nat (length (entries w))) t) d w).
    exists r, fp. splits; done.
  Qed.
  Lemma stands_reading t d w : tree_stands t d w -> reading t = w.
  Proof.
    intros T. pose proof (stands_fuel _ _ _ T) as Hf. destruct T as (r & fp & Er & R & _). unfold reading. rewrite Er.
    by eapply walk_ok.
  Qed.

  (** the split of a full root *)
  Lemma root_split t d w r fp :
    2 <= degree t -> root t = Some r -> reads (degree t) (hp t) d r fp w -> NoDup fp -> Forall (fun l => l < brk t) fp ->
    degree t * 2 - 1 = num (hp t r) ->
    exists t1 nd t3 t4 k fp1 fp2 w1 w2,
      new_node kzero vzero t = (t1, nd) /\ set_kid nd 0 (Some r) (upd nd (set_leaf false) t1) = Ok t3
      /\ split_child kzero vzero nd r 0 t3 = Ok t4
      /\ same_meta t t4
      /\ hp t4 nd = Node None (k :: replicate (degree t * 2 - 2) (kzero, vzero)) (Some r :: Some (S nd) :: replicate (degree t * 2 - 2) None) 1 false
      /\ reads (degree t) (hp t4) d r fp1 w1 /\ reads (degree t) (hp t4) d (S nd) fp2 w2
      /\ NoDup (nd :: fp1 ++ fp2) /\ Forall (fun x => x < brk t4) (nd :: fp1 ++ fp2)
      /\ degree t - 1 <= num (hp t4 r) < 2 * degree t - 1 /\ degree t - 1 <= num (hp t4 (S nd)) < 2 * degree t - 1
      /\ split_reading (degree t) w w1 w2 k.
  Proof.
    intros HM Er R ND Hb Full.
    destruct (new_node kzero vzero t) as [t1 nd] eqn:EN.
    destruct (new_node_hp _ _ _ _ _ EN) as (End & Eb1 & (Ms & Md & Mr) & Hnd & Hoth).
    pose proof (reads_in _ _ _ _ _ _ R) as Hrin.
    assert (Hbf : forall x, x ∈ fp -> x <> nd). { rewrite Forall_forall in Hb. intros x Hx. specialize (Hb x Hx). lia. }
    set (M := degree t) in *.
    set (t2 := upd nd (set_leaf false) t1).
    assert (H2 : hp t2 nd = Node None (replicate (M * 2 - 1) (kzero, vzero)) (None :: replicate (M * 2 - 1) None) 0 false).
    { unfold t2. hs. rewrite Hnd. unfold set_leaf. cbn [next vals kids num]. f_equal.
      replace (M * 2) with (S (M * 2 - 1)) at 1 by lia. done. }
    set (t3 := upd nd (set_kids (Some r :: replicate (M * 2 - 1) None)) t2).
    assert (H3 : hp t3 nd = Node None (replicate (M * 2 - 1) (kzero, vzero)) (Some r :: replicate (M * 2 - 1) None) 0 false).
    { unfold t3. hs. rewrite H2. done. }
    assert (H3o : forall x, x <> nd -> hp t3 x = hp t x).
    { intros x Hx. unfold t3, t2. hs. by apply Hoth. }
    assert (R3 : reads M (hp t3) d r fp w). { eapply reads_frame; [|exact R]. intros x Hx. by apply H3o, Hbf. }
    destruct (split_child_ok kzero vzero t3 nd r None [] [] (kzero, vzero) (replicate (M * 2 - 2) (kzero, vzero)) [] [] None (replicate (M * 2 - 2) None) d fp w)
      as (t4 & k & fp1 & fp2 & w1 & w2 & E4 & (Ms4 & Md4 & Mr4) & Eb4 & Hnd4 & R1 & R2 & Pm & Nc & Nn & Fr & Sr); try done.
    { cbn. by rewrite Md. }
    { rewrite H3. cbn [app length]. replace (M * 2 - 1) with (S (M * 2 - 2)) by lia. done. }
    { cbn. rewrite Md. exact R3. }
    { rewrite H3o by by apply Hbf. rewrite <-Full. cbn. rewrite Md. lia. }
    { intros H. by apply (Hbf nd). }
    { cbn. lia. }
    { eapply Forall_impl; [exact Hb|]. cbn. intros. lia. }
    assert (B3 : brk t3 = S nd) by (cbn; lia). rewrite B3 in *.
    change (degree t3) with (degree t1) in *. rewrite Md in *. cbn [app length] in *.
    assert (Hin : forall x, x ∈ fp1 ++ fp2 -> x ∈ fp \/ x = S nd). { intros x. rewrite Pm, elem_of_cons. tauto. }
    exists t1, nd, t3, t4, k, fp1, fp2, w1, w2. splits; try done.
    - apply set_kid_ok. fold t2. rewrite H2. cbn [kids]. apply (aset_app [] None (Some r)). done.
    - unfold same_meta. splits; [rewrite Ms4|rewrite Md4|rewrite Mr4]; cbn; done.
    - apply NoDup_cons. split.
      + intros [H|H]%Hin; [by apply (Hbf nd)|lia].
      + rewrite Pm. apply NoDup_cons. split; [|done]. intros H. rewrite Forall_forall in Hb. specialize (Hb _ H). lia.
    - rewrite Eb4. apply Forall_forall. intros x [->|Hx]%elem_of_cons; [lia|]. rewrite Forall_forall in Hb.
      destruct (Hin x Hx) as [H| ->]; [specialize (Hb _ H)|]; lia.
    - lia.
    - lia.
    - lia.
    - lia.
  Qed.

  Lemma insert_stands t d w p :
    2 <= degree t -> tree_stands t d w ->
    exists t' r d' w', insert kzero vzero comp (root t) p t = Ok (t', Some r)
      /\ tree_stands (set_root (Some r) t') d' w' /\ grows comp (degree t) p w w' /\ degree t' = degree t
      /\ size t' = (size t + 1)%Z.
  Proof.
    intros HM (r & fp & Er & R & ND & Hb & Hsz). unfold insert. rewrite Er.
    destruct (decide (degree t * 2 - 1 = num (hp t r))) as [Full|NF]; cycle 1.
    - pose proof (reads_lengths _ _ _ _ _ _ R) as (_ & _ & Hn & _).
      pose proof (reads_depth _ _ _ _ _ _ R) as Hd. pose proof (NoDup_le _ _ ND Hb) as Hl.
      destruct (insert_non_full_ok kzero vzero comp d (S (brk t)) t r fp w p) as (t' & fp' & w' & E & A1 & A2 & A3 & A4 & A5 & A6 & A7 & A8 & A9 & A10); try done; try lia.
      rewrite E. cbn [rbind]. exists t', r, d, w'. splits; try done.
      exists r, fp'. cbn. splits; try done.
      + by rewrite A9.
      + apply Forall_forall. intros x Hx. rewrite Forall_forall in Hb. destruct (A4 x Hx) as [H|H]; [specialize (Hb x H)|]; lia.
      + destruct A2 as (A2 & _). rewrite A2, A8. simpl. lia.
    - destruct (root_split t d w r fp HM Er R ND Hb Full) as (t1 & nd & t3 & t4 & k & fp1 & fp2 & w1 & w2 & EN & E3 & E4 & (Ms4 & Md4 & Mr4) & Hnd4 & R1 & R2 & ND4 & Hb4 & Nc & Nn & Sr).
      rewrite EN, E3. cbn [rbind]. rewrite E4. cbn [rbind]. set (M := degree t) in *.
      set (c1 := ((r, fp1, w1) : child)). set (c2 := ((S nd, fp2, w2) : child)).
      assert (R4 : reads M (hp t4) (S d) nd (nd :: fp1 ++ fp2) (w1 ++ Sep k :: w2)).
      { cbn [reads]. exists None, [k], (replicate (M * 2 - 2) (kzero, vzero)), [c1; c2], (replicate (M * 2 - 2) None).
        cbn [length fmap list_fmap app concat]. rewrite Hnd4. splits; try done; try lia.
        - rewrite replicate_length. lia.
        - rewrite replicate_length. lia.
        - unfold c1, c2. cbn [fst snd]. by rewrite app_nil_r.
        - repeat constructor; unfold c1, c2; cbn [fst snd]; try done; lia. }
      pose proof (reads_depth _ _ _ _ _ _ R4) as Hd. pose proof (NoDup_le _ _ ND4 Hb4) as Hl.
      destruct (insert_non_full_ok kzero vzero comp (S d) (S (brk t4)) t4 nd (nd :: fp1 ++ fp2) (w1 ++ Sep k :: w2) p)
        as (t' & fp' & w' & E & A1 & A2 & A3 & A4 & A5 & A6 & A7 & A8 & A9 & A10); try done; try lia.
      { by rewrite Md4. }
      { rewrite Hnd4, Md4. cbn [num]. lia. }
      rewrite E. cbn [rbind]. exists t', nd, (S d), w'.
      destruct (split_reading_facts comp M [] w w1 w2 k [] Sr) as (Sf1 & Sf2 & Sf3 & Sf4). cbn [app] in Sf1, Sf2, Sf3, Sf4. setoid_rewrite app_nil_r in Sf4. rewrite !app_nil_r in Sf1, Sf2, Sf3.
      splits; try done.
      + exists nd, fp'. cbn. splits; try done.
        * by rewrite A9.
        * apply Forall_forall. intros x Hx. rewrite Forall_forall in Hb4. destruct (A4 x Hx) as [H|H]; [specialize (Hb4 x H)|]; lia.
        * destruct A2 as (A2 & _). rewrite A2, A8, Ms4, Sf1. simpl. lia.
      + rewrite Md4 in A2. eapply grows_trans; [exact Sf1|exact Sf2|exact Sf3|apply Sf4|done].
      + by rewrite A9, Md4.
      + by rewrite A8, Ms4.
  Qed.

  Lemma reads_entries M h d : forall l fp w, 2 <= M -> reads M h d l fp w -> M - 1 <= num (h l) -> M - 1 <= length (@entries K V w).
  Proof.
    induction d as [|d IH]; intros l fp w HM R Hn; cbn [reads] in R.
    - destruct R as (nx&es&jk&cs&E&L1&L2&->&->). rewrite entries_leaf. rewrite E in Hn. done.
    - destruct R as (nx&ks&jk&ts&cj&E&N1&N2&L1&L2&->&->&F). destruct ts as [|c ts]; [simpl in N2; lia|].
      apply Forall_cons in F as [[F1 F2] _]. specialize (IH _ _ _ HM F2 F1).
      destruct ks as [|k ks]; cbn [fmap list_fmap weave]; [done|]. rewrite entries_app, app_length. lia.
  Qed.

  (** ** an abandoned insertion *)
  (** [kept]: what is left of the tree is its lower part [es], up to a doubled entry *)
  Definition kept t w t' d w' (es : list (K * V)) : Prop :=
    tree_stands t' d w' /\ doubled es (entries w')
    /\ size t' = size t /\ degree t' = degree t /\ root t' = root t
    /\ (cmp_ok comp -> in_order comp w -> in_order comp w').
  Lemma insert_c_cut t d w p n t' :
    2 <= degree t -> tree_stands t d w ->
    insert_c kzero vzero comp (root t) p t n = Crash t' ->
    exists w' es lost, kept t w t' d w' es /\ entries w = es ++ lost
      /\ (~ root_full t -> lost = []) /\ (root_full t -> degree t - 1 <= length lost).
  Proof.
    intros HM (r & fp & Er & R & ND & Hb & Hsz) HC. unfold insert_c in HC. rewrite Er in HC.
    pose proof (reads_lengths _ _ _ _ _ _ R) as (_ & _ & Hn & _).
    pose proof (reads_depth _ _ _ _ _ _ R) as Hd. pose proof (NoDup_le _ _ ND Hb) as Hl.
    destruct (decide (degree t * 2 - 1 = num (hp t r))) as [Full|NF]; cycle 1.
    { apply bind_crash in HC as [HC|(a & n1 & _ & HC)]; [|discriminate].
      destruct (insert_cut kzero vzero comp d (S (brk t)) t r fp w p n t') as (fp' & w' & A1 & A2 & A3 & A4 & A5 & A6 & A7 & A8 & A9 & A10); try done; try lia.
      exists w', (entries w), []. unfold kept. rewrite A8, A9, A10, app_nil_r. destruct A2 as (A2 & _ & A2'). splits; try done.
      - exists r, fp'. rewrite A8, A9, A10. splits; try done.
        + apply Forall_forall. intros x Hx. rewrite Forall_forall in Hb. destruct (A4 x Hx) as [H|H]; [specialize (Hb x H)|]; lia.
        + destruct A2 as [->|(a & x & b & z & c & Ea & ->)]; [done|]. rewrite Ea in Hsz. rewrite !app_length in *; cbn in *; rewrite !app_length in *; cbn in *. lia.
      - intros (r' & Er' & H'). rewrite Er in Er'. injection Er' as <-. lia. }
    assert (RF : root_full t). { exists r. split; [done|lia]. }
    destruct (root_split t d w r fp HM Er R ND Hb Full) as (t1 & nd & t3 & t4 & k & fp1 & fp2 & w1 & w2 & EN & E3 & E4 & (Ms4 & Md4 & Mr4) & Hnd4 & R1 & R2 & ND4 & Hb4 & Nc & Nn & Sr).
    rewrite EN in HC. rewrite E3 in HC. unfold cbnd at 1 in HC. cbn [cl] in HC. rewrite E4 in HC. unfold cbnd at 1 in HC. cbn [cl] in HC.
    apply bind_crash in HC as [HC|(a & n1 & _ & HC)]; [|discriminate].
    destruct (split_reading_facts comp (degree t) [] w w1 w2 k [] Sr) as (Sf1 & _ & Sf3 & _). cbn [app] in Sf1, Sf3. rewrite !app_nil_r in Sf1, Sf3.
    rewrite entries_app in Sf1. change (entries (Sep k :: w2)) with (entries w2) in Sf1.
    assert (LO : degree t - 1 <= length (entries w2)) by (eapply reads_entries; [done|exact R2|lia]).
    apply NoDup_cons in ND4 as [ND40 ND4]. apply NoDup_app in ND4 as (ND1 & ND12 & ND2).
    apply Forall_cons in Hb4 as [Hbn Hb4]. apply Forall_app in Hb4 as [Hb1 Hb2].
    (* what remains to be shown of the subtree at the old root *)
    enough (exists fp' w', reads (degree t) (hp t') d r fp' w' /\ half comp w1 w' /\ NoDup fp' /\ Forall (fun l => l < brk t') fp'
              /\ size t' = size t /\ degree t' = degree t /\ root t' = root t) as (fp' & w' & A1 & (A2 & _ & A2') & A3 & A4 & A5 & A6 & A7).
    { exists w', (entries w1), (entries w2). unfold kept. splits; try done.
      - exists r, fp'. rewrite A5, A6, A7. splits; try done. rewrite <- Sf1, app_length in Hsz.
        destruct A2 as [->|(a & x & b & z & c & Ea & ->)]; [lia|]. rewrite Ea in Hsz. rewrite !app_length in *; cbn in *; rewrite !app_length in *; cbn in *. lia.
      - intros C O. apply A2'; [done|]. specialize (Sf3 C O). unfold in_order in Sf3. rewrite strong_app in Sf3. apply Sf3. }
    clear LO Sf1 Sf3 E3 E4 EN t1 t3 Hsz Sr. set (M := degree t) in *.
    cbn [insert_non_full_c] in HC. rewrite Hnd4 in HC. cbn [leaf num vals kids] in HC.
    assert (same4 : exists fp' w', reads M (hp t4) d r fp' w' /\ half comp w1 w' /\ NoDup fp' /\ Forall (fun l => l < brk t4) fp'
              /\ size t4 = size t /\ degree t4 = M /\ root t4 = root t).
    { exists fp1, w1. splits; try done. apply half_refl. }
    apply bind_crash in HC as [HC|(pos & n1 & EP & HC)].
    { destruct (ab_down_pos comp t4 p.1 1 _ _ _ HC). exact same4. }
    apply (rec_done _ _ _ _ _ (rec_down_pos comp t4 p.1 1 _)) in EP.
    assert (Hpos : pos = 0 \/ pos = 1).
    { cbn in EP. destruct (comp p.1 k.1 <? 0)%Z; injection EP as <-; auto. }
    assert (Hc : exists c, aget (Some r :: Some (S nd) :: replicate (M * 2 - 2) None) pos = Ok (Some c) /\ (c = r \/ c = S nd)).
    { destruct Hpos as [->| ->]; eexists; (split; [reflexivity|auto]). }
    destruct Hc as (c & Ec & Hc). rewrite Ec in HC. unfold cbnd at 1 in HC. cbn [cl] in HC. unfold cbnd at 1 in HC. cbn [cl deref] in HC.
    destruct (decide (2 * degree t4 - 1 = num (hp t4 c))) as [F|_].
    { exfalso. rewrite Md4 in F. fold M in F. destruct Hc as [->| ->]; lia. }
    unfold cbnd at 1 in HC. cbn [cret] in HC. rewrite Hnd4 in HC. cbn [kids] in HC. rewrite Ec in HC.
    unfold cbnd at 1 in HC. cbn [cl] in HC. unfold cbnd at 1 in HC. cbn [cl deref] in HC.
    assert (Hd1 : d < brk t4).
    { pose proof (reads_depth _ _ _ _ _ _ R1) as Hd1. pose proof (NoDup_le (brk t4) (nd :: fp1)) as Hl1.
      cbn in Hl1. enough (S (length fp1) <= brk t4) by lia. apply Hl1; [apply NoDup_cons; split; [|done]; intros ?; apply ND40, elem_of_app; by left|by constructor]. }
    destruct Hc as [->| ->].
    - destruct (insert_cut kzero vzero comp d (brk t4) t4 r fp1 w1 p n1 t') as (fp' & w' & A1 & A2 & A3 & A4 & A5 & A6 & A7 & A8 & A9 & A10); try done; try (rewrite Md4; fold M); try done; try lia.
      exists fp', w'. rewrite A8, A9, A10, Ms4, Md4, Mr4. rewrite Md4 in A1. splits; try done.
      apply Forall_forall. intros x Hx. rewrite Forall_forall in Hb1. destruct (A4 x Hx) as [H|H]; [specialize (Hb1 x H)|]; lia.
    - destruct (insert_cut kzero vzero comp d (brk t4) t4 (S nd) fp2 w2 p n1 t') as (fp' & w' & A1 & A2 & A3 & A4 & A5 & A6 & A7 & A8 & A9 & A10); try done; try (rewrite Md4; fold M); try done; try lia.
      exists fp1, w1. rewrite A8, A9, A10, Ms4, Md4, Mr4. splits; try done.
      + eapply reads_frame; [|exact R1]. intros x Hx. apply A5; [by apply ND12|]. rewrite Forall_forall in Hb1. by apply Hb1.
      + apply half_refl.
      + eapply Forall_impl; [exact Hb1|]. cbn. intros. lia.
  Qed.

  (** ** lookups in a standing tree *)
  Lemma found_entry_stands k t d w : tree_stands t d w ->
    exists o, found_entry comp k t = Ok o
      /\ contains_key comp k t = Ok (bool_decide (is_Some o))
      /\ (forall e, o = Some e -> comp k e.1 = 0%Z /\ e ∈ entries w).
  Proof.
    intros T. pose proof (stands_fuel _ _ _ T) as Hf. destruct T as (r & fp & Er & R & ND & Hb & Hs).
    unfold found_entry, contains_key, search. destruct (Z.eqb_spec (size t) 0) as [Z0|Z0].
    - cbn [rbind]. exists None. rewrite bool_decide_false by by intros [? ?]. splits; done.
    - rewrite Er. destruct (search_loop_ok comp k (hp t) _ _ _ _ _ (S (brk t)) R Hf) as (nd & idx & ex & E & H1 & H2).
      rewrite E. cbn [rbind]. destruct ex.
      + destruct (H1 eq_refl) as (e & A1 & A2 & A3). cbn [deref rbind]. rewrite Nat2Z.id, A1. cbn [rbind].
        exists (Some e). rewrite bool_decide_true by by eexists. splits; try done. by intros e' [= <-].
      + exists None. rewrite bool_decide_false by by intros [? ?]. splits; done.
  Qed.
End ins.
