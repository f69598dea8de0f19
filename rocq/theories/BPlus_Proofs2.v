(** Splitting a full child. *)
From Verif Require Import Base BPlus_Model BPlus_Spec BPlus_Proofs.

Section heap.
  Context {K V : Type}.
  Implicit Types (t : @tree K V).

  Lemma hp_upd_eq l f t : hp (upd l f t) l = f (hp t l).
  Proof. unfold upd. cbn. by rewrite fn_lookup_insert. Qed.
  Lemma hp_upd_ne x l f t : l <> x -> hp (upd l f t) x = hp t x.
  Proof. intros H. unfold upd. cbn. by rewrite fn_lookup_insert_ne. Qed.
  Lemma hp_set_prev x l p t : hp (set_prev l p t) x = hp t x.
  Proof. done. Qed.
  Lemma hp_set_size x z t : hp (set_size z t) x = hp t x.
  Proof. done. Qed.
  Lemma hp_set_root x z t : hp (set_root z t) x = hp t x.
  Proof. done. Qed.
  Lemma set_val_ok l i x t v : aset (vals (hp t l)) i x = Ok v -> set_val l i x t = Ok (upd l (set_vals v) t).
  Proof. intros E. unfold set_val. by rewrite E. Qed.
  Lemma set_kid_ok l i x t v : aset (kids (hp t l)) i x = Ok v -> set_kid l i x t = Ok (upd l (set_kids v) t).
  Proof. intros E. unfold set_kid. by rewrite E. Qed.

  (** everything but the heap and the links *)
  Definition same_meta t t' : Prop := size t' = size t /\ degree t' = degree t /\ root t' = root t.
End heap.

Ltac hneq := first [assumption | apply not_eq_sym; assumption].
Ltac hs :=
  repeat first [rewrite hp_upd_eq | rewrite hp_upd_ne by hneq | rewrite hp_set_prev | rewrite hp_set_size | rewrite hp_set_root];
  cbn [set_next set_vals set_kids set_num set_leaf next vals kids num leaf].

Section split.
  Context {K V : Type} (kzero : K) (vzero : V).
  Implicit Types (t : @tree K V).

  Lemma new_node_hp t t1 nc :
    new_node kzero vzero t = (t1, nc) ->
    nc = brk t /\ brk t1 = S (brk t) /\ same_meta t t1
    /\ hp t1 nc = Node None (replicate (degree t * 2 - 1) (kzero, vzero)) (replicate (degree t * 2) None) 0 true
    /\ (forall x, x <> nc -> hp t1 x = hp t x).
  Proof.
    unfold new_node. intros [= <- <-]. splits; try done; cbn.
    - by rewrite fn_lookup_insert.
    - intros x Hx. by rewrite fn_lookup_insert_ne.
  Qed.

  (** how the reading of a child relates to those of its two halves *)
  Definition split_reading (M : nat) (w w1 w2 : list (@item K V)) (k : K * V) : Prop :=
    w = w1 ++ Sep k :: w2
    \/ (exists es1 es2, length es1 = M - 1 /\ length es2 = M - 1
        /\ w1 = (Entry <$> es1) ++ [Entry k] /\ w2 = Entry <$> es2 /\ w = w1 ++ w2).

  Lemma length_split {A} n m (l : list A) : length l = n + m -> exists a b, l = a ++ b /\ length a = n /\ length b = m.
  Proof.
    intros H. exists (take n l), (drop n l). rewrite take_drop, take_length, drop_length. splits; [done|lia|lia].
  Qed.

  Lemma split_child_ok t par c nx ks1 ks2 j J cs1 cs2 jc JC d fpc wc :
    2 <= degree t ->
    hp t par = Node nx (ks1 ++ ks2 ++ j :: J) (cs1 ++ Some c :: cs2 ++ jc :: JC) (length ks1 + length ks2) false ->
    length ks1 = length cs1 -> length ks2 = length cs2 ->
    reads (degree t) (hp t) d c fpc wc -> num (hp t c) = 2 * degree t - 1 ->
    NoDup fpc -> par ∉ fpc -> par < brk t -> Forall (fun l => l < brk t) fpc ->
    exists t' k fp1 fp2 w1 w2,
      split_child kzero vzero par c (length ks1) t = Ok t'
      /\ same_meta t t' /\ brk t' = S (brk t)
      /\ hp t' par = Node nx (ks1 ++ k :: ks2 ++ J) (cs1 ++ Some c :: Some (brk t) :: cs2 ++ JC)
                       (S (length ks1 + length ks2)) false
      /\ reads (degree t) (hp t') d c fp1 w1 /\ reads (degree t) (hp t') d (brk t) fp2 w2
      /\ fp1 ++ fp2 ≡ₚ brk t :: fpc
      /\ degree t - 1 <= num (hp t' c) < 2 * degree t - 1
      /\ degree t - 1 <= num (hp t' (brk t)) < 2 * degree t - 1
      /\ (forall x, x <> par -> x <> c -> x <> brk t -> hp t' x = hp t x)
      /\ split_reading (degree t) wc w1 w2 k.
  Proof.
    intros HM Hpar L1 L2 Hc Hfull ND Hpf Hpb Hfb.
    pose proof (reads_in _ _ _ _ _ _ Hc) as Hcin.
    pose proof (reads_lengths _ _ _ _ _ _ Hc) as (Lv & Lk & _ & Hlf).
    set (M := degree t) in *.
    rewrite Forall_forall in Hfb.
    assert (Ncp : c <> par) by (intros ->; done).
    assert (Nnp : brk t <> par) by lia.
    assert (Nnc : brk t <> c) by (specialize (Hfb c Hcin); lia).
    destruct (new_node kzero vzero t) as [t1 nc] eqn:EN.
    destruct (new_node_hp _ _ _ EN) as (Enc & Eb & (Es & Ed & Er) & Hnc & Hoth).
    rewrite <-Enc in *.
    pose proof (Hoth par (not_eq_sym Nnp)) as Hp1. pose proof (Hoth c (not_eq_sym Nnc)) as Hc1.
    (* the child's slices *)
    assert (exists v1 k v2, vals (hp t c) = v1 ++ k :: v2 /\ length v1 = M - 1 /\ length v2 = M - 1) as (v1 & k & v2 & Ev & Lv1 & Lv2).
    { destruct (length_split (M - 1) (S (M - 1)) (vals (hp t c))) as (a & b & Ea & La & Lb); [lia|].
      destruct b as [|k b]; [done|]. exists a, k, b. simpl in Lb. splits; [done|lia|lia]. }
    destruct (length_split M M (kids (hp t c))) as (c1 & c2 & Ec & Lc1 & Lc2); [lia|].
    unfold split_child. rewrite EN. cbn [rbind]. fold M.
    match goal with |- context [upd nc ?f t1] => set (t2 := upd nc f t1) end.
    assert (H2n : hp t2 nc = Node None (replicate (M * 2 - 1) (kzero, vzero)) (replicate (M * 2) None) (M - 1) (leaf (hp t c))).
    { subst t2. hs. by rewrite Hnc, Hc1. }
    assert (H2c : hp t2 c = hp t c) by (subst t2; hs; done).
    assert (H2p : hp t2 par = hp t par) by (subst t2; hs; done).
    rewrite H2n, H2c. cbn [vals].
    assert (Hrep : replicate (M * 2 - 1) (kzero, vzero) = [] ++ replicate (M - 1) (kzero, vzero) ++ replicate M (kzero, vzero)).
    { cbn [app]. rewrite <-replicate_add. f_equal. lia. }
    rewrite Hrep.
    replace (vals (hp t c)) with ((v1 ++ [k]) ++ v2 ++ []) by (rewrite Ev, app_nil_r, <-app_assoc; done).
    rewrite (copy_up_ok (v1 ++ [k]) v2 [] [] (replicate (M - 1) (kzero, vzero)) (replicate M (kzero, vzero)));
      [|rewrite app_length; simpl; lia|done|done|by rewrite replicate_length].
    cbn [rbind app]. set (nv := v2 ++ replicate M (kzero, vzero)).
    assert (exists t3, (if leaf (hp (upd nc (set_vals nv) t2) nc) then Ok (upd nc (set_vals nv) t2)
        else let! c3 := copy_up M M 0 (kids (hp (upd nc (set_vals nv) t2) c)) (kids (hp (upd nc (set_vals nv) t2) nc)) in
          Ok (upd nc (set_kids c3) (upd nc (set_vals nv) t2))) = Ok t3
       /\ hp t3 nc = Node None nv (if leaf (hp t c) then replicate (M * 2) (@None nat) else c2 ++ replicate M (@None nat)) (M - 1) (leaf (hp t c))
       /\ same_meta t t3 /\ brk t3 = S nc /\ (forall x, x <> nc -> hp t3 x = hp t x)) as (t3 & E3 & H3n & (Ms & Md & Mr) & Mb & H3o).
    { hs. rewrite H2n, H2c. cbn [leaf kids].
      assert (Ho : forall x, x <> nc -> hp (upd nc (set_vals nv) t2) x = hp t x).
      { intros x Hx. subst t2. hs. by apply Hoth. }
      destruct (leaf (hp t c)) eqn:El.
      - eexists. split; [done|]. hs. rewrite H2n. hs. splits; try done; cbn; congruence.
      - rewrite Ec. replace (replicate (M * 2) (@None nat)) with ([] ++ replicate M (@None nat) ++ replicate M (@None nat))
          by (cbn [app]; rewrite <-replicate_add; f_equal; lia).
        pose proof (copy_up_ok c1 c2 [] [] (replicate M (@None nat)) (replicate M None) M M 0) as EC.
        rewrite app_nil_r in EC. rewrite EC; [|done|done|done|by rewrite replicate_length].
        cbn [rbind app]. eexists. split; [done|]. hs. rewrite H2n. hs.
        splits; try done; try (cbn; congruence). intros x Hx. rewrite hp_upd_ne by congruence. by apply Ho. }
    rewrite E3. clear E3. cbn [rbind].
    clear H2n H2c H2p. clearbody t2. clear t2.
    assert (H3c : hp t3 c = hp t c) by by apply H3o.
    assert (H3p : hp t3 par = hp t par) by by apply H3o.
    hs. rewrite H3c, H3p, Hpar. hs.
    (* parent's children *)
    replace (length ks1 + length ks2 - length ks1) with (length cs2) by lia.
    destruct (shift_right_ok (cs1 ++ [Some c]) cs2 JC jc (length cs2) (length ks1 + length ks2)) as (u & Eu & _);
      [rewrite app_length; simpl; lia|done|].
    rewrite <-!app_assoc in Eu. cbn [app] in Eu. rewrite Eu. clear Eu. cbn [rbind].
    erewrite set_kid_ok; cycle 1.
    { hs. replace (cs1 ++ Some c :: u :: cs2 ++ JC) with ((cs1 ++ [Some c]) ++ u :: cs2 ++ JC) by by rewrite <-app_assoc.
      apply aset_app. rewrite app_length. simpl. lia. }
    cbn [rbind]. hs. rewrite H3p, Hpar. hs.
    replace (length ks1 + length ks2 - length ks1) with (length ks2) by lia.
    destruct (shift_right_ok ks1 ks2 J j (length ks2) (length ks1 + length ks2 - 1)) as (uv & Eu & _); [lia|done|].
    rewrite Eu. clear Eu. cbn [rbind]. hs. rewrite H3c. hs.
    rewrite Ev, aget_app by lia. cbn [rbind].
    erewrite set_val_ok; cycle 1.
    { hs. by apply aset_app. }
    cbn [rbind]. hs. rewrite H3c. hs.
    set (newleafkids := if leaf (hp t c) then replicate (M * 2) None else c2 ++ replicate M None) in *.
    (* the two halves *)
    assert (exists nxc, (leaf (hp t c) = true -> next (hp t c) = Some nxc)) as (nxc & Enx).
    { destruct d; cbn in Hc.
      - destruct Hc as (a&?&?&?&E&_). exists a. by rewrite E.
      - destruct Hc as (a&?&?&?&?&E&_). exists 0. by rewrite E. }
    destruct (leaf (hp t c)) eqn:El.
    - (* a leaf *)
      rewrite Enx by done. cbn [deref rbind].
      destruct d; [|by rewrite bool_decide_false in Hlf by done].
      cbn in Hc. destruct Hc as (a&es&jk&cs&E&Le&Lcs&->&->).
      rewrite E in Ev, Hfull, Ec, Enx. cbn [vals num next kids] in *.
      assert (jk = []) as ->. { rewrite app_length in Le. destruct jk; [done|]. simpl in Le. lia. }
      rewrite app_nil_r in Ev, Le. subst es.
      do 6 eexists. split; [done|]. hs.
      splits.
      + done.
      + cbn. by rewrite Mb.
      + rewrite H3p, Hpar. hs. replace (length ks1 + length ks2 + 1) with (S (length ks1 + length ks2)) by lia.
        rewrite <-app_assoc. done.
      + cbn [reads]. exists nc, (v1 ++ [k]), v2, cs. hs. rewrite H3c, E. hs.
        splits; try done.
        * rewrite app_nil_r, <-app_assoc. unfold set_next, set_num. cbn [length app kids vals leaf next num]. f_equal. rewrite app_length. simpl. lia.
        * rewrite !app_length. simpl. lia.
      + cbn [reads]. exists nxc, v2, (replicate M (kzero, vzero)), (replicate (M * 2) None). hs.
        rewrite H3n. hs. splits; try done.
        * by rewrite Lv2.
        * rewrite app_length, replicate_length. lia.
        * f_equal; lia.
      + cbn. by apply Permutation_swap.
      + rewrite ?H3c, ?E. hs. lia.
      + rewrite ?H3c, ?E. hs. lia.
      + rewrite ?H3n. hs. lia.
      + rewrite ?H3n. hs. lia.
      + intros x X1 X2 X3. hs. by apply H3o.
      + right. exists v1, v2. rewrite !fmap_app. cbn. rewrite <-!app_assoc. done.
    - (* an inner node *)
      destruct d; [done|]. cbn in Hc. destruct Hc as (a&ks&jk&ts&cj&E&N1&N2&Le&Lcs&->&->&F).
      rewrite E in Ev, Hfull, Ec. cbn [vals num next kids] in *.
      assert (jk = []) as ->. { rewrite app_length in Le. destruct jk; [done|]. simpl in Le. lia. }
      assert (cj = []) as ->. { destruct cj; [done|]. simpl in Lcs. lia. }
      rewrite app_nil_r in Ev, Ec. subst ks.
      apply fmap_app_inv in Ec as (ts1 & ts2 & -> & -> & ->).
      rewrite fmap_length in Lc1, Lc2. apply Forall_app in F as [F1 F2].
      rewrite fmap_app, concat_app in ND, Hpf, Hfb.
      do 6 eexists. split; [done|]. hs.
      assert (Hs : forall ts' x, (forall cc, cc ∈ ts' -> cc ∈ ts1 ++ ts2) ->
         x ∈ concat ((fun cc : nat * list nat * list (@item K V) => cc.1.2) <$> ts') -> x <> par /\ x <> c /\ x <> nc).
      { intros ts' x Hin Hx. apply elem_concat in Hx as (lx & Hx & Hl). apply elem_of_list_fmap in Hl as (cc & -> & Hl).
        apply Hin in Hl.
        assert (Hx' : x ∈ concat ((fun cc : nat * list nat * list (@item K V) => cc.1.2) <$> (ts1 ++ ts2))).
        { apply elem_concat. exists cc.1.2. split; [done|]. apply elem_of_list_fmap. by exists cc. }
        rewrite fmap_app, concat_app in Hx'.
        apply NoDup_cons in ND as [ND1 ND2].
        assert (x < nc). { apply Hfb. by right. }
        splits; [|congruence|lia]. intros ->. apply Hpf. by right. }
      assert (HF : forall ts', (forall cc, cc ∈ ts' -> cc ∈ ts1 ++ ts2) ->
         forall h', (forall x, x <> par -> x <> c -> x <> nc -> h' x = hp t x) ->
         Forall (fun cc => M - 1 <= num (hp t cc.1.1) /\ reads M (hp t) d cc.1.1 cc.1.2 cc.2) ts' ->
         Forall (fun cc => M - 1 <= num (h' cc.1.1) /\ reads M h' d cc.1.1 cc.1.2 cc.2) ts').
      { intros ts' Hin h' Hh. rewrite !Forall_forall. intros HF cc Hcc. destruct (HF cc Hcc) as [G1 G2].
        assert (forall x, x ∈ cc.1.2 -> h' x = hp t x).
        { intros x Hx. destruct (Hs ts' x Hin) as (?&?&?); [|by apply Hh].
          apply elem_concat. exists cc.1.2. split; [done|]. apply elem_of_list_fmap. by exists cc. }
        split; [|by eapply reads_frame]. rewrite H; [done|]. by eapply reads_in. }
      splits.
      + done.
      + cbn. by rewrite Mb.
      + rewrite H3p, Hpar. hs. replace (length ks1 + length ks2 + 1) with (S (length ks1 + length ks2)) by lia.
        rewrite <-app_assoc. done.
      + cbn [reads]. exists a, v1, (k :: v2), ts1, ((fun cc => Some cc.1.1) <$> ts2). hs. rewrite H3c, E. hs.
        rewrite Lv1. splits; try done; try lia.
        * unfold set_num. cbn [kids vals leaf next num]. by rewrite fmap_app, !app_nil_r.
        * rewrite fmap_length. lia.
        * apply HF; [intros; apply elem_of_app; by left| |done]. intros x X1 X2 X3. hs. by apply H3o.
      + cbn [reads]. exists None, v2, (replicate M (kzero, vzero)), ts2, (replicate M None). hs. rewrite H3n. hs.
        rewrite Lv2. splits; try done; try lia.
        * rewrite app_length, replicate_length. lia.
        * rewrite replicate_length. lia.
        * apply HF; [intros; apply elem_of_app; by right| |done]. intros x X1 X2 X3. hs. by apply H3o.
      + rewrite fmap_app, concat_app. cbn [app]. rewrite <-Permutation_middle. apply Permutation_swap.
      + rewrite ?H3c, ?E. hs. lia.
      + rewrite ?H3c, ?E. hs. lia.
      + rewrite ?H3n. hs. lia.
      + rewrite ?H3n. hs. lia.
      + intros x X1 X2 X3. hs. by apply H3o.
      + left. rewrite fmap_app. apply weave_app. rewrite fmap_length. lia.
  Qed.
End split.
