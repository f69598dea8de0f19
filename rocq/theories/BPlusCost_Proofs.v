(** Comparator calls of lookups in the B+ tree, and its depth. *)
From Verif Require Import Base BPlus_Model BPlus_Spec BPlus_Proofs BPlus_Proofs6 BPlus_Proofs7 Cost_Model Cost_Proofs.

Section bp.
  Context {K V : Type} (comp : K -> K -> Z).
  Lemma bsearch_erase fuel : forall k (v : list (K * V)) l hi mid, erase (bsearch_n comp fuel k v l hi mid) = bsearch comp fuel k v l hi mid.
  Proof.
    induction fuel as [|fuel IH]; intros k v l hi mid; [done|]. cbn [bsearch_n bsearch]. case_decide; [|done].
    rewrite erase_cbind, erase_lift. apply rbind_ext. intros p. rewrite erase_cbind. cbn.
    destruct (_ <? 0)%Z; [apply IH|]. destruct (0 <? _)%Z; [apply IH|done].
  Qed.
  Lemma search_loop_erase fuel : forall nd k (h : nat -> @node K V), erase (search_loop_n comp fuel nd k h) = search_loop comp fuel nd k h.
  Proof.
    induction fuel as [|fuel IH]; intros nd k h; [done|]. cbn [search_loop_n search_loop]. rewrite erase_cbind, erase_lift. apply rbind_ext. intros n.
    rewrite erase_cbind, bsearch_erase. apply rbind_ext. intros [[l mid] ex]. destruct (leaf (h n)); [by destruct ex|].
    rewrite erase_cbind, erase_lift. apply rbind_ext. intros c. apply IH.
  Qed.
  Lemma contains_erase k (t : @tree K V) : erase (contains_key_n comp k t) = contains_key comp k t.
  Proof.
    unfold contains_key_n, contains_key, search. rewrite erase_cbind. destruct (size t =? 0)%Z; [done|]. rewrite search_loop_erase.
    apply rbind_ext. by intros [[]].
  Qed.

  Lemma bsearch_costs fuel : forall k (v : list (K * V)) l hi mid, costs (bsearch_n comp fuel k v l hi mid) (Nat.log2 (2 * (hi - l))).
  Proof.
    induction fuel as [|fuel IH]; intros k v l hi mid; [done|]. cbn [bsearch_n]. case_decide as D; [|apply costs_ok].
    set (m := (l + hi - 1) / 2). apply costs_lift_bind. intros p _. rewrite Nat.log2_double by lia. apply costs_ask.
    assert (Em : 2 * m <= l + hi - 1 <= 2 * m + 1).
    { unfold m. pose proof (Nat.div_mod (l + hi - 1) 2 ltac:(lia)). pose proof (Nat.mod_upper_bound (l + hi - 1) 2 ltac:(lia)). lia. }
    clearbody m. destruct (_ <? 0)%Z; [|destruct (0 <? _)%Z; [|apply costs_ok]].
    - eapply costs_le; [apply IH|]. apply Nat.log2_le_mono. lia.
    - eapply costs_le; [apply IH|]. apply Nat.log2_le_mono. lia.
  Qed.
  Lemma search_loop_costs M h k : forall d fuel l fp (w : list (@item K V)), reads M h d l fp w -> 1 <= M ->
    costs (search_loop_n comp fuel (Some l) k h) (S d * S (Nat.log2 (2 * M - 1))).
  Proof.
    induction d as [|d IH]; intros fuel l fp w R HM; (destruct fuel as [|fuel]; [done|]); cbn [search_loop_n]; apply costs_lift_bind; intros n [= <-].
    - destruct R as (nx & es & J & cs & E & L & _). rewrite E. cbn [num vals leaf kids]. replace (1 * S (Nat.log2 (2 * M - 1))) with (S (Nat.log2 (2 * M - 1)) + 0) by lia.
      apply costs_cbind; [|intros [[l' mid] ex] n _; destruct ex; apply costs_ok].
      eapply costs_le; [apply bsearch_costs|]. rewrite <-Nat.log2_double by lia. apply Nat.log2_le_mono. rewrite app_length in L. lia.
    - destruct R as (nx & ks & J & ts & CJ & E & L1 & Lt & L & Lc & _ & _ & F). rewrite E. cbn [num vals leaf kids].
      replace (S (S d) * S (Nat.log2 (2 * M - 1))) with (S (Nat.log2 (2 * M - 1)) + S d * S (Nat.log2 (2 * M - 1))) by lia.
      apply costs_cbind.
      { eapply costs_le; [apply bsearch_costs|]. rewrite <-Nat.log2_double by lia. apply Nat.log2_le_mono. rewrite app_length in L. lia. }
      intros [[l' mid] ex] n Eb. apply costs_lift_bind. intros c Ec.
      assert (El : l' <= length ks).
      { destruct (bsearch_ok comp k ks J (S (length ks)) 0 (length ks) 0) as (l2 & mid2 & ex2 & EB & Hb & _); [lia|lia|].
        pose proof (bsearch_erase (S (length ks)) k (ks ++ J) 0 (length ks) 0) as Er. rewrite Eb, EB in Er. cbn in Er. simplify_eq. lia. }
      destruct (lookup_lt_is_Some_2 ts l' ltac:(lia)) as [[[c' fp'] w'] Hc].
      assert (c = Some c') as ->.
      { unfold aget, deref in Ec. rewrite lookup_app_l in Ec by (rewrite fmap_length; lia). rewrite list_lookup_fmap, Hc in Ec. cbn in Ec. by simplify_eq. }
      rewrite Forall_lookup in F. destruct (F l' _ Hc) as [_ R]. by eapply IH.
  Qed.

  Lemma concat_many (c : nat) (ls : list (list (K * V))) : Forall (fun l => c <= length l) ls -> length ls * c <= length (concat ls).
  Proof. induction 1 as [|l ls H _ IH]; [done|]. cbn. rewrite app_length. lia. Qed.
  Lemma reads_many M h : forall d l fp (w : list (@item K V)), reads M h d l fp w -> 2 <= M -> M - 1 <= num (h l) ->
    (M - 1) * M ^ d <= length (entries w).
  Proof.
    induction d as [|d IH]; intros l fp w R HM Hn.
    - destruct R as (nx & es & J & cs & E & L & _ & _ & ->). rewrite E in Hn. cbn [num] in Hn. rewrite entries_leaf. cbn. lia.
    - destruct R as (nx & ks & J & ts & CJ & E & L1 & Lt & L & Lc & _ & -> & F). rewrite E in Hn. cbn [num] in Hn.
      rewrite entries_weave by (rewrite fmap_length; lia).
      assert (G : Forall (fun l => (M - 1) * M ^ d <= length l) (entries <$> (snd <$> ts))).
      { rewrite !Forall_fmap. eapply Forall_impl; [exact F|]. intros [[c cf] cw] [Hc Rc]. cbn in *. by eapply IH. }
      apply concat_many in G. rewrite !fmap_length in G. cbn [Nat.pow]. transitivity (length ts * ((M - 1) * M ^ d)); [|exact G].
      rewrite Lt. transitivity (M * ((M - 1) * M ^ d)); [lia|]. apply Nat.mul_le_mono_r. lia.
  Qed.
  Lemma root_many M h d l fp (w : list (@item K V)) : reads M h (S d) l fp w -> 2 <= M -> 2 * (M - 1) * M ^ d <= length (entries w).
  Proof.
    intros (nx & ks & J & ts & CJ & E & L1 & Lt & L & Lc & _ & -> & F) HM.
    rewrite entries_weave by (rewrite fmap_length; lia).
    assert (G : Forall (fun l => (M - 1) * M ^ d <= length l) (entries <$> (snd <$> ts))).
    { rewrite !Forall_fmap. eapply Forall_impl; [exact F|]. intros [[c cf] cw] [Hc Rc]. cbn in *. by eapply reads_many. }
    apply concat_many in G. rewrite !fmap_length in G. transitivity (length ts * ((M - 1) * M ^ d)); [|exact G].
    rewrite <-Nat.mul_assoc. apply Nat.mul_le_mono_r. lia.
  Qed.
  Lemma depth_log (t : @tree K V) d w : tree_reads t d w -> 2 <= degree t -> d <= Nat.log2 (length (entries w)).
  Proof.
    intros (r & fp & _ & R & _) HM. destruct d as [|d]; [lia|]. pose proof (root_many _ _ _ _ _ _ R HM) as H.
    assert (2 ^ d <= degree t ^ d) by by apply Nat.pow_le_mono_l.
    apply Nat.log2_le_pow2. { pose proof (Nat.pow_nonzero 2 d). nia. } cbn [Nat.pow]. nia.
  Qed.
End bp.
