(** Inorder on trees that read. *)
From Verif Require Import Base BPlus_Model BPlus_Spec BPlus_Proofs BPlus_Proofs13 BPlusPrint_Model BPlusPrint_Spec.

Section inorder.
  Context {K V : Type}.
  Implicit Types (h : nat -> @node K V) (w : list (@item K V)).

  Lemma loop_leaf rec (n : @node K V) M es junk i : rec None = Ok [] -> drop i (vals n) = es ++ junk -> kids n = replicate M None -> i + length es < M ->
    inorder_loop rec n (length es) i = Ok es.
  Proof.
    intros Er. revert i. induction es as [|e es IH]; intros i Hv Hk Hl; [done|]. cbn [length inorder_loop].
    assert (vals n !! i = Some e) as Hx. { rewrite <-(Nat.add_0_r i), <-lookup_drop, Hv. done. }
    unfold aget. rewrite Hx, Hk. cbn [deref rbind]. cbn [length] in Hl. rewrite lookup_replicate_2 by lia. cbn [deref rbind]. rewrite Er. cbn [rbind].
    rewrite (IH (i + 1)); [done| |done|lia].
    rewrite <-drop_drop, Hv. done.
  Qed.
  Lemma loop_inner rec (n : @node K V) ks junk (ts : list (nat * list nat * list (@item K V))) cj i :
    (forall c, c ∈ ts -> rec (Some c.1.1) = Ok (item_kv <$> c.2)) -> drop i (vals n) = ks ++ junk ->
    drop (i + 1) (kids n) = ((fun c => Some c.1.1) <$> ts) ++ cj -> length ts = length ks ->
    inorder_loop rec n (length ks) i = Ok (item_kv <$> wpost ks ((fun c => c.2) <$> ts)).
  Proof.
    revert i ts. induction ks as [|k ks IH]; intros i [|c ts] Er Hv Hk Hl; try done. cbn [length inorder_loop].
    assert (vals n !! i = Some k) as Hx. { rewrite <-(Nat.add_0_r i), <-lookup_drop, Hv. done. }
    assert (kids n !! (i + 1) = Some (Some c.1.1)) as Hc. { rewrite <-(Nat.add_0_r (i + 1)), <-lookup_drop, Hk. done. }
    unfold aget. rewrite Hx, Hc. cbn [deref rbind]. rewrite (Er c) by left. cbn [rbind].
    rewrite (IH (i + 1) ts); [..|by injection Hl].
    - cbn [rbind]. unfold wpost. cbn [fmap list_fmap zip_with concat]. by rewrite fmap_app.
    - intros c' Hc'. apply Er. by right.
    - rewrite <-drop_drop, Hv. done.
    - rewrite <-drop_drop, Hk. done.
  Qed.
  Lemma inorder_ok M h d : forall fuel l fp w, 1 <= M -> reads M h d l fp w -> d + 1 < fuel -> inorder fuel h (Some l) = Ok (item_kv <$> w).
  Proof.
    induction d as [|d IH]; intros [|fuel] l fp w HM R Hf; try lia; cbn [inorder].
    - destruct R as (nx & es & junk & cs & -> & L & -> & _ & ->). cbn [kids num]. unfold aget. rewrite lookup_replicate_2 by lia. cbn [deref rbind].
      destruct fuel as [|fuel]; [lia|]. rewrite app_length in L. cbn [inorder rbind]. erewrite (loop_leaf _ _ (2 * M) es junk); [|done|done|done|lia].
      cbn [rbind app]. f_equal. rewrite <-list_fmap_compose. symmetry. apply list_fmap_id.
    - destruct R as (nx & ks & junk & ts & cj & -> & Hk & Ht & L1 & L2 & _ & -> & F).
      rewrite Forall_forall in F. assert (Er : forall c, c ∈ ts -> inorder fuel h (Some c.1.1) = Ok (item_kv <$> c.2)).
      { intros c Hc. destruct (F c Hc) as [_ R]. by eapply IH; [done|exact R|lia]. }
      destruct ts as [|c ts]; [done|]. cbn [kids num]. unfold aget. cbn [fmap list_fmap app lookup list_lookup deref rbind]. rewrite (Er c) by left. cbn [rbind].
      erewrite (loop_inner _ _ ks junk ts cj); [|intros c' Hc'; apply Er; by right|done|done|by injection Ht].
      cbn [rbind]. rewrite weave_cons by (rewrite fmap_length; by injection Ht). by rewrite fmap_app.
  Qed.
  Lemma inorder_minimum M h d : forall fuel l fp w, 1 <= M -> reads M h d l fp w -> d < fuel ->
    exists x, minimum_loop fuel (Some l) h = Ok (Some x) /\ reads M h 0 x [x] (Entry <$> take (num (h x)) (vals (h x))).
  Proof.
    induction d as [|d IH]; intros [|fuel] l fp w HM R Hf; try lia; cbn [minimum_loop deref rbind].
    - destruct R as (nx & es & junk & cs & E & L & -> & -> & ->). exists l. rewrite E. split; [done|]. cbn [reads num vals]. rewrite take_app.
      by exists nx, es, junk, (replicate (2 * M) None).
    - destruct R as (nx & ks & junk & ts & cj & -> & Hk & Ht & L1 & L2 & _ & -> & F).
      destruct ts as [|c ts]; [done|]. cbn [leaf kids]. unfold aget. cbn [fmap list_fmap app lookup list_lookup deref rbind].
      apply Forall_cons in F as [[_ R] _]. by eapply IH; [done|exact R|lia].
  Qed.
End inorder.
