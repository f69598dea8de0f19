(** Histories of calls on the B+ tree. *)
From Verif Require Import Base BPlus_Model BPlus_Spec BPlus_Proofs BPlus_Proofs2 BPlus_Proofs3 BPlus_Proofs4 BPlus_Proofs5 BPlus_Proofs6 BPlus_Proofs7 BPlus_Proofs8 BPlus_Proofs9 BPlus_Proofs10.

Section leaf.
  Context {K V : Type} (comp : K -> K -> Z).
  Implicit Types (t : @tree K V) (w : list (@item K V)) (h : nat -> @node K V).

  Lemma up_pos_stop k (pre es1 : list (K * V)) x J :
    Forall (fun x => (comp x.1 k < 0)%Z) es1 -> (0 <= comp x.1 k)%Z -> forall m,
    up_pos comp (length es1 + S m) k (length pre) (pre ++ es1 ++ x :: J) = Ok (length pre + length es1).
  Proof.
    intros F Hx m. revert pre. induction es1 as [|y es1 IH]; intros pre; cbn [length Nat.add up_pos app].
    - rewrite aget_app by done. cbn [rbind]. destruct (Z.ltb_spec (comp x.1 k) 0); [lia|]. f_equal. lia.
    - apply Forall_cons in F as [Fy F]. rewrite aget_app by done. cbn [rbind].
      destruct (Z.ltb_spec (comp y.1 k) 0); [|lia].
      specialize (IH F (pre ++ [y])). rewrite app_length, <-app_assoc in IH. cbn [length app] in IH. rewrite IH. f_equal. lia.
  Qed.

  Lemma first_equal k (es : list (K * V)) e : cmp_ok comp ->
    StronglySorted (fun a b : K * V => (comp a.1 b.1 <= 0)%Z) es -> e ∈ es -> comp k e.1 = 0%Z ->
    exists es1 x es2, es = es1 ++ x :: es2 /\ Forall (fun x => (comp x.1 k < 0)%Z) es1 /\ comp k x.1 = 0%Z /\ comp x.1 k = 0%Z.
  Proof.
    intros C S He Ce. induction es as [|y es IH]; [by apply elem_of_nil in He|].
    apply StronglySorted_inv in S as [S F]. rewrite Forall_forall in F.
    assert (Hy : (comp y.1 k <= 0)%Z).
    { apply elem_of_cons in He as [->|He].
      - apply (cmp_eq_sym _ C) in Ce. lia.
      - pose proof (cmp_eq_r _ C _ _ y.1 Ce) as E. specialize (F e He). lia. }
    destruct (decide (comp y.1 k = 0%Z)) as [E|N].
    - exists [], y, es. splits; try done. by apply (cmp_eq_sym _ C).
    - apply elem_of_cons in He as [->|He]; [by apply (cmp_eq_sym _ C) in Ce|].
      destruct (IH S He) as (es1 & x & es2 & -> & F1 & E1 & E2).
      exists (y :: es1), x, es2. splits; try done. constructor; [lia|done].
  Qed.

  Lemma sorted_remove (a c : list (K * V)) x : StronglySorted (fun a b : K * V => (comp a.1 b.1 <= 0)%Z) (a ++ x :: c) ->
    StronglySorted (fun a b : K * V => (comp a.1 b.1 <= 0)%Z) (a ++ c).
  Proof.
    induction a as [|y a IH]; cbn [app]; intros S; apply StronglySorted_inv in S as [S F]; [done|].
    constructor; [by apply IH|]. apply Forall_app in F as [F1 [_ F2]%Forall_cons]. by apply Forall_app.
  Qed.

  Lemma delete_leaf_ok t w k e : 2 <= degree t -> cmp_ok comp -> tree_reads t 0 w -> in_order comp w ->
    e ∈ entries w -> comp k e.1 = 0%Z ->
    exists t' r w', delete comp (root t) k t = Ok (t', Some r) /\ tree_reads (set_root (Some r) t') 0 w' /\ in_order comp w'
      /\ degree t' = degree t /\ removed (fun x => comp k x.1 = 0%Z) (entries w) (entries w').
  Proof.
    intros HM C (r & fp & Er & R & ND & Hb & Hsz) St He Ce. cbn [reads] in R.
    destruct R as (nx&es&jk&cs&E&L1&L2&->&->). rewrite entries_leaf in *. apply entries_sorted in St.
    destruct (first_equal k es e C St He Ce) as (es1 & x & es2 & -> & F1 & C1 & C2).
    unfold delete. rewrite Er. cbn [deref rbind].
    rewrite !app_length in L1. simpl in L1.
    set (n := length es1 + length es2).
    assert (D : exists t', delete_non_one comp (S (brk t)) r k t = Ok t'
      /\ exists u, hp t' r = Node (Some nx) ((es1 ++ es2) ++ jk ++ [u]) cs n true
      /\ brk t' = brk t /\ degree t' = degree t /\ size t' = (size t - 1)%Z).
    { cbn [delete_non_one]. rewrite E. cbn [num vals leaf].
      rewrite app_length. cbn [length]. rewrite <-(app_assoc es1). cbn [app].
      pose proof (up_pos_stop k [] es1 x (es2 ++ jk) F1 ltac:(lia) (length es2)) as EU. cbn [app length Nat.add] in EU. rewrite EU. cbn [rbind].
      rewrite aget_app by done. cbn [rbind]. rewrite C1. cbn [Z.eqb].
      destruct (shift_left_ok es1 (es2 ++ jk) [] x (2 * degree t - 1 - (length es1 + 1)) (length es1 + 1)) as (u & Eu); [lia|rewrite app_length; lia|].
      rewrite app_nil_r in Eu. rewrite Eu. cbn [rbind]. hs. rewrite E. hs. rewrite app_length. cbn [length].
      replace (length es1 + S (length es2)) with (S n) by (unfold n; lia). cbn [dec rbind].
      eexists. split; [done|]. exists u. hs. rewrite E. hs. splits; try done.
      unfold set_num, set_vals. cbn. by rewrite <-!app_assoc. }
    destruct D as (t' & ED & u & Hr & Hbk & Hdg & Hsz').
    assert (Fin : exists t'0 r0 w', (let! t'0 := delete_non_one comp (S (brk t)) r k t in Ok (t'0, Some r)) = Ok (t'0, Some r0) /\ tree_reads (set_root (Some r0) t'0) 0 w' /\ in_order comp w'
      /\ degree t'0 = degree t /\ removed (fun x => comp k x.1 = 0%Z) (es1 ++ x :: es2) (entries w')).
    { rewrite ED. cbn [rbind]. exists t', r, (Entry <$> es1 ++ es2). splits; try done.
      - exists r, [r]. cbn [root set_root hp degree brk size]. splits; try done.
        + cbn [reads]. exists nx, (es1 ++ es2), (jk ++ [u]), cs. rewrite Hdg, Hr. unfold n. splits; try done.
          * by rewrite app_length.
          * rewrite !app_length. simpl. lia.
        + rewrite Hbk. done.
        + rewrite entries_leaf, Hsz', Hsz, !app_length. simpl. lia.
      - apply entries_sorted. by eapply sorted_remove.
      - rewrite entries_leaf. by exists es1, x, es2. }
    destruct (decide (num (hp t r) = 1)) as [N1|N1]; [|exact Fin].
    rewrite E. cbn [kids]. rewrite L2. destruct (degree t) as [|[|M]] eqn:EM; [lia|lia|].
    replace (2 * S (S M)) with (S (S (2 * M + 2))) by lia. cbn [replicate]. cbn [aget lookup list_lookup deref rbind].
    exact Fin.
  Qed.
End leaf.

Section hist.
  Context {K V : Type} (kzero : K) (vzero : V) (comp : K -> K -> Z) (compV : V -> V -> Z).
  Implicit Types (t : @tree K V) (w : list (@item K V)).
  Notation do_op := (do_op kzero vzero comp compV).
  Notation run := (run kzero vzero comp compV).
  Notation run_new := (run_new kzero vzero comp compV).

  Lemma new_map_ok deg : (1 <= deg)%Z ->
    exists t, new_map kzero vzero deg = Ok t /\ tree_reads t 0 [] /\ Z.of_nat (degree t) = deg.
  Proof.
    intros Hd. unfold new_map. destruct (Z.ltb_spec (deg * 2 - 1) 0); [lia|].
    cbn [new_node]. cbn [degree brk hp prv root size]. eexists. split; [done|].
    set (M := Z.to_nat deg). split; [|cbn; lia].
    exists 0, [0]. splits; try done.
    - cbn [reads]. exists 0, [], (replicate (M * 2 - 1) (kzero, vzero)), (replicate (M * 2) None).
      cbn [set_prev upd set_root hp degree]. rewrite !fn_lookup_insert. splits; try done.
      + cbn. rewrite replicate_length. lia.
      + f_equal. lia.
    - apply NoDup_singleton.
    - repeat constructor.
  Qed.

  Lemma delete_key_ok t d w k : 2 <= degree t -> tree_reads t d w ->
    delete_key comp k t = Panic
    \/ exists t' b d' w', delete_key comp k t = Ok (t', b) /\ contains_key comp k t = Ok b
       /\ tree_reads t' d' w' /\ degree t' = degree t
       /\ (if b then del_effect comp d k (entries w) (entries w') (size t) (size t') else t' = t /\ w' = w).
  Proof.
    intros HM T. destruct (found_entry_ok comp k t d w T) as (o & EF & EC & So & _).
    unfold delete_key. rewrite EC. cbn [rbind]. destruct o as [e|].
    - rewrite bool_decide_true by by eexists. destruct (So e eq_refl) as [C0 He].
      assert (Hsz : size t <> 0%Z).
      { destruct T as (?&?&?&?&?&?&Hsz). destruct (entries w); [by apply elem_of_nil in He|]. simpl in Hsz. lia. }
      destruct (delete_ok comp t d w k HM T Hsz) as [->|(t' & r & d' & w' & -> & T' & Hd & Eff)]; [by left|right].
      cbn [rbind]. eexists _, _, d', w'. splits; done.
    - rewrite bool_decide_false by by intros [? ?]. right. exists t, false, d, w. done.
  Qed.

  (** one call, on any well-formed tree *)
  Lemma do_op_ok o t d w : 2 <= degree t -> tree_reads t d w ->
    (do_op o t = Panic /\ ~ no_delete o)
    \/ exists t' r d' w', do_op o t = Ok (t', r) /\ tree_reads t' d' w' /\ degree t' = degree t
       /\ (forall e, e ∈ entries w' -> e ∈ stored [o] [r] \/ e ∈ entries w)
       /\ (no_delete o -> entries w' ≡ₚ stored [o] [r] ++ entries w /\ (cmp_ok comp -> in_order comp w -> in_order comp w')).
  Proof.
    intros HM T.
    assert (HD : forall k, (bpair (V := V) (delete_key comp k t) = Panic) \/ exists t' b d' w', bpair (V := V) (delete_key comp k t) = Ok (t', RBool b)
       /\ tree_reads t' d' w' /\ degree t' = degree t /\ (forall e, e ∈ entries w' -> e ∈ entries w)).
    { intros k. destruct (delete_key_ok t d w k HM T) as [->|(t' & b & d' & w' & -> & _ & T' & Hd & Eff)]; [by left|right].
      exists t', b, d', w'. splits; try done. intros e He. destruct b; [|by destruct Eff as [_ <-]].
      destruct Eff as (es1 & H1 & H2).
      assert (H3 : e ∈ es1).
      { destruct H2 as [[<- _]|((a & x & c & -> & E & _) & _)]; [done|]. rewrite E in He.
        apply elem_of_app in He. rewrite elem_of_app, elem_of_cons. tauto. }
      destruct H1 as [->|(_ & a & b & z & c & -> & ->)]; [done|]. rewrite elem_of_app, !elem_of_cons in H3 |- *. tauto. }
    assert (HI : forall k v, exists t' r d' w', insert kzero vzero comp (root t) (k, v) t = Ok (t', r)
       /\ tree_reads (set_root r t') d' w' /\ degree t' = degree t /\ entries w' ≡ₚ (k, v) :: entries w
       /\ (cmp_ok comp -> in_order comp w -> in_order comp w')).
    { intros k v. destruct (insert_ok kzero vzero comp t d w (k, v) HM T) as (t' & r & d' & w' & E & T' & (G1 & G2 & G3 & G4) & Hd & _).
      exists t', (Some r), d', w'. splits; done. }
    destruct o as [k v|k v|k|k v|k]; cbn [BPlus_Spec.do_op].
    - right. destruct (HI k v) as (t' & r & d' & w' & E & T' & Hd & P & G). unfold insert_equal. rewrite E. cbn [rbind bpair].
      exists (set_root r t'), (RBool true), d', w'. cbn [stored app]. splits; try done.
      intros e He. rewrite P in He. apply elem_of_cons in He as [->|He]; [left; by left|by right].
    - right. destruct (found_entry_ok comp k t d w T) as (o & EF & EC & So & _).
      unfold insert_unique. rewrite EC. cbn [rbind]. destruct (bool_decide (is_Some o)).
      + cbn [bpair rbind]. exists t, (RBool false), d, w. cbn [stored app]. splits; try done. by right.
      + destruct (HI k v) as (t' & r & d' & w' & E & T' & Hd & P & G). rewrite E. cbn [rbind bpair].
        exists (set_root r t'), (RBool true), d', w'. cbn [stored app]. splits; try done.
        intros e He. rewrite P in He. apply elem_of_cons in He as [->|He]; [left; by left|by right].
    - destruct (HD k) as [->|(t' & b & d' & w' & -> & T' & Hd & He)]; [left; naive_solver|right].
      exists t', (RBool b), d', w'. splits; try done. by right; apply He.
    - unfold delete_by_whole_mapping. destruct (found_entry_ok comp k t d w T) as (o & EF & EC & So & _).
      rewrite EF. cbn [rbind].
      assert (No : exists t' r d' w', bpair (V := V) (Ok (t, false)) = Ok (t', r) /\ tree_reads t' d' w' /\ degree t' = degree t
       /\ (forall e, e ∈ entries w' -> e ∈ stored [DeleteWhole k v] [r] \/ e ∈ entries w)
       /\ (no_delete (DeleteWhole k v) -> entries w' ≡ₚ stored [DeleteWhole k v] [r] ++ entries w /\ (cmp_ok comp -> in_order comp w -> in_order comp w'))).
      { exists t, (RBool false), d, w. splits; try done. by right. }
      destruct o as [e|]; [|by right]. destruct (compV e.2 v <? 0)%Z; [|by right].
      destruct (HD k) as [->|(t' & b & d' & w' & -> & T' & Hd & He)]; [left; naive_solver|right].
      exists t', (RBool b), d', w'. splits; try done. by right; apply He.
    - right. unfold get_verify. destruct (found_entry_ok comp k t d w T) as (o & EF & EC & So & _). rewrite EF. cbn [rbind].
      destruct o as [e|]; cbn [rbind]; eexists t, _, d, w; (split; [done|]); splits; try done; by right.
  Qed.

  Lemma stored_cons (o : @op K V) os r rs : stored (o :: os) (r :: rs) = stored [o] [r] ++ stored os rs.
  Proof. destruct o; cbn [stored app]; try done; destruct r as [[]|]; done. Qed.

  Lemma run_ok os t d w : 2 <= degree t -> tree_reads t d w ->
    (run os t = Panic /\ ~ Forall no_delete os)
    \/ exists t' rs d' w', run os t = Ok (t', rs) /\ length rs = length os /\ tree_reads t' d' w' /\ degree t' = degree t
       /\ (forall e, e ∈ entries w' -> e ∈ stored os rs \/ e ∈ entries w)
       /\ (Forall no_delete os -> entries w' ≡ₚ stored os rs ++ entries w /\ (cmp_ok comp -> in_order comp w -> in_order comp w')).
  Proof.
    revert t d w. induction os as [|o os IH]; intros t d w HM T.
    { right. exists t, [], d, w. splits; try done. by right. }
    cbn [BPlus_Spec.run]. destruct (do_op_ok o t d w HM T) as [[-> Hn]|(t1 & r & d1 & w1 & -> & T1 & Hd1 & S1 & N1)].
    { left. split; [done|]. intros F. by apply Forall_cons in F as [? _]. }
    cbn [rbind]. rewrite <-Hd1 in HM.
    destruct (IH t1 d1 w1 HM T1) as [[-> Hn]|(t2 & rs & d2 & w2 & -> & L & T2 & Hd2 & S2 & N2)].
    { left. split; [done|]. intros F. by apply Forall_cons in F as [? ?]. }
    right. cbn [rbind]. exists t2, (r :: rs), d2, w2. splits; try done.
    - simpl. by rewrite L.
    - congruence.
    - intros e He. rewrite stored_cons, elem_of_app. destruct (S2 e He) as [H|H]; [by auto|]. destruct (S1 e H); auto.
    - intros F. apply Forall_cons in F as [F1 F2]. destruct (N1 F1) as [P1 G1], (N2 F2) as [P2 G2]. split; [|by auto].
      rewrite P2, P1, (stored_cons o os r rs), <-(app_assoc (stored [o] [r])). apply Permutation_app_swap_app.
  Qed.

  Lemma run_new_ok deg os : (2 <= deg)%Z ->
    (run_new deg os = Panic /\ ~ Forall no_delete os)
    \/ exists t rs d w, run_new deg os = Ok (t, rs) /\ length rs = length os /\ tree_reads t d w /\ Z.of_nat (degree t) = deg
       /\ (forall e, e ∈ entries w -> e ∈ stored os rs)
       /\ (Forall no_delete os -> entries w ≡ₚ stored os rs /\ (cmp_ok comp -> in_order comp w)).
  Proof.
    intros Hd. destruct (new_map_ok deg) as (t0 & E & T0 & D0); [lia|].
    unfold BPlus_Spec.run_new. rewrite E. cbn [rbind].
    destruct (run_ok os t0 0 [] ltac:(lia) T0) as [[-> H]|(t & rs & d & w & -> & L & T & Hdg & S & N)]; [by left|right].
    exists t, rs, d, w. splits; try done.
    - congruence.
    - intros e He. destruct (S e He) as [|H]; [done|]. by apply elem_of_nil in H.
    - intros F. destruct (N F) as [P G]. cbn [entries omap list_omap] in P. rewrite app_nil_r in P. split; [done|]. intros C. apply G; [done|constructor].
  Qed.
End hist.
