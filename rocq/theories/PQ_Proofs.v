(** Proofs about the priority queue model. *)
From Verif Require Import Base PQ_Model PQ_Spec.

Section proofs.
  Context {T : Type} (zero : T) (comp : T -> T -> Z) (Hc : cmp_ok comp).
  Notation le a b := (comp a b <= 0)%Z.

  Definition par (j : nat) : nat := (j - 1) / 2.

  (* parent/child order for all j < n satisfying P *)
  Definition ordered (n : nat) (P : nat -> Prop) (els : list T) : Prop :=
    forall j x y, 0 < j -> j < n -> P j -> els !! par j = Some x -> els !! j = Some y -> le x y.
  Definition heap (n : nat) (els : list T) : Prop := ordered n (fun _ => True) els.

  Lemma le_refl' a : le a a.
  Proof. rewrite (cmp_refl comp Hc). lia. Qed.
  Lemma le_trans' a b c : le a b -> le b c -> le a c.
  Proof. apply (cmp_trans _ Hc). Qed.

  (* swapping two cells of a prefix *)
  Lemma swap_perm (l : list T) i j x y :
    l !! i = Some x -> l !! j = Some y -> <[j:=x]> (<[i:=y]> l) ≡ₚ l.
  Proof.
    intros Hi Hj. destruct (decide (i = j)) as [->|Hne].
    - rewrite list_insert_insert. rewrite list_insert_id; [done|congruence].
    - apply Permutation_inj. split; [by rewrite !insert_length|].
      pose proof (lookup_lt_Some _ _ _ Hi). pose proof (lookup_lt_Some _ _ _ Hj).
      exists (fun k => if decide (k = i) then j else if decide (k = j) then i else k).
      split.
      + intros a b. repeat case_decide; congruence.
      + intros k. repeat case_decide; subst.
        * rewrite list_lookup_insert_ne by done. rewrite list_lookup_insert by done. done.
        * rewrite list_lookup_insert by (by rewrite insert_length). done.
        * rewrite !list_lookup_insert_ne by done. done.
  Qed.

  Lemma swap_take_perm (l : list T) n i j x y :
    i < n -> j < n -> l !! i = Some x -> l !! j = Some y ->
    take n (<[j:=x]> (<[i:=y]> l)) ≡ₚ take n l.
  Proof.
    intros Hi Hj Hx Hy.
    assert (E : take n (<[j:=x]> (<[i:=y]> l)) = <[j:=x]> (<[i:=y]> (take n l))).
    { apply list_eq. intros k. destruct (decide (k < n)).
      - rewrite lookup_take by done.
        destruct (decide (k = j)) as [->|].
        + destruct (decide (j < length l)).
          * rewrite !list_lookup_insert; rewrite ?insert_length, ?take_length; try lia; done.
          * apply lookup_lt_Some in Hy. lia.
        + rewrite !(list_lookup_insert_ne _ j) by done.
          destruct (decide (k = i)) as [->|].
          * apply lookup_lt_Some in Hx. rewrite !list_lookup_insert; rewrite ?take_length; try lia; done.
          * rewrite !list_lookup_insert_ne by done. by rewrite lookup_take.
      - rewrite lookup_take_ge by lia.
        rewrite !list_lookup_insert_ne by lia. by rewrite lookup_take_ge by lia. }
    rewrite E. apply swap_perm; by rewrite lookup_take.
  Qed.

  Lemma swap_drop (l : list T) n i j x y :
    i < n -> j < n -> drop n (<[j:=x]> (<[i:=y]> l)) = drop n l.
  Proof. intros Hi Hj. by rewrite !drop_insert_gt by lia. Qed.

  (* percolateUp *)
  Definition up_inv (n pos : nat) (els : list T) : Prop :=
    ordered n (fun j => j <> pos) els /\
    (forall j x y, 0 < pos -> 0 < j -> j < n -> par j = pos ->
        els !! par pos = Some x -> els !! j = Some y -> le x y).

  Lemma percolate_up_ok n fuel : forall els pos,
    pos < fuel -> pos < n -> n <= length els -> up_inv n pos els ->
    exists els', percolate_up comp fuel els pos = Ok els' /\
      length els' = length els /\ heap n els' /\ take n els' ≡ₚ take n els /\
      drop n els' = drop n els.
  Proof.
    induction fuel as [|fuel IH]; intros els pos Hf Hpos Hlen [Hord Hgp]; [lia|].
    cbn [percolate_up]. fold (par pos).
    destruct (decide (par pos = pos)) as [E|E].
    - exists els. split_and!; try done.
      intros j x y Hj Hjn _ Hx Hy. apply (Hord j); try done.
      unfold par in E. lia.
    - assert (0 < pos) by (unfold par in E; lia).
      assert (Hip : par pos < pos) by (unfold par; lia).
      destruct (lookup_lt_is_Some_2 els pos) as [a Ha]; [lia|].
      destruct (lookup_lt_is_Some_2 els (par pos)) as [b Hb]; [lia|].
      rewrite Ha, Hb. cbn [deref rbind].
      destruct (0 <=? comp a b)%Z eqn:Hcmp.
      + exists els. split_and!; try done.
        intros j x y Hj Hjn _ Hx Hy. destruct (decide (j = pos)) as [->|].
        * simplify_eq. apply (cmp_le_ge comp Hc). lia.
        * by apply (Hord j).
      + assert (Hab : le a b) by lia.
        set (i := par pos) in *.
        edestruct (IH (<[pos:=b]> (<[i:=a]> els)) i) as (els' & Hrun & Hl & Hh & Hp & Hd).
        * lia.
        * lia.
        * by rewrite !insert_length.
        * assert (Lpos : <[pos:=b]> (<[i:=a]> els) !! pos = Some b).
          { apply list_lookup_insert. rewrite insert_length. lia. }
          assert (Li : <[pos:=b]> (<[i:=a]> els) !! i = Some a).
          { rewrite list_lookup_insert_ne by lia. apply list_lookup_insert. lia. }
          assert (Lo : forall k, k <> pos -> k <> i -> <[pos:=b]> (<[i:=a]> els) !! k = els !! k).
          { intros k ??. by rewrite !list_lookup_insert_ne by lia. }
          split.
          -- intros j x y Hj Hjn Hji Hx Hy.
             destruct (decide (j = pos)) as [->|Hjp].
             { fold i in Hx. rewrite Li in Hx. rewrite Lpos in Hy. by simplify_eq. }
             rewrite (Lo j) in Hy by done.
             destruct (decide (par j = pos)) as [Epp|].
             { rewrite Epp, Lpos in Hx. simplify_eq. by apply (Hgp j x y). }
             destruct (decide (par j = i)) as [Epi|].
             { rewrite Epi, Li in Hx. simplify_eq.
               apply le_trans' with b; [done|]. apply (Hord j); try done. by rewrite Epi. }
             rewrite Lo in Hx by done. by apply (Hord j).
          -- intros j x y Hi0 Hj Hjn Hpj Hx Hy.
             assert (par i < i) by (unfold par; lia).
             rewrite Lo in Hx by lia.
             assert (Hib : le x b). { apply (Hord i); try done; lia. }
             destruct (decide (j = pos)) as [->|].
             { rewrite Lpos in Hy. by simplify_eq. }
             assert (j <> i) by (unfold par in Hpj; lia).
             rewrite Lo in Hy by done.
             apply le_trans' with b; [done|]. apply (Hord j); try done. by rewrite Hpj.
        * exists els'. split_and!; [done| | done | |].
          -- by rewrite Hl, !insert_length.
          -- rewrite Hp. by apply swap_take_perm; [lia|lia| |].
          -- rewrite Hd. apply swap_drop; lia.
  Qed.

  (* percolateDown *)
  Definition down_inv (n i : nat) (els : list T) : Prop :=
    ordered n (fun j => par j <> i) els /\
    (forall j x y, 0 < i -> 0 < j -> j < n -> par j = i ->
        els !! par i = Some x -> els !! j = Some y -> le x y).

  Lemma percolate_down_ok n fuel : forall els i,
    n < fuel + i -> (i < n \/ i = 0) -> n <= length els -> down_inv n i els ->
    exists els' i', percolate_down comp fuel els i n = Ok (els', i') /\
      length els' = length els /\ heap n els' /\ take n els' ≡ₚ take n els /\
      drop n els' = drop n els.
  Proof.
    induction fuel as [|fuel IH]; intros els i Hf Hi Hlen [Hord Hgp]; [lia|].
    cbn [percolate_down].
    destruct (decide (n <= 2 * i + 1)) as [Hbig|Hsmall].
    - exists els, i. split_and!; try done.
      intros j x y Hj Hjn _ Hx Hy. apply (Hord j); try done. unfold par. lia.
    - set (j1 := 2 * i + 1) in *. set (j2 := j1 + 1) in *.
      assert (Hin : i < n) by lia.
      destruct (lookup_lt_is_Some_2 els i) as [y Hy]; [lia|].
      destruct (lookup_lt_is_Some_2 els j1) as [b Hb]; [lia|].
      assert (exists j x, (if decide (j2 < n) then
                     let! a := deref (els !! j2) in
                     let! b := deref (els !! j1) in
                     Ok (if (comp a b <? 0)%Z then j2 else j1)
                   else Ok j1) = Ok j /\ els !! j = Some x /\ 0 < j /\ j < n /\ par j = i /\
                (forall k z, 0 < k -> k < n -> par k = i -> els !! k = Some z -> le x z))
        as (j & x & -> & Hx & Hj0 & Hjn & Hpj & Hmin).
      { destruct (decide (j2 < n)) as [H2|H2].
        - destruct (lookup_lt_is_Some_2 els j2) as [a Ha]; [lia|].
          rewrite Ha, Hb. cbn [deref rbind].
          destruct (comp a b <? 0)%Z eqn:Hcmp.
          + exists j2, a. split_and!; try done; try (unfold par; lia).
            intros k z Hk0 Hk Hpk Hz.
            assert (k = j1 \/ k = j2) as [->| ->] by (unfold par in Hpk; lia).
            * simplify_eq. lia.
            * simplify_eq. apply le_refl'.
          + exists j1, b. split_and!; try done; try (unfold par; lia).
            intros k z Hk0 Hk Hpk Hz.
            assert (k = j1 \/ k = j2) as [->| ->] by (unfold par in Hpk; lia).
            * simplify_eq. apply le_refl'.
            * simplify_eq. apply (cmp_le_ge comp Hc). lia.
        - exists j1, b. split_and!; try done; try (unfold par; lia).
          intros k z Hk0 Hk Hpk Hz.
          assert (k = j1) as -> by (unfold par in Hpk; lia).
          simplify_eq. apply le_refl'. }
      cbn [rbind]. rewrite Hx, Hy. cbn [deref rbind].
      destruct (0 <=? comp x y)%Z eqn:Hcmp.
      + exists els, i. split_and!; try done.
        intros k u v Hk Hkn _ Hu Hv. destruct (decide (par k = i)) as [Hpk|].
        * rewrite Hpk in Hu. simplify_eq.
          apply le_trans' with x; [apply (cmp_le_ge comp Hc); lia|]. by apply (Hmin k).
        * by apply (Hord k).
      + assert (Hxy : le x y) by lia.
        assert (Hij : i < j) by (unfold par in Hpj; lia).
        assert (Lj : <[j:=y]> (<[i:=x]> els) !! j = Some y).
        { apply list_lookup_insert. rewrite insert_length. lia. }
        assert (Li : <[j:=y]> (<[i:=x]> els) !! i = Some x).
        { rewrite list_lookup_insert_ne by lia. apply list_lookup_insert. lia. }
        assert (Lo : forall k, k <> j -> k <> i -> <[j:=y]> (<[i:=x]> els) !! k = els !! k).
        { intros k ??. by rewrite !list_lookup_insert_ne by lia. }
        edestruct (IH (<[j:=y]> (<[i:=x]> els)) j) as (els' & i' & Hrun & Hl & Hh & Hp & Hd).
        * lia.
        * lia.
        * by rewrite !insert_length.
        * split.
          -- intros k u v Hk Hkn Hpk Hu Hv.
             destruct (decide (par k = i)) as [Eki|].
             { rewrite Eki, Li in Hu. injection Hu as <-.
               destruct (decide (k = j)) as [->|].
               - rewrite Lj in Hv. injection Hv as <-. done.
               - assert (k <> i) by (unfold par in Eki; lia). rewrite Lo in Hv by done.
                 by apply (Hmin k). }
             assert (k <> j) by congruence.
             rewrite (Lo (par k)) in Hu by done.
             destruct (decide (k = i)) as [->|].
             { rewrite Li in Hv. injection Hv as <-. apply (Hgp j); try done; lia. }
             rewrite Lo in Hv by done. by apply (Hord k).
          -- intros k u v Hj0' Hk Hkn Hpk Hu Hv.
             rewrite Hpj, Li in Hu. injection Hu as <-.
             assert (k <> j) by (unfold par in Hpk; lia).
             assert (k <> i) by (unfold par in Hpk; lia).
             rewrite Lo in Hv by done.
             apply (Hord k); try done; try congruence; try lia.
        * exists els', i'. split_and!; [done| | done | |].
          -- by rewrite Hl, !insert_length.
          -- rewrite Hp. by apply swap_take_perm; [lia|lia| |].
          -- rewrite Hd. apply swap_drop; lia.
  Qed.

  (* queue invariant *)
  Definition q_inv (q : queue T) : Prop :=
    qsize q <= length (elements q) /\ heap (qsize q) (elements q).
  Definition q_bag (q : queue T) : list T := take (qsize q) (elements q).

  Lemma heap_root_least n els x :
    heap n els -> n <= length els -> els !! 0 = Some x -> forall j y, j < n -> els !! j = Some y -> le x y.
  Proof.
    intros Hh Hlen Hx j. induction (lt_wf j) as [j _ IH]. intros y Hj Hy.
    destruct (decide (j = 0)) as [->|]; [simplify_eq; apply le_refl'|].
    destruct (lookup_lt_is_Some_2 els (par j)) as [z Hz]; [unfold par; lia|].
    apply le_trans' with z.
    - apply (IH (par j)); try done; unfold par; lia.
    - apply (Hh j); try done; lia.
  Qed.

  Lemma q_new_ok z sizes : exists q, q_new zero (z :: sizes) = Ok q /\ q_inv q /\ q_bag q = [].
  Proof. eexists. split; [done|]. split; [split; [simpl; lia|]|done]. intros j; simpl; lia. Qed.

  Lemma q_push_ok q v : q_inv q ->
    exists q', q_push comp q v = Ok (true, q') /\ q_inv q' /\ qsize q' = qsize q + 1 /\
               q_bag q' ≡ₚ v :: q_bag q.
  Proof.
    intros [Hs Hh]. unfold q_push.
    set (els := if decide (length (elements q) <= qsize q) then _ else _).
    assert (Hlen : qsize q + 1 <= length els).
    { unfold els. case_decide; rewrite ?app_length, ?insert_length; simpl; lia. }
    assert (Hlt : forall j, j < qsize q -> els !! j = elements q !! j).
    { intros j Hj. unfold els. case_decide.
      - rewrite lookup_app_l by lia. done.
      - rewrite list_lookup_insert_ne by lia. done. }
    assert (Heq : els !! qsize q = Some v).
    { unfold els. case_decide.
      - rewrite lookup_app_r by lia. replace (qsize q - _) with 0 by lia. done.
      - rewrite list_lookup_insert by lia. done. }
    edestruct (percolate_up_ok (qsize q + 1) (S (qsize q + 1)) els (qsize q + 1 - 1))
      as (els' & -> & Hl & Hh' & Hp & Hd); try lia.
    { split.
      - intros j x y Hj Hjn Hne Hx Hy. rewrite Hlt in Hx, Hy by (unfold par; lia).
        apply (Hh j); try done; lia.
      - intros j x y _ Hj Hjn Hpj. unfold par in Hpj. lia. }
    cbn [rbind]. eexists. split; [done|]. split; [split; simpl; [lia|done]|].
    split; [done|]. unfold q_bag; simpl. rewrite Hp.
    replace (qsize q + 1) with (S (qsize q)) by lia.
    rewrite (take_S_r _ _ v) by done.
    rewrite Permutation_app_comm. simpl. f_equiv.
    replace (take (qsize q) els) with (take (qsize q) (elements q)); [done|].
    apply list_eq. intros k. destruct (decide (k < qsize q)).
    - rewrite !lookup_take by done. by rewrite Hlt.
    - by rewrite !lookup_take_ge by lia.
  Qed.

  Lemma q_pop_empty q : q_inv q -> q_bag q = [] -> q_pop zero comp q = Ok (zero, false, q).
  Proof.
    intros [Hs _] Hb. unfold q_pop. rewrite decide_True; [done|].
    apply (f_equal length) in Hb. unfold q_bag in Hb. rewrite take_length in Hb. simpl in Hb. lia.
  Qed.

  Lemma q_peek_empty q : q_inv q -> q_bag q = [] -> q_peek zero q = Ok (zero, false).
  Proof.
    intros [Hs _] Hb. unfold q_peek. rewrite decide_False; [done|].
    apply (f_equal length) in Hb. unfold q_bag in Hb. rewrite take_length in Hb. simpl in Hb. lia.
  Qed.

  Lemma q_peek_ok q : q_inv q -> q_bag q <> [] ->
    exists v, q_peek zero q = Ok (v, true) /\ elements q !! 0 = Some v /\
              v ∈ q_bag q /\ least comp v (q_bag q).
  Proof.
    intros [Hs Hh] Hb. unfold q_peek.
    assert (0 < qsize q) by (unfold q_bag in Hb; destruct (qsize q); [done|lia]).
    rewrite decide_True by done.
    destruct (lookup_lt_is_Some_2 (elements q) 0) as [v Hv]; [lia|].
    rewrite Hv. exists v. split_and!; try done.
    - apply elem_of_list_lookup. exists 0. unfold q_bag. by rewrite lookup_take.
    - intros y Hy. apply elem_of_list_lookup in Hy as [k Hk]. unfold q_bag in Hk.
      apply lookup_take_Some in Hk as [Hk Hlt].
      eapply (heap_root_least (qsize q)); eauto.
  Qed.

  Lemma q_pop_ok q : q_inv q -> q_bag q <> [] ->
    exists v q', q_pop zero comp q = Ok (v, true, q') /\ q_inv q' /\ qsize q = S (qsize q') /\
      elements q !! 0 = Some v /\ q_bag q ≡ₚ v :: q_bag q' /\ least comp v (q_bag q).
  Proof.
    intros Hinv Hb. destruct (q_peek_ok q Hinv Hb) as (v & _ & Hv & Hin & Hleast).
    destruct Hinv as [Hs Hh].
    assert (Hpos : 0 < qsize q) by (unfold q_bag in Hb; destruct (qsize q); [done|lia]).
    unfold q_pop. rewrite decide_False by lia.
    set (n := qsize q - 1) in *.
    destruct (lookup_lt_is_Some_2 (elements q) n) as [a Ha]; [lia|].
    rewrite Ha, Hv. cbn [deref rbind].
    set (els := <[n:=v]> (<[0:=a]> (elements q))).
    assert (Hperm : take (S n) els ≡ₚ take (S n) (elements q)).
    { destruct (decide (n = 0)) as [E|E].
      - unfold els. rewrite E in *. simplify_eq. rewrite list_insert_insert.
        rewrite list_insert_id by done. done.
      - apply swap_take_perm; [lia|lia| done| done]. }
    assert (Hln : els !! n = Some v).
    { apply list_lookup_insert. rewrite insert_length. lia. }
    edestruct (percolate_down_ok n (S n) els 0) as (els' & i' & -> & Hl & Hh' & Hp & Hd); try lia.
    { unfold els. rewrite !insert_length. lia. }
    { split.
      - intros j x y Hj Hjn Hpj Hx Hy. unfold els in Hx, Hy.
        rewrite (list_lookup_insert_ne _ n) in Hx by (unfold par; lia).
        rewrite list_lookup_insert_ne in Hx by (unfold par in *; lia).
        rewrite !list_lookup_insert_ne in Hy by lia.
        apply (Hh j); try done; lia.
      - lia. }
    cbn [rbind fst].
    assert (Hn' : els' !! n = Some v).
    { rewrite <- (Nat.add_0_r n), <- lookup_drop, Hd, lookup_drop, Nat.add_0_r. done. }
    unfold n in Hn' at 1. fold n in Hn'. rewrite Hn'. cbn [deref rbind].
    eexists _, _. split; [done|]. split_and!.
    - split; simpl; [|done]. rewrite Hl. unfold els. rewrite !insert_length. lia.
    - simpl. lia.
    - done.
    - unfold q_bag at 1. replace (qsize q) with (S n) by lia. rewrite <- Hperm.
      rewrite (take_S_r _ _ v) by done. rewrite Permutation_app_comm. simpl. f_equiv.
      unfold q_bag; simpl. fold n. by rewrite Hp.
    - done.
  Qed.

  Lemma bag_step_perm b1 b2 o r b' : b1 ≡ₚ b2 -> bag_step zero comp b1 o r b' ->
    exists b'', bag_step zero comp b2 o r b'' /\ b' ≡ₚ b''.
  Proof.
    intros Hp Hs. inversion Hs; subst.
    - exists (v :: b2). split; [constructor|by rewrite Hp].
    - apply Permutation_nil_l in Hp as <-. eexists; split; [constructor|done].
    - exists b'. split; [|done]. constructor; [by rewrite <- Hp|].
      intros y Hy. apply H0. by rewrite Hp.
    - apply Permutation_nil_l in Hp as <-. eexists; split; [constructor|done].
    - exists b2. split; [|done]. constructor; [by rewrite <- Hp|].
      intros y Hy. apply H0. by rewrite Hp.
    - exists b2. split; [|done]. rewrite Hp. constructor.
  Qed.

  Lemma q_step_ok q o : q_inv q ->
    exists r q' b', q_step zero comp q o = Ok (r, q') /\ q_inv q' /\
       bag_step zero comp (q_bag q) o r b' /\ b' ≡ₚ q_bag q'.
  Proof.
    intros Hinv. destruct o as [v| | |]; cbn [q_step].
    - destruct (q_push_ok q v Hinv) as (q' & -> & ? & _ & Hp).
      eexists _, q', _. split_and!; [done|done|constructor|by rewrite Hp].
    - destruct (decide (q_bag q = [])) as [E|E].
      + rewrite q_pop_empty by done. eexists _, q, _. split_and!; [done|done| |].
        * rewrite E. constructor.
        * by rewrite E.
      + destruct (q_pop_ok q Hinv E) as (v & q' & -> & ? & _ & _ & Hp & Hl).
        eexists _, q', _. split_and!; [done|done| |done]. by constructor.
    - destruct (decide (q_bag q = [])) as [E|E].
      + rewrite q_peek_empty by done. eexists _, q, _. split_and!; [done|done| |].
        * rewrite E. constructor.
        * by rewrite E.
      + destruct (q_peek_ok q Hinv E) as (v & -> & _ & Hin & Hl).
        eexists _, q, _. split_and!; [done|done| |done]. by constructor.
    - eexists _, q, _. split_and!; [done|done| |done].
      unfold q_len. replace (qsize q) with (length (q_bag q)).
      + constructor.
      + unfold q_bag. rewrite take_length. destruct Hinv. lia.
  Qed.

  Lemma q_run_ok os : forall q b, q_inv q -> q_bag q ≡ₚ b ->
    exists rs q' b', q_run zero comp q os = Ok (rs, q') /\ q_inv q' /\
       bag_run zero comp b os rs b' /\ q_bag q' ≡ₚ b'.
  Proof.
    induction os as [|o os IH]; intros q b Hinv Hb.
    - eexists _, q, b. split_and!; [done|done|constructor|done].
    - destruct (q_step_ok q o Hinv) as (r & q1 & b1 & Hstep & Hinv1 & Hbs & Hp).
      destruct (bag_step_perm _ _ _ _ _ Hb Hbs) as (b1' & Hbs' & Hp').
      destruct (IH q1 b1' Hinv1) as (rs & q2 & b2 & Hrun & ? & Hbr & ?).
      { rewrite <- Hp'. by symmetry. }
      cbn [q_run]. rewrite Hstep. cbn [rbind snd]. rewrite Hrun. cbn [rbind fst snd].
      eexists _, _, b2. split_and!; [done|done| |done]. by econstructor.
  Qed.

  Lemma q_history z sizes os :
    exists q0 rs q b, q_new zero (z :: sizes) = Ok q0 /\ q_run zero comp q0 os = Ok (rs, q) /\
      bag_run zero comp [] os rs b /\ q_len q = Z.of_nat (length b).
  Proof.
    destruct (q_new_ok z sizes) as (q0 & Hnew & Hinv & Hb).
    destruct (q_run_ok os q0 [] Hinv) as (rs & q & b & Hrun & Hi & Hbr & Hp).
    { by rewrite Hb. }
    exists q0, rs, q, b. split_and!; try done.
    unfold q_len. f_equal. rewrite <- Hp. unfold q_bag. rewrite take_length. destruct Hi. lia.
  Qed.

  (* Peek announces the next Pop, in every reachable state *)
  Lemma q_peek_pop z sizes os q0 rs q v :
    q_new zero (z :: sizes) = Ok q0 -> q_run zero comp q0 os = Ok (rs, q) ->
    q_peek zero q = Ok (v, true) -> exists q', q_pop zero comp q = Ok (v, true, q').
  Proof.
    intros Hnew Hrun Hpeek.
    destruct (q_new_ok z sizes) as (q0' & Hnew' & Hinv & Hb).
    rewrite Hnew in Hnew'. injection Hnew' as <-.
    destruct (q_run_ok os q0 [] Hinv) as (rs' & q'' & b & Hrun' & Hi & _); [by rewrite Hb|].
    rewrite Hrun in Hrun'. injection Hrun' as <- <-.
    destruct (decide (q_bag q = [])) as [E|E].
    { rewrite q_peek_empty in Hpeek by done. done. }
    destruct (q_peek_ok q Hi E) as (v' & Hpk & Hz & _).
    rewrite Hpeek in Hpk. injection Hpk as <-.
    destruct (q_pop_ok q Hi E) as (v'' & q' & -> & _ & _ & Hz' & _).
    rewrite Hz in Hz'. injection Hz' as <-.
    by exists q'.
  Qed.

  (* draining *)
  Lemma drain_ok n : forall q, q_inv q -> qsize q = n ->
    exists rs vs q', q_run zero comp q (replicate n Pop) = Ok (rs, q') /\ q_inv q' /\ qsize q' = 0 /\
      rs = (fun v => OVal v true) <$> vs /\ vs ≡ₚ q_bag q /\
      StronglySorted (fun a b => le a b) vs.
  Proof.
    induction n as [|n IH]; intros q Hinv Hn.
    - exists [], [], q. split_and!; try done.
      + unfold q_bag. by rewrite Hn.
      + constructor.
    - assert (Hne : q_bag q <> []).
      { intros E. apply (f_equal length) in E. unfold q_bag in E. rewrite take_length in E.
        simpl in E. destruct Hinv. lia. }
      destruct (q_pop_ok q Hinv Hne) as (v & q1 & Hpop & Hinv1 & Hsz & _ & Hp & Hl).
      destruct (IH q1 Hinv1) as (rs & vs & q' & Hrun & ? & ? & -> & Hpv & Hss); [lia|].
      cbn [replicate q_run q_step]. rewrite Hpop. cbn [rbind fst snd]. rewrite Hrun.
      cbn [rbind fst snd].
      eexists _, (v :: vs), q'. split_and!; try done.
      + by rewrite Hp, Hpv.
      + constructor; [done|]. apply Forall_forall. intros y Hy. apply Hl.
        rewrite Hp. right. by rewrite <- Hpv.
  Qed.

  Lemma q_push_all_ok vs : forall q, q_inv q ->
    exists q', q_push_all comp q vs = Ok q' /\ q_inv q' /\ qsize q' = qsize q + length vs /\
       q_bag q' ≡ₚ vs ++ q_bag q.
  Proof.
    induction vs as [|v vs IH]; intros q Hinv; cbn [q_push_all].
    - exists q. split_and!; [done|done|simpl; lia|done].
    - destruct (q_push_ok q v Hinv) as (q1 & -> & Hinv1 & Hs1 & Hp1). cbn [rbind snd].
      destruct (IH q1 Hinv1) as (q' & -> & ? & Hs & Hp).
      exists q'. split_and!; [done|done|simpl; lia|].
      rewrite Hp, Hp1. simpl. by rewrite Permutation_middle.
  Qed.

  Lemma q_heapsort z sizes vs :
    exists q0 q q' ws,
      q_new zero (z :: sizes) = Ok q0 /\ q_push_all comp q0 vs = Ok q /\
      q_run zero comp q (replicate (length vs) Pop) = Ok ((fun v => OVal v true) <$> ws, q') /\
      ws ≡ₚ vs /\ StronglySorted (fun a b => le a b) ws /\
      q_pop zero comp q' = Ok (zero, false, q').
  Proof.
    destruct (q_new_ok z sizes) as (q0 & Hnew & Hinv & Hb).
    destruct (q_push_all_ok vs q0 Hinv) as (q & Hpush & Hi & Hs & Hp).
    assert (qsize q0 = 0) by (unfold q_new, q_init in Hnew; simpl in Hnew; injection Hnew as <-; done).
    destruct (drain_ok (length vs) q Hi) as (rs & ws & q' & Hrun & Hi' & Hs' & -> & Hpw & Hss); [lia|].
    exists q0, q, q', ws. split_and!; try done.
    - rewrite Hpw, Hp, Hb. by rewrite app_nil_r.
    - unfold q_pop. by rewrite decide_True.
  Qed.

  (* constructor *)
  Lemma q_new_panics_iff sizes : q_new zero sizes = Panic <-> sizes = [].
  Proof.
    split.
    - destruct sizes; [done|]. by intros.
    - by intros ->.
  Qed.
  Lemma q_of_with_panics vs : q_of_with zero comp vs = Panic.
  Proof. done. Qed.
  Lemma q_new_size_irrelevant z1 s1 z2 s2 : q_new zero (z1 :: s1) = q_new zero (z2 :: s2).
  Proof. done. Qed.
End proofs.
