(** Proofs for C81, the B+ tree. *)
From stdpp Require Import functions.
From Verif Require Import Base BPlus_Model BPlus_Spec PanicComp_Model PanicCompBP_Model Nil_Spec.

Section bp.
  Context {K V : Type} (kzero : K) (vzero : V) (comp : K -> K -> Z) (compV : V -> V -> Z).
  Notation tree := (@tree K V).

  (** the tree is a single leaf with the entries [m] *)
  Definition alone (t : tree) (m : list (K * V)) : Prop :=
    exists l, root t = Some l /\ 2 <= degree t /\ size t = Z.of_nat (length m) /\ leaf (hp t l) = true /\
      num (hp t l) = length m /\ length (vals (hp t l)) = 2 * degree t - 1 /\ take (length m) (vals (hp t l)) = m.

  Lemma alone_new deg : (2 <= deg)%Z -> exists t, new_map kzero vzero deg = Ok t /\ alone t [].
  Proof.
    intros Hd. unfold new_map. replace (deg * 2 - 1 <? 0)%Z with false by (symmetry; apply Z.ltb_ge; lia).
    eexists. split; [reflexivity|]. exists 0. cbn. unfold upd. cbn. rewrite !fn_lookup_insert. cbn. rewrite replicate_length.
    splits; try done; lia.
  Qed.
  Lemma contains_nil t m k : alone t m -> contains_key_c comp k t 0 = match m with [] => Done false 0 | _ => Crash t end.
  Proof.
    intros (l & Er & Hd & Hz & Hf & Hn & Hl & Hv). unfold contains_key_c, cbnd at 1, search_c. destruct m as [|e m].
    - rewrite Hz. done.
    - rewrite Hz. replace (Z.of_nat (length (e :: m)) =? 0)%Z with false by (symmetry; apply Z.eqb_neq; cbn; lia).
      cbn [search_loop_c]. rewrite Er. unfold cbnd at 1. cbn [cl deref]. unfold cbnd at 1. cbn [bsearch_c].
      rewrite decide_True by (rewrite Hn; cbn; lia). unfold cbnd at 1. unfold aget.
      destruct (lookup_lt_is_Some_2 (vals (hp t l)) ((0 + num (hp t l) - 1) / 2)) as [x Ex]; [|by rewrite Ex].
      assert (length (e :: m) <= length (vals (hp t l))).
      { rewrite <- Hv at 1. rewrite take_length. lia. }
      rewrite Hn. cbn [length] in *. pose proof (Nat.div_le_upper_bound (0 + S (length m) - 1) 2 (length m) ltac:(lia) ltac:(lia)). lia.
  Qed.
  Lemma insert_nil t m p : alone t m -> length m <= 1 ->
    exists t', alone t' (match m with [] => [p] | _ => m end) /\
      insert_c kzero vzero comp (root t) p t 0 = match m with [] => Done (t', root t') 0 | _ => Crash t' end.
  Proof.
    intros (l & Er & Hd & Hz & Hf & Hn & Hl & Hv) Hm. unfold insert_c. rewrite Er. rewrite decide_False by (rewrite Hn; lia).
    unfold cbnd at 1. cbn [insert_non_full_c]. rewrite Hf. unfold cbnd at 1, seen_as. rewrite Hn. destruct m as [|e [|e' m]]; [..|cbn in Hm; lia].
    - cbn [leaf_shift_c length cret]. unfold cbnd at 1, aset. rewrite decide_True by lia. cbn [cl].
      set (v := <[0:=p]> (vals (hp t l))). exists (set_size (size t + 1) (upd l (fun n => set_num (num n + 1) (set_vals v n)) t)). split.
      2:{ unfold cret. cbn. by rewrite Er. }
      exists l. cbn. unfold upd. cbn. rewrite !fn_lookup_insert. cbn. rewrite Er. unfold v. rewrite insert_length.
      cbn in Hz, Hn. splits; try done; try lia.
      destruct (vals (hp t l)); [cbn in Hl; lia|]. cbn. by rewrite ?take_0.
    - cbn [leaf_shift_c length]. unfold cbnd at 1, aget.
      destruct (vals (hp t l)) as [|x v] eqn:Ev; [cbn in Hl; lia|]. cbn [lookup list_lookup deref cl].
      eexists. split; [|reflexivity]. exists l. cbn. unfold upd. cbn. rewrite !fn_lookup_insert. cbn. splits; done.
  Qed.
  Lemma step_nil t m o : alone t m -> length m <= 1 ->
    exists t', alone t' (nil_bplus vzero m o).2 /\ length (nil_bplus vzero m o).2 <= 1 /\
      do_op_c kzero vzero comp compV o t 0 = match (nil_bplus vzero m o).1 with Some r => Done (t', r) 0 | None => Crash t' end.
  Proof.
    intros H Hm.
    assert (HS : forall (t' : tree) m', alone t' m' -> alone (set_root (root t') t') m') by (intros [] m'; done).
    assert (HF : forall k, found_entry_c comp k t 0 = match m with [] => Done None 0 | _ => Crash t end).
    { intros k. pose proof (contains_nil t m k H) as E. unfold contains_key_c, found_entry_c in *. unfold cbnd at 1 in E. unfold cbnd at 1.
      destruct (search_c comp k t 0) as [[[a b] c] n|s| |]; destruct m; try done; first [by injection E as -> -> | by injection E as ->]. }
    destruct o as [k v|k v|k|k v|k]; cbn [do_op_c]; unfold bpair_c, cbnd at 1.
    - unfold insert_equal_c, cbnd at 1. destruct (insert_nil t m (k, v) H Hm) as (t' & H' & E). rewrite E.
      destruct m; cbn; eexists; (split; [|split; [|reflexivity]]); try done; try lia.
    - unfold insert_unique_c, cbnd at 1. rewrite (contains_nil t m k H). destruct m as [|e m]; [|by exists t].
      destruct (insert_nil t [] (k, v) H Hm) as (t' & H' & E). unfold cbnd at 1. rewrite E. cbn. eexists; (split; [|split; [|reflexivity]]); [by apply HS|lia].
    - unfold delete_key_c, cbnd at 1. rewrite (contains_nil t m k H). exists t. by destruct m.
    - unfold delete_by_whole_mapping_c, cbnd at 1. rewrite HF. exists t. by destruct m.
    - unfold get_verify_c, cbnd at 1. rewrite HF. exists t. by destruct m.
  Qed.
  Lemma run_nil os : forall t m, alone t m -> length m <= 1 ->
    exists t', bp_run_c kzero vzero comp compV (unanswered os) t = Ok (t', (nil_run (nil_bplus vzero) m os).1) /\
      alone t' (nil_run (nil_bplus vzero) m os).2.
  Proof.
    induction os as [|o os IH]; intros t m H Hm; [by exists t|]. cbn [nil_run]. unfold unanswered. cbn [fmap list_fmap bp_run_c].
    destruct (step_nil t m o H Hm) as (t1 & H1 & Hm1 & E). destruct (nil_bplus vzero m o) as [r m1]. cbn [fst snd] in *.
    destruct (IH t1 m1 H1 Hm1) as (t2 & E2 & H2). exists t2. destruct (nil_run (nil_bplus vzero) m1 os) as [rs m2]. cbn [fst snd] in *.
    split; [|done]. rewrite E. unfold unanswered in E2. destruct r; cbn [fst snd]; rewrite E2; done.
  Qed.
  Lemma alone_entries t m : alone t m -> entries (reading t) = m /\ size t = Z.of_nat (length m).
  Proof.
    intros (l & Er & Hd & Hz & Hf & Hn & Hl & Hv). split; [|done]. unfold reading. rewrite Er. cbn [walk]. rewrite Hf, Hn.
    rewrite Hv. clear. unfold entries. induction m as [|e m IH]; [done|]. cbn. by f_equal.
  Qed.
End bp.
