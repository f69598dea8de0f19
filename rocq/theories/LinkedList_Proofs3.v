From Verif Require Import Base Iter_Model Iter_Spec WalkSplit_Model WalkSplit_Spec WalkSplit_Proofs Split_Model
  LinkedList_Model LinkedList_Spec LinkedList_Proofs LinkedList_Proofs2.

Section refine.
  Context {T : Type} (zero : T).
  Implicit Types (m : mem T) (s : lists T).

  Ltac fn l l' := destruct (decide (l' = l)) as [->|];
    [rewrite ?fn_lookup_insert in *|rewrite ?fn_lookup_insert_ne in * by done].

  Lemma value_fresh (vs : list T) v (s : lists T) e : e < next_id s ->
    value_of zero (with_values (values s ++ v) s) e = value_of zero s e.
  Proof. intros H. unfold value_of. simpl. by rewrite lookup_app_l. Qed.

  Lemma elem_of_take_drop {A} (xs : list A) i j x : x ∈ take i (drop j xs) -> x ∈ xs.
  Proof.
    intros H. rewrite <- (take_drop j xs). apply elem_of_app. right.
    rewrite <- (take_drop i (drop j xs)). apply elem_of_app. by left.
  Qed.
  Lemma last_without e (p : list nat) : NoDup p -> last p <> Some e -> last (without e p) = last p.
  Proof.
    destruct p as [|x p _] using rev_ind; [done|]. rewrite last_snoc. intros _ H.
    unfold without. rewrite filter_app, filter_cons_True, filter_nil by naive_solver. by rewrite last_snoc.
  Qed.
  Lemma without_app e (p q : list nat) : without e (p ++ q) = without e p ++ without e q.
  Proof. apply filter_app. Qed.
  Lemma without_cons_ne e x (q : list nat) : x <> e -> without e (x :: q) = x :: without e q.
  Proof. intros H. unfold without. by rewrite filter_cons_True. Qed.

  Lemma rd_value m s e : inv m s -> value zero m (Elt e) = value_of zero s e.
  Proof. intros I. unfold value, value_of. by rewrite (I_vals _ _ I). Qed.

  (** *** PushBackList *)
  Lemma push_back_loop_ok l o : forall i m s j, inv m s -> ready s l = true ->
    j + i <= length (elems s o) ->
    exists m', push_back_loop zero i (Elt <$> elems s o !! j) l m = Ok m' /\
      inv m' (with_elems l (elems s l ++ seq (next_id s) i)
               (with_values (values s ++ (value_of zero s <$> take i (drop j (elems s o)))) s)).
  Proof.
    induction i as [|i IH]; intros m s j I Hr Hji.
    - exists m. split; [done|]. revert I. apply inv_ext; simpl; try done.
      + intros l'. fn l l'; [by rewrite app_nil_r|done].
      + by rewrite app_nil_r.
    - destruct (lookup_lt_is_Some_2 (elems s o) j ltac:(lia)) as [e He].
      rewrite He. cbn [push_back_loop fmap option_fmap option_map deref rbind]. rewrite (rd_value m s e I).
      destruct (rd_root m s l I Hr) as [_ ->].
      destruct (insert_ok m s l (value_of zero s e) (elems s l) [] I Hr) as (m1 & E1 & I1); [by rewrite app_nil_r|].
      rewrite E1. cbn [rbind]. set (s1 := with_elems _ _ _) in I1.
      assert (Ho : exists ext, elems s1 o = elems s o ++ ext).
      { unfold s1. simpl. fn l o; [eauto|]. exists []. by rewrite app_nil_r. }
      destruct Ho as [ext Ho].
      assert (He1 : elems s1 o !! j = Some e) by (rewrite Ho, lookup_app_l; [done|lia]).
      pose proof (take_drop_middle _ _ _ He1) as Es1.
      destruct (rd_elt_next m1 s1 o e (take j (elems s1 o)) (drop (S j) (elems s1 o)) I1 ltac:(by rewrite Es1)) as [-> _].
      assert (Eh : head (drop (S j) (elems s1 o)) = elems s1 o !! S j).
      { rewrite <- (Nat.add_0_r (S j)) at 2. rewrite <- lookup_drop. by destruct (drop (S j) (elems s1 o)). }
      rewrite Eh.
      destruct (IH m1 s1 (S j) I1 Hr) as (m2 & E2 & I2).
      { rewrite Ho, app_length. lia. }
      exists m2. split; [exact E2|]. revert I2. apply inv_ext; try done.
      + intros l'. cbn [elems values with_elems with_values]. fn l l'; [|unfold s1; simpl; by rewrite fn_lookup_insert_ne]. unfold next_id, s1. simpl. rewrite fn_lookup_insert, app_length. simpl.
        rewrite <- app_assoc. simpl. by rewrite Nat.add_1_r.
      + cbn [elems values with_elems with_values]. change (values s1) with (values s ++ [value_of zero s e]). rewrite <- app_assoc. f_equal. rewrite (drop_S _ _ _ He). rewrite firstn_cons, fmap_cons. apply (f_equal (cons _)). rewrite Ho, drop_app_le by lia. rewrite take_app_le by (rewrite drop_length; lia).
        apply list_fmap_ext. intros k x Hx. unfold value_of. simpl. rewrite lookup_app_l; [done|].
        apply elem_of_list_lookup_2, elem_of_take_drop in Hx.
        apply (I_alloc _ _ I x o). by left.
  Qed.

  (** *** PushFrontList: [j] counts positions from the back *)
  Lemma reverse_lookup_some {A} (xs : list A) j x : reverse xs !! j = Some x ->
    xs = take (length xs - S j) xs ++ x :: drop (length xs - j) xs /\ j < length xs.
  Proof.
    intros H. pose proof (lookup_lt_Some _ _ _ H) as L. rewrite reverse_length in L.
    rewrite reverse_lookup in H by done. split; [|done].
    pose proof (take_drop_middle _ _ _ H) as E. rewrite <- E at 1. f_equal. f_equal. f_equal. lia.
  Qed.
  Lemma push_front_loop_ok l o : forall i m s j, inv m s -> ready s l = true ->
    j + i <= length (elems s o) ->
    exists m', push_front_loop zero i (Elt <$> reverse (elems s o) !! j) l m = Ok m' /\
      inv m' (with_elems l (reverse (seq (next_id s) i) ++ elems s l)
               (with_values (values s ++ (value_of zero s <$> take i (drop j (reverse (elems s o))))) s)).
  Proof.
    induction i as [|i IH]; intros m s j I Hr Hji.
    - exists m. split; [done|]. revert I. apply inv_ext; simpl; try done.
      + intros l'. fn l l'; done.
      + by rewrite app_nil_r.
    - destruct (lookup_lt_is_Some_2 (reverse (elems s o)) j ltac:(rewrite reverse_length; lia)) as [e He].
      rewrite He. cbn [push_front_loop fmap option_fmap option_map deref rbind]. rewrite (rd_value m s e I).
      destruct (insert_ok m s l (value_of zero s e) [] (elems s l) I Hr eq_refl) as (m1 & E1 & I1).
      cbn [last fmap option_fmap option_map default from_option] in E1. simpl in E1.
      rewrite E1. cbn [rbind]. set (s1 := with_elems _ _ _) in I1.
      assert (Ho : exists ext, elems s1 o = ext ++ elems s o).
      { unfold s1. simpl. fn l o; [by exists [next_id s]|]. by exists []. }
      destruct Ho as [ext Ho].
      assert (He1 : reverse (elems s1 o) !! j = Some e).
      { rewrite Ho, reverse_app, lookup_app_l; [done|rewrite reverse_length; lia]. }
      destruct (reverse_lookup_some _ _ _ He1) as [Es1 Lj].
      destruct (rd_elt_next m1 s1 o e _ _ I1 Es1) as [_ ->].
      assert (Eh : last (take (length (elems s1 o) - S j) (elems s1 o)) = reverse (elems s1 o) !! S j).
      { destruct (decide (S j < length (elems s1 o))) as [L|L].
        - rewrite reverse_lookup by done. rewrite last_lookup, take_length, lookup_take by lia. f_equal. lia.
        - rewrite (lookup_ge_None_2 (reverse _)) by (rewrite reverse_length; lia).
          by replace (length (elems s1 o) - S j) with 0 by lia. }
      rewrite Eh.
      destruct (IH m1 s1 (S j) I1 Hr) as (m2 & E2 & I2).
      { rewrite Ho, app_length. lia. }
      exists m2. split; [exact E2|]. revert I2. apply inv_ext; try done.
      + intros l'. cbn [elems values with_elems with_values]. fn l l'; [|unfold s1; simpl; by rewrite fn_lookup_insert_ne]. unfold next_id, s1. simpl. rewrite fn_lookup_insert, app_length. simpl.
        rewrite reverse_cons, <- app_assoc. simpl. by rewrite Nat.add_1_r.
      + cbn [elems values with_elems with_values]. change (values s1) with (values s ++ [value_of zero s e]). rewrite <- app_assoc. f_equal. rewrite (drop_S _ _ _ He). rewrite firstn_cons, fmap_cons. apply (f_equal (cons _)). rewrite Ho, reverse_app, drop_app_le by (rewrite reverse_length; lia).
        rewrite take_app_le by (rewrite drop_length, reverse_length; lia).
        apply list_fmap_ext. intros k x Hx. unfold value_of. simpl. rewrite lookup_app_l; [done|].
        apply elem_of_list_lookup_2, elem_of_take_drop in Hx. rewrite elem_of_reverse in Hx.
        apply (I_alloc _ _ I x o). by left.
  Qed.

  (** *** every call *)
  Lemma refine_step m s o : inv m s -> proper s o ->
    exists s', spec_exec zero s o s' (exec zero m o).2 /\ inv (exec zero m o).1 s'.
  Proof.
    intros I Hp. unfold exec. destruct o; cbn [run spec_exec proper] in *.
    - (* Init *) eexists. split; [by split|]. by apply init_ok.
    - (* Clear *) eexists. split; [by split|]. by apply clear_ok.
    - (* Len *) exists s. split; [|done]. split; [done|]. simpl. by rewrite (I_len _ _ I).
    - (* Front *) exists s. split; [|done]. split; [done|]. simpl. unfold handle, front.
      rewrite (I_len _ _ I). destruct (ready s l) eqn:Hr.
      + destruct (rd_root m s l I Hr) as [-> _]. destruct (elems s l); [done|]. by rewrite decide_False.
      + destruct (I_unready _ _ I l Hr) as [-> _]. done.
    - (* Back *) exists s. split; [|done]. split; [done|]. simpl. unfold handle, back.
      rewrite (I_len _ _ I). destruct (ready s l) eqn:Hr.
      + destruct (rd_root m s l I Hr) as [_ ->]. destruct (elems s l) as [|x xs] eqn:E; [done|].
        rewrite decide_False by done. destruct (last (x :: xs)) eqn:E'; [done|]. by apply last_None in E'.
      + destruct (I_unready _ _ I l Hr) as [-> _]. done.
    - (* ToSlice *) exists s. unfold to_slice. destruct (ready s l) eqn:Hr.
      + rewrite (collect_ok zero m s l _ I Hr 0 (Root l) eq_refl).
        2:{ rewrite (I_vals _ _ I). pose proof (elems_bound m s l I). lia. }
        cbn [rbind]. done.
      + destruct (I_unready _ _ I l Hr) as [_ E]. cbn [collect]. unfold iter_next. by rewrite E.
    - (* Next *) exists s. split; [|done]. split; [done|]. destruct Hp as [_ Hl].
      destruct (own m e) as [l|] eqn:Eo.
      + left. exists l. assert (He : e ∈ elems s l).
        { apply (I_own _ _ I) in Eo as [|Eo]; [done|]. congruence. }
        split; [done|]. simpl. destruct (elem_split _ _ He) as (p & q & Es).
        destruct (rd_elt_next m s l e p q I Es) as [-> _]. pose proof (inv_nodup m s l I) as ND. rewrite Es in *.
        apply NoDup_app in ND as (_ & D & _). rewrite successor_split; [done|]. intros H. apply (D e H). left.
      + right. split.
        * intros l He. apply (rd_own m s e l I) in He. congruence.
        * simpl. unfold elt_next. simpl. by rewrite Eo.
    - (* Prev *) exists s. split; [|done]. split; [done|]. destruct Hp as [_ Hl].
      destruct (own m e) as [l|] eqn:Eo.
      + left. exists l. assert (He : e ∈ elems s l).
        { apply (I_own _ _ I) in Eo as [|Eo]; [done|]. congruence. }
        split; [done|]. simpl. destruct (elem_split _ _ He) as (p & q & Es).
        destruct (rd_elt_next m s l e p q I Es) as [_ ->]. pose proof (inv_nodup m s l I) as ND. rewrite Es in *.
        apply NoDup_app in ND as (_ & _ & D). apply NoDup_cons in D as [D _]. by rewrite predecessor_split.
      + right. split.
        * intros l He. apply (rd_own m s e l I) in He. congruence.
        * simpl. unfold elt_prev. simpl. by rewrite Eo.
    - (* Value *) exists s. split; [|done]. split; [done|]. simpl. f_equal. f_equal. by apply (rd_value m s e).
    - (* SetValue *) eexists. split; [by split|]. simpl. destruct I. split; simpl; try done.
      + by rewrite I_vals.
      + intros l' H'. destruct (I_ready l' H') as [C N]. split; [|done]. revert C. by apply chain_ext.
      + intros e' l' H'. rewrite insert_length. by eapply I_alloc.
    - (* PushFront *) pose proof (lazy_init_ok m s l I) as I0.
      destruct (insert_ok _ _ l v [] (elems s l) I0 ltac:(simpl; by rewrite fn_lookup_insert) eq_refl) as (m1 & E & I1).
      simpl in E. rewrite E. cbn [rbind]. eexists. split; [split; [reflexivity|done]|]. exact I1.
    - (* PushBack *) pose proof (lazy_init_ok m s l I) as I0.
      assert (Hr : ready (with_ready l true s) l = true) by (simpl; by rewrite fn_lookup_insert).
      destruct (insert_ok _ _ l v (elems s l) [] I0 Hr) as (m1 & E & I1); [simpl; by rewrite app_nil_r|].
      destruct (rd_root _ _ l I0 Hr) as [_ ->]. cbn [with_ready elems] in *. rewrite E. cbn [rbind].
      eexists. split; [split; [reflexivity|done]|]. exact I1.
    - (* InsertBefore *) destruct Hp as [_ Hl]. pose proof (rd_own_not m s mark l I Hl) as Ho.
      destruct (decide (mark ∈ elems s l)) as [H1|H1];
        [rewrite decide_True by tauto|rewrite decide_False by tauto; exists s; done].
      destruct (elem_split _ _ H1) as (p & q & Es). destruct (rd_next_split m s l mark p q I Es) as [_ ->].
      destruct (insert_ok m s l v p (mark :: q) I ltac:(by eapply inv_is_ready) Es) as (m1 & E & I1).
      rewrite E. cbn [rbind]. eexists. split; [split; [reflexivity|done]|]. simpl.
      pose proof (inv_nodup m s l I) as ND. rewrite Es in *. apply NoDup_app in ND as (_ & D & ND). apply NoDup_cons in ND as [D' _].
      rewrite put_before_split; [exact I1| |done]. intros H'. apply (D _ H'). left.
    - (* InsertAfter *) destruct Hp as [_ Hl]. pose proof (rd_own_not m s mark l I Hl) as Ho.
      destruct (decide (mark ∈ elems s l)) as [H1|H1];
        [rewrite decide_True by tauto|rewrite decide_False by tauto; exists s; done].
      destruct (elem_split _ _ H1) as (p & q & Es).
      destruct (insert_ok m s l v (p ++ [mark]) q I ltac:(by eapply inv_is_ready) ltac:(by rewrite Es, <- app_assoc)) as (m1 & E & I1).
      rewrite last_snoc in E. cbn [fmap option_fmap option_map default from_option id] in E.
      rewrite E. cbn [rbind]. eexists. split; [split; [reflexivity|done]|]. simpl.
      pose proof (inv_nodup m s l I) as ND. rewrite Es in *. apply NoDup_app in ND as (_ & D & ND). apply NoDup_cons in ND as [D' _].
      rewrite put_after_split; [exact I1| |done]. intros H'. apply (D _ H'). left.
    - (* Remove *) destruct Hp as [_ Hl]. pose proof (rd_own_not m s e l I Hl) as Ho.
      destruct (decide (e ∈ elems s l)) as [H1|H1].
      + rewrite decide_True by tauto. destruct (elem_split _ _ H1) as (p & q & Es).
        destruct (remove_ok m s l e p q I Es) as (m1 & E & V & I1). rewrite E. cbn [rbind].
        eexists. split; [split; [|reflexivity]|].
        * simpl. f_equal. f_equal. rewrite V. unfold value_of. by rewrite (I_vals _ _ I).
        * simpl. rewrite Es, without_split; [exact I1|]. rewrite <- Es. by eapply inv_nodup.
      + rewrite decide_False by tauto. exists s. split; [|done]. split; [|done]. simpl. f_equal. f_equal. by apply (rd_value m s e).
    - (* MoveToFront *) destruct Hp as [_ Hl]. pose proof (rd_own_not m s e l I Hl) as Ho.
      pose proof (inv_nodup m s l I) as ND.
      destruct (decide (e ∈ elems s l)) as [H2|H2].
      2:{ rewrite decide_True by tauto. exists s. done. }
      pose proof (inv_is_ready _ _ _ _ I H2) as Hr.
      destruct (rd_root m s l I Hr) as [E _].
      case_decide as H1.
      + exists (with_elems l (e :: without e (elems s l)) s). cbn [fst snd]. split; [by split|].
        destruct H1 as [H1|H1]; [tauto|]. rewrite E in H1. revert I. apply inv_ext; try done.
        intros l'. simpl. fn l l'; [|done].
        destruct (elems s l) as [|x xs] eqn:Es; [done|]. injection H1 as ->.
        pose proof (without_split e [] xs ND) as W. simpl app in W. by rewrite W.
      + destruct (elem_split _ _ H2) as (p & q & Es).
        destruct (move_ok m s l e p q [] (p ++ q) I Es eq_refl) as (m' & Em & I').
        cbn [last fmap option_fmap option_map default from_option] in Em. simpl in Em.
        unfold move. rewrite decide_False by done. rewrite Em. cbn [rbind].
        eexists. split; [by split|]. simpl. rewrite Es in *. rewrite without_split by done. exact I'.
    - (* MoveToBack *) destruct Hp as [_ Hl]. pose proof (rd_own_not m s e l I Hl) as Ho.
      pose proof (inv_nodup m s l I) as ND.
      destruct (decide (e ∈ elems s l)) as [H2|H2].
      2:{ rewrite decide_True by tauto. exists s. done. }
      pose proof (inv_is_ready _ _ _ _ I H2) as Hr.
      destruct (rd_root m s l I Hr) as [_ E].
      case_decide as H1.
      + exists (with_elems l (without e (elems s l) ++ [e]) s). cbn [fst snd]. split; [by split|].
        destruct H1 as [H1|H1]; [tauto|]. rewrite E in H1. revert I. apply inv_ext; try done.
        intros l'. simpl. fn l l'; [|done].
        destruct (elems s l) as [|x xs _] eqn:Es using rev_ind; [done|]. rewrite last_snoc in H1. injection H1 as ->.
        rewrite (without_split e xs [] ND). by rewrite app_nil_r.
      + destruct (elem_split _ _ H2) as (p & q & Es).
        assert (Hlast : exists x, last q = Some x).
        { destruct q as [|y q _] using rev_ind; [|rewrite last_snoc; eauto]. exfalso. apply H1. right.
          rewrite E, Es. by rewrite last_snoc. }
        destruct Hlast as [x Hx].
        assert (Ex : last (elems s l) = Some x) by (rewrite Es, last_app; destruct q; [done|]; cbn [last] in *; by rewrite Hx).
        destruct (move_ok m s l e p q (p ++ q) [] I Es ltac:(by rewrite app_nil_r)) as (m' & Em & I').
        rewrite last_app, Hx in Em. rewrite E, Ex. 
        unfold move. rewrite decide_False.
        2:{ simpl. intros [= ->]. rewrite Es in ND. apply NoDup_app in ND as (_ & _ & ND). apply NoDup_cons in ND as [ND _].
            apply ND. by apply last_Some_elem_of. }
        rewrite Em. cbn [rbind].
        eexists. split; [by split|]. simpl. rewrite Es in *. rewrite without_split by done. exact I'.
    - (* MoveBefore *) destruct Hp as (_ & _ & Hl & Hl'). pose proof (rd_own_not m s e l I Hl) as Ho.
      pose proof (rd_own_not m s mark l I Hl') as Ho'. pose proof (inv_nodup m s l I) as ND.
      destruct (decide (e ∈ elems s l /\ mark ∈ elems s l /\ e <> mark)) as [(H1 & H2 & Hne)|H2].
      2:{ rewrite decide_True. { exists s. done. } destruct (decide (e = mark)); [auto|].
          destruct (decide (e ∈ elems s l)); [|tauto]. destruct (decide (mark ∈ elems s l)); [|tauto]. naive_solver. }
      rewrite decide_False by naive_solver.
      destruct (elem_split _ _ H1) as (p & q & Es).
      destruct (elem_split _ _ H2) as (pm & qm & Em).
      assert (Epq : p ++ q = without e pm ++ mark :: without e qm).
      { rewrite <- (without_split e p q), <- Es, Em by (by rewrite <- Es). by rewrite without_app, without_cons_ne. }
      assert (NDm : NoDup pm /\ mark ∉ pm /\ mark ∉ qm).
      { rewrite Em in ND. apply NoDup_app in ND as (A & B & C). apply NoDup_cons in C as [C _]. splits; [done| |done].
        intros H. apply (B _ H). left. }
      destruct NDm as (NDm & Hm1 & Hm2).
      assert (Hm1' : mark ∉ without e pm) by (intros H; apply elem_of_list_filter in H; tauto).
      assert (Hm2' : mark ∉ without e qm) by (intros H; apply elem_of_list_filter in H; tauto).
      assert (Epm : exists m', (let! m1 := move e (prv m (Elt mark)) m in Ok (m1, RUnit)) = Ok (m', RUnit (T := T)) /\
               inv m' (with_elems l (without e pm ++ e :: mark :: without e qm) s)).
      { destruct (rd_next_split m s l mark pm qm I Em) as [_ ->].
        unfold move. case_decide as Hsame.
        - (* e is already right before mark *)
          destruct pm as [|x pm _] using rev_ind; [done|]. rewrite last_snoc in Hsame. injection Hsame as ->.
          eexists. split; [reflexivity|]. revert I. apply inv_ext; try done. intros l'. simpl. fn l l'; [|done].
          rewrite Em, <- app_assoc in ND. rewrite Em, <- app_assoc. simpl in *.
          rewrite without_split, app_nil_r by done.
          apply NoDup_app in ND as (_ & _ & ND). apply NoDup_cons in ND as [ND _].
          rewrite without_notin; [done|]. set_solver.
        - destruct (move_ok m s l e p q (without e pm) (mark :: without e qm) I Es Epq) as (m' & Ek & I').
          exists m'. split; [|done].
          rewrite last_without in Ek; [by rewrite Ek|done|]. intros E. apply Hsame. by rewrite E. }
      destruct Epm as (m' & Ek & I'). rewrite Ek. eexists. split; [by split|]. simpl.
      rewrite Em, without_app, without_cons_ne by done.
      by rewrite put_before_split.
    - (* MoveAfter *) destruct Hp as (_ & _ & Hl & Hl'). pose proof (rd_own_not m s e l I Hl) as Ho.
      pose proof (rd_own_not m s mark l I Hl') as Ho'. pose proof (inv_nodup m s l I) as ND.
      destruct (decide (e ∈ elems s l /\ mark ∈ elems s l /\ e <> mark)) as [(H1 & H2 & Hne)|H2].
      2:{ rewrite decide_True. { exists s. done. } destruct (decide (e = mark)); [auto|].
          destruct (decide (e ∈ elems s l)); [|tauto]. destruct (decide (mark ∈ elems s l)); [|tauto]. naive_solver. }
      rewrite decide_False by naive_solver.
      destruct (elem_split _ _ H1) as (p & q & Es).
      destruct (elem_split _ _ H2) as (pm & qm & Em).
      assert (Epq : p ++ q = without e pm ++ mark :: without e qm).
      { rewrite <- (without_split e p q), <- Es, Em by (by rewrite <- Es). by rewrite without_app, without_cons_ne. }
      assert (NDm : NoDup pm /\ mark ∉ pm /\ mark ∉ qm).
      { rewrite Em in ND. apply NoDup_app in ND as (A & B & C). apply NoDup_cons in C as [C _]. splits; [done| |done].
        intros H. apply (B _ H). left. }
      destruct NDm as (NDm & Hm1 & Hm2).
      assert (Hm1' : mark ∉ without e pm) by (intros H; apply elem_of_list_filter in H; tauto).
      assert (Hm2' : mark ∉ without e qm) by (intros H; apply elem_of_list_filter in H; tauto).
      unfold move. rewrite decide_False by naive_solver.
      destruct (move_ok m s l e p q (without e pm ++ [mark]) (without e qm) I Es ltac:(by rewrite <- app_assoc)) as (m' & Ek & I').
      rewrite last_snoc in Ek. cbn [fmap option_fmap option_map default from_option id] in Ek. rewrite Ek. cbn [rbind].
      eexists. split; [by split|]. simpl. rewrite Em, without_app, without_cons_ne by done.
      by rewrite put_after_split.
    - (* PushBackList *) pose proof (lazy_init_ok m s l I) as I0.
      assert (Hr : ready (with_ready l true s) l = true) by (simpl; by rewrite fn_lookup_insert).
      destruct (push_back_loop_ok l other (length (elems s other)) _ _ 0 I0 Hr ltac:(done)) as (m1 & E & I1).
      rewrite (I_len _ _ I0), Nat2Z.id.
      assert (Ef : length (elems s other) = 0 \/ front other (lazy_init l m) = Elt <$> elems s other !! 0).
      { destruct (elems s other) as [|x xs] eqn:Ex; [by left|right]. unfold front. rewrite (I_len _ _ I0).
        assert (Hro : ready (with_ready l true s) other = true).
        { eapply (inv_is_ready _ _ x other I0). simpl. rewrite Ex. left. }
        destruct (rd_root _ _ other I0 Hro) as [-> _]. cbn [with_ready elems]. rewrite Ex. by rewrite decide_False. }
      assert (E' : push_back_loop zero (length (elems s other)) (front other (lazy_init l m)) l (lazy_init l m) = Ok m1).
      { destruct Ef as [Ef|Ef]; [|rewrite Ef; exact E]. cbn [with_ready elems] in E. rewrite Ef in *. exact E. }
      cbn [with_ready elems]. rewrite E'. cbn [rbind]. eexists. split; [split; [done|reflexivity]|].
      simpl in I1. rewrite drop_0, take_ge in I1 by done. exact I1.
    - (* PushFrontList *) pose proof (lazy_init_ok m s l I) as I0.
      assert (Hr : ready (with_ready l true s) l = true) by (simpl; by rewrite fn_lookup_insert).
      destruct (push_front_loop_ok l other (length (elems s other)) _ _ 0 I0 Hr ltac:(done)) as (m1 & E & I1).
      rewrite (I_len _ _ I0), Nat2Z.id.
      assert (Ef : length (elems s other) = 0 \/ back other (lazy_init l m) = Elt <$> reverse (elems s other) !! 0).
      { destruct (elems s other) as [|x xs _] eqn:Ex using rev_ind; [by left|right]. unfold back. rewrite (I_len _ _ I0).
        assert (Hro : ready (with_ready l true s) other = true).
        { eapply (inv_is_ready _ _ x other I0). simpl. rewrite Ex. set_solver. }
        destruct (rd_root _ _ other I0 Hro) as [_ ->]. cbn [with_ready elems]. rewrite Ex.
        rewrite decide_False by (rewrite app_length; simpl; lia). by rewrite last_snoc, reverse_snoc. }
      assert (E' : push_front_loop zero (length (elems s other)) (back other (lazy_init l m)) l (lazy_init l m) = Ok m1).
      { destruct Ef as [Ef|Ef]; [|rewrite Ef; exact E]. cbn [with_ready elems] in E. rewrite Ef in *. exact E. }
      cbn [with_ready elems]. rewrite E'. cbn [rbind]. eexists. split; [split; [done|reflexivity]|].
      cbn [with_ready elems values] in I1. rewrite drop_0, take_ge in I1 by (by rewrite reverse_length).
      rewrite fmap_reverse in I1. exact I1.
  Qed.
End refine.
