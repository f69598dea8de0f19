(** Proofs for C75: a tree whose root has no key left; all histories. *)
From Verif Require Import Base BPlus_Model BPlus_Spec BPlus_Proofs BPlus_Proofs2 BPlus_Proofs3 BPlus_Proofs4 BPlus_Proofs5 BPlus_Proofs6 BPlus_Proofs7 BPlus_Proofs8 BPlus_Proofs9 BPlus_Proofs10 BPlus_Proofs11 BPlus_Proofs12.
From Verif Require Import PanicComp_Model PanicComp_Spec PanicComp_Proofs PanicCompBP_Model PanicCompBP_Spec PanicCompBP_Proofs PanicCompBP_Proofs2 PanicCompBP_Proofs3 PanicCompBP_Proofs4 PanicCompBP_Proofs5 PanicCompBP_Proofs6.

Section hollow0.
  Context {K V : Type}.
  Implicit Types (t : @tree K V) (w : list (@item K V)) (h : nat -> @node K V).
  Notation child := (nat * list nat * list (@item K V))%type.

  Lemma hollow_fuel t d w : tree_hollow t d w -> S d < S (brk t).
  Proof.
    intros (r & y & nx & vs & cs & fp & Er & Hr & Lv & Lc & R & Hn & ND & Hb & Hsz).
    pose proof (reads_depth _ _ _ _ _ _ R). pose proof (PanicCompBP_Proofs3.NoDup_le _ _ ND Hb). simpl in *. lia.
  Qed.
  Lemma hollow_reading t d w : tree_hollow t d w -> reading t = w.
  Proof.
    intros T. pose proof (hollow_fuel _ _ _ T) as Hf. destruct T as (r & y & nx & vs & cs & fp & Er & Hr & Lv & Lc & R & Hn & ND & Hb & Hsz).
    unfold reading. rewrite Er. cbn [walk]. rewrite Hr. cbn [leaf num kids vals take fmap list_fmap weave].
    eapply walk_ok; [done|lia].
  Qed.

End hollow0.

Section hollow.
  Context {K V : Type} (kzero : K) (vzero : V) (comp : K -> K -> Z).
  Implicit Types (t : @tree K V) (w : list (@item K V)) (h : nat -> @node K V).
  Notation child := (nat * list nat * list (@item K V))%type.

  (** lookups *)
  Lemma found_entry_hollow k t d w : tree_hollow t d w ->
    exists o, found_entry comp k t = Ok o
      /\ contains_key comp k t = Ok (bool_decide (is_Some o))
      /\ (forall e, o = Some e -> comp k e.1 = 0%Z /\ e ∈ entries w).
  Proof.
    intros T. pose proof (hollow_fuel _ _ _ T) as Hf. destruct T as (r & y & nx & vs & cs & fp & Er & Hr & Lv & Lc & R & Hn & ND & Hb & Hs).
    unfold found_entry, contains_key, search. destruct (Z.eqb_spec (size t) 0) as [Z0|Z0].
    - cbn [rbind]. exists None. rewrite bool_decide_false by by intros [? ?]. splits; done.
    - rewrite Er. destruct (search_loop_ok comp k (hp t) _ _ _ _ _ (brk t) R ltac:(lia)) as (nd & idx & ex & E & H1 & H2).
      assert (E' : search_loop comp (S (brk t)) (Some r) k (hp t) = Ok (Some nd, Z.of_nat idx, ex)).
      { rewrite <- E. cbn [search_loop deref rbind]. rewrite Hr. cbn [leaf num kids vals bsearch]. rewrite decide_False by lia. done. }
      rewrite E'. cbn [rbind]. destruct ex.
      + destruct (H1 eq_refl) as (e & A1 & A2 & A3). cbn [deref rbind]. rewrite Nat2Z.id, A1. cbn [rbind].
        exists (Some e). rewrite bool_decide_true by by eexists. splits; try done. by intros e' [= <-].
      + exists None. rewrite bool_decide_false by by intros [? ?]. splits; done.
  Qed.

  (** putting the child back under the root *)
  Lemma hollow_again t t' d' w' r y nx vs cs fp fp' :
    root t = Some r -> hp t r = Node nx vs (Some y :: cs) 0 false -> length vs = 2 * degree t - 1 -> S (length cs) = 2 * degree t ->
    Forall (fun l => l < brk t) (r :: fp) -> r ∉ fp ->
    reads (degree t) (hp t') d' y fp' w' -> NoDup fp' -> (forall x, x ∈ fp' -> x ∈ fp \/ brk t <= x < brk t') ->
    hp t' r = hp t r -> degree t - 1 <= num (hp t' y) -> brk t <= brk t' -> degree t' = degree t -> root t' = root t ->
    (Z.of_nat (length (entries w')) <= size t')%Z -> tree_hollow t' d' w'.
  Proof.
    intros Er Hr Lv Lc Hb Hrf R ND Hin Hr' Hn Hbk Hd Hrt Hsz. apply Forall_cons in Hb as [Hb1 Hb2]. rewrite Forall_forall in Hb2.
    exists r, y, nx, vs, cs, fp'. rewrite Hd, Hrt, Hr'. splits; try done.
    - apply NoDup_cons. split; [|done]. intros H. destruct (Hin r H); [done|lia].
    - apply Forall_cons. split; [lia|]. apply Forall_forall. intros x Hx. destruct (Hin x Hx) as [H|H]; [specialize (Hb2 x H)|]; lia.
  Qed.

  (** deletion *)
  Lemma delete_hollow t d w k : 2 <= degree t -> tree_hollow t d w ->
    delete comp (root t) k t = Panic
    \/ exists t' r w', delete comp (root t) k t = Ok (t', Some r)
       /\ tree_hollow (set_root (Some r) t') d w' /\ degree t' = degree t
       /\ del_effect comp d k (entries w) (entries w') (size t) (size t').
  Proof.
    intros HM T. pose proof (hollow_fuel _ _ _ T) as Hf. destruct T as (r & y & nx & vs & cs & fp & Er & Hr & Lv & Lc & R & Hn & ND & Hb & Hs).
    unfold delete. rewrite Er. cbn [deref rbind]. rewrite Hr. cbn [num]. rewrite decide_False by lia.
    cbn [delete_non_one]. rewrite Hr. cbn [num vals up_pos rbind leaf kids]. rewrite decide_False by lia. rewrite decide_False by lia.
    cbn [aget lookup list_lookup deref rbind]. pose proof ND as ND0. apply NoDup_cons in ND as [Hrf ND].
    destruct (decide (num (hp t y) = degree t - 1)) as [Hy|Hy].
    { left. done. }
    destruct (delete_non_one_ok comp d (brk t) t y fp w k ltac:(lia) HM R ND) as [->|(t' & fp' & w' & -> & D)]; [|by left|right].
    { split; [lia|]. intros _ ?. lia. }
    destruct D as (D1 & D2 & D3 & D4 & D5 & D6 & D7 & D8 & D9). cbn [rbind].
    exists t', r, w'. splits; try done.
    apply (hollow_again t (set_root (Some r) t') d w' r y nx vs cs fp fp'); try done.
    - intros x Hx. left. by apply D3.
    - cbn. by apply D4.
    - cbn. lia.
    - cbn. lia.
    - cbn. by eapply del_effect_le.
  Qed.
  Lemma delete_c_hollow t d w k n t' : 2 <= degree t -> tree_hollow t d w -> delete_c comp (root t) k t n = Crash t' ->
    same_meta t t' /\ exists w', (entries w' = entries w \/ overwrite (entries w) (entries w')) /\ tree_hollow t' d w'.
  Proof.
    intros HM T HC. split; [exact (ab_meta_delete comp _ _ t t (sm_refl t) _ _ HC)|].
    pose proof (hollow_fuel _ _ _ T) as Hf. pose proof T as T0. destruct T as (r & y & nx & vs & cs & fp & Er & Hr & Lv & Lc & R & Hn & ND & Hb & Hs).
    unfold delete_c in HC. rewrite Er in HC. unfold cbnd at 1 in HC. cbn [cl deref] in HC. rewrite Hr in HC. cbn [num] in HC. rewrite decide_False in HC by lia.
    apply bind_crash in HC as [HC|(? & ? & _ & HC)]; [|discriminate].
    cbn [delete_non_one_c] in HC. rewrite Hr in HC. cbn [num vals up_pos_c leaf kids] in HC.
    unfold cbnd at 1 in HC. cbn [cret] in HC. unfold cbnd at 1 in HC. cbn [cl aget lookup list_lookup deref] in HC.
    revert HC. destruct (decide (0 < 0)) as [?|_]; [lia|]. intros HC.
    do 3 (unfold cbnd at 1 in HC; cbn [cl deref] in HC).
    apply NoDup_cons in ND as [Hrf ND].
    destruct (decide (num (hp t y) = degree t - 1)) as [Hy|Hy].
    { repeat (unfold cbnd at 1 in HC; cbn [cl deref] in HC). discriminate. }
    assert (Rm : roomy t y d). { split; [lia|]. intros _ ?. lia. }
    destruct (delete_cut comp d (brk t) t y fp w k n t' ltac:(lia) HM R ND Rm HC) as (fp' & w' & D1 & D2 & D3 & D4 & D5 & D6 & D7 & D8 & D9 & D10).
    exists w'. split; [destruct D9 as [|[_ ?]]; auto|].
    apply (hollow_again t t' d w' r y nx vs cs fp fp'); try done.
    - intros x Hx. left. by apply D3.
    - by apply D4.
    - lia.
    - lia.
    - rewrite D10, (dcut_length _ _ _ D9). done.
  Qed.

  (** the single child is full and is split *)
  Lemma hollow_split t d w r y nx vs cs fp :
    2 <= degree t -> root t = Some r -> hp t r = Node nx vs (Some y :: cs) 0 false -> length vs = 2 * degree t - 1 -> S (length cs) = 2 * degree t ->
    reads (degree t) (hp t) d y fp w -> NoDup (r :: fp) -> Forall (fun l => l < brk t) (r :: fp) -> 2 * degree t - 1 = num (hp t y) ->
    exists t1 k fp1 fp2 w1 w2 J JC, split_child kzero vzero r y 0 t = Ok t1 /\ same_meta t t1 /\ brk t1 = S (brk t)
      /\ hp t1 r = Node nx (k :: J) (Some y :: Some (brk t) :: JC) 1 false
      /\ focus (degree t) (hp t1) d r nx [] [k] J [] (y, fp1, w1) [(brk t, fp2, w2)] JC
      /\ focus (degree t) (hp t1) d r nx [k] [] J [(y, fp1, w1)] (brk t, fp2, w2) [] JC
      /\ NoDup (r :: fp1 ++ fp2) /\ Forall (fun l => l < brk t1) (r :: fp1 ++ fp2)
      /\ num (hp t1 y) < 2 * degree t - 1 /\ num (hp t1 (brk t)) < 2 * degree t - 1
      /\ split_reading (degree t) w w1 w2 k.
  Proof.
    intros HM Er Hr Lv Lc R ND Hb Full. destruct vs as [|j J]; [simpl in Lv; lia|]. destruct cs as [|jc JC]; [simpl in Lc; lia|].
    apply NoDup_cons in ND as [Hrf ND]. apply Forall_cons in Hb as [Hb0 Hb].
    destruct (split_child_ok kzero vzero t r y nx [] [] j J [] [] jc JC d fp w)
      as (t1 & k & fp1 & fp2 & w1 & w2 & E4 & Mt & Eb4 & Hnd4 & R1 & R2 & Pm & Nc & Nn & Fr & Sr); try done.
    cbn [app length Nat.add] in *.
    assert (Hin : forall x, x ∈ fp1 ++ fp2 -> x ∈ fp \/ x = brk t). { intros x. rewrite Pm, elem_of_cons. tauto. }
    assert (Fo : Forall (fun c : child => degree t - 1 <= num (hp t1 c.1.1) /\ reads (degree t) (hp t1) d c.1.1 c.1.2 c.2) [(y, fp1, w1); (brk t, fp2, w2)]).
    { repeat constructor; cbn [fst snd]; try done; lia. }
    exists t1, k, fp1, fp2, w1, w2, J, JC. splits; try done.
    - apply NoDup_cons. split.
      + intros [H|H]%Hin; [done|lia].
      + rewrite Pm. apply NoDup_cons. split; [|done]. intros H. rewrite Forall_forall in Hb. specialize (Hb _ H). lia.
    - rewrite Eb4. apply Forall_forall. intros x [->|Hx]%elem_of_cons; [lia|]. rewrite Forall_forall in Hb.
      destruct (Hin x Hx) as [H| ->]; [specialize (Hb _ H)|]; lia.
    - lia.
    - lia.
  Qed.

  Definition tree_stays t (d : nat) w : Prop := tree_stands t d w \/ tree_hollow t d w.

  (** insertion that returns *)
  Lemma insert_hollow t d w p : 2 <= degree t -> tree_hollow t d w ->
    exists t' r d' w', insert kzero vzero comp (root t) p t = Ok (t', Some r)
      /\ tree_stays (set_root (Some r) t') d' w' /\ entries w' ≡ₚ p :: entries w /\ degree t' = degree t
      /\ size t' = (size t + 1)%Z.
  Proof.
    intros HM T. pose proof (hollow_fuel _ _ _ T) as Hf. destruct T as (r & y & nx & vs & cs & fp & Er & Hr & Lv & Lc & R & Hn & ND & Hb & Hs).
    unfold insert. rewrite Er, Hr. cbn [num]. rewrite decide_False by lia.
    cbn [insert_non_full]. rewrite Hr. cbn [num vals leaf kids down_pos rbind aget lookup list_lookup deref].
    pose proof (reads_lengths _ _ _ _ _ _ R) as (_ & _ & Hnm & _).
    pose proof ND as ND0. apply NoDup_cons in ND as [Hrf ND]. pose proof Hb as Hb0. apply Forall_cons in Hb as [Hb1 Hb].
    destruct (decide (2 * degree t - 1 = num (hp t y))) as [Full|NF]; cycle 1.
    - cbn [rbind]. rewrite Hr. cbn [kids aget lookup list_lookup deref rbind].
      destruct (insert_non_full_ok kzero vzero comp d (brk t) t y fp w p) as (t' & fp' & w' & E & A1 & A2 & A3 & A4 & A5 & A6 & A7 & A8 & A9 & A10); try done; try lia.
      rewrite E. cbn [rbind]. destruct A2 as (A2 & _). exists t', r, d, w'. splits; try done. right.
      apply (hollow_again t (set_root (Some r) t') d w' r y nx vs cs fp fp'); try done.
      + cbn. by apply A5.
      + cbn. lia.
      + cbn. rewrite A2, A8. simpl. lia.
    - destruct (hollow_split t d w r y nx vs cs fp HM Er Hr Lv Lc R ND0 Hb0 Full)
        as (t1 & k & fp1 & fp2 & w1 & w2 & J & JC & ES & (Ms & Md & Mr) & Eb & H1 & F1 & F2 & ND1 & Hb2 & Ny & Nz & Sr).
      rewrite ES. cbn [rbind]. rewrite H1. cbn [vals aget lookup list_lookup deref rbind kids].
      destruct (split_reading_facts comp (degree t) [] w w1 w2 k [] Sr) as (Sf1 & _ & _ & _). cbn [app] in Sf1. rewrite !app_nil_r in Sf1.
      assert (Fin : forall t' fp' w', ins_res comp p t1 t' r (S d) (r :: fp1 ++ fp2) (w1 ++ Sep k :: w2) fp' w' ->
        exists d0 w0, tree_stays (set_root (Some r) t') d0 w0 /\ entries w0 ≡ₚ p :: entries w /\ degree t' = degree t /\ size t' = (size t + 1)%Z).
      { intros t' fp' w' (A1 & (A2 & _) & A3 & A4 & A5 & A6 & A7 & A8 & A9 & A10). exists (S d), w'. rewrite Sf1 in A2. rewrite A8, A9, Ms, Md. splits; try done.
        left. exists r, fp'. cbn [root set_root hp degree size brk]. rewrite A9. splits; try done.
        - apply Forall_forall. intros x Hx. rewrite Forall_forall in Hb2. destruct (A4 x Hx) as [H|H]; [specialize (Hb2 x H)|]; lia.
        - rewrite A2, A8, Ms. simpl. lia. }
      destruct (Z.ltb_spec (comp k.1 p.1) 0) as [Lk|Lk]; rewrite H1; cbn [kids Nat.add aget lookup list_lookup deref rbind].
      + destruct (descend kzero vzero comp d (insert_non_full_ok kzero vzero comp d) (brk t) t1 r nx [k] [] J [(y, fp1, w1)] (brk t, fp2, w2) [] JC p) as (t' & fp' & w' & E & Q).
        * lia.
        * lia.
        * by rewrite Md.
        * rewrite Md. cbn. done.
        * unfold focus_fp. cbn [fmap list_fmap concat fst snd]. by rewrite !app_nil_r.
        * unfold focus_fp. cbn [fmap list_fmap concat fst snd]. by rewrite !app_nil_r.
        * intros C O. unfold focus_w, fits in *. cbn [fmap list_fmap fst snd] in *. split.
          { intros x Hx. unfold in_order in O. rewrite strong_app in O. destruct O as (O1 & _ & _).
            assert (Ew : wpre [w1] [k] = w1 ++ [Sep k]) by (unfold wpre; cbn; by rewrite app_nil_r). rewrite Ew in Hx, O1.
            enough (comp (item_key x) k.1 <= 0)%Z by (apply (cmp_trans _ C _ k.1); lia).
            apply elem_of_app in Hx as [Hx|Hx%elem_of_list_singleton].
            - rewrite strong_app in O1. destruct O1 as (_ & _ & O1). apply (O1 x (Sep k) Hx). by left.
            - subst x. cbn. rewrite cmp_refl by done. lia. }
          { intros x Hx. by apply elem_of_nil in Hx. }
        * cbn [fst] in E. rewrite E. cbn [rbind]. unfold focus_fp, focus_w in Q. cbn [fmap list_fmap concat fst snd] in Q. rewrite !app_nil_r in Q.
          destruct (Fin t' fp' w') as (d0 & w0 & G). { revert Q. assert (Ew : wpre [w1] [k] = w1 ++ [Sep k]) by (unfold wpre; cbn; by rewrite app_nil_r). rewrite Ew. unfold wpost. cbn [zip_with concat]. rewrite ?app_nil_r, <- ?app_assoc. done. }
          exists t', r, d0, w0. split; [done|exact G].
      + destruct (descend kzero vzero comp d (insert_non_full_ok kzero vzero comp d) (brk t) t1 r nx [] [k] J [] (y, fp1, w1) [(brk t, fp2, w2)] JC p) as (t' & fp' & w' & E & Q).
        * lia.
        * lia.
        * by rewrite Md.
        * rewrite Md. cbn. done.
        * unfold focus_fp. cbn [fmap list_fmap concat fst snd app]. by rewrite !app_nil_r.
        * unfold focus_fp. cbn [fmap list_fmap concat fst snd app]. by rewrite !app_nil_r.
        * intros C O. unfold focus_w, fits in *. cbn [fmap list_fmap fst snd] in *. split.
          { intros x Hx. by apply elem_of_nil in Hx. }
          { intros x Hx. unfold in_order in O. rewrite !strong_app in O. destruct O as (_ & (_ & O1 & _) & _).
            rewrite wpost_cons in Hx, O1. cbn [app] in Hx, O1.
            assert (Hk : (comp p.1 k.1 <= 0)%Z). { apply (cmp_le_ge _ C). lia. }
            apply (cmp_trans _ C _ k.1); [done|]. apply elem_of_cons in Hx as [->|Hx]; [cbn; rewrite cmp_refl by done; lia|].
            apply StronglySorted_inv in O1 as [_ O1]. rewrite Forall_forall in O1. by apply (O1 x). }
        * cbn [fst] in E. rewrite E. cbn [rbind]. unfold focus_fp, focus_w in Q. cbn [fmap list_fmap concat fst snd app] in Q. rewrite !app_nil_r in Q.
          destruct (Fin t' fp' w') as (d0 & w0 & G). { revert Q. rewrite wpost_cons. cbn [wpre wpost app]. rewrite ?app_nil_r. done. }
          exists t', r, d0, w0. split; [done|exact G].
  Qed.
End hollow.
