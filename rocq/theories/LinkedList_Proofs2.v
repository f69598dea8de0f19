From Verif Require Import Base Iter_Model Iter_Spec LinkedList_Model LinkedList_Spec LinkedList_Proofs.

(** ** Facts about the sequence edits of the specification *)
Lemma without_notin e s : e ∉ s -> without e s = s.
Proof.
  unfold without. induction s as [|x s IH]; [done|]. intros H.
  rewrite filter_cons_True by (intros ->; apply H; left). f_equal. apply IH. intros H'. apply H. by right.
Qed.
Lemma without_split e p q : NoDup (p ++ e :: q) -> without e (p ++ e :: q) = p ++ q.
Proof.
  intros ND. apply NoDup_app in ND as (_ & D & ND). apply NoDup_cons in ND as [Hq _].
  unfold without. rewrite filter_app, filter_cons_False by tauto. fold (without e p) (without e q).
  rewrite !without_notin; [done|done|]. intros H. apply (D e H). left.
Qed.
Lemma flat_map_id (f : nat -> list nat) s : (forall x, x ∈ s -> f x = [x]) -> flat_map f s = s.
Proof. induction s as [|x s IH]; [done|]. intros H. simpl. rewrite H, IH; [done|set_solver|set_solver]. Qed.
Lemma put_before_split mark e p q : mark ∉ p -> mark ∉ q ->
  put_before mark e (p ++ mark :: q) = p ++ e :: mark :: q.
Proof.
  intros Hp Hq. unfold put_before. rewrite flat_map_app. simpl. rewrite decide_True by done. simpl.
  rewrite !flat_map_id; [done| |]; intros x Hx; by rewrite decide_False by set_solver.
Qed.
Lemma put_after_split mark e p q : mark ∉ p -> mark ∉ q ->
  put_after mark e (p ++ mark :: q) = (p ++ [mark]) ++ e :: q.
Proof.
  intros Hp Hq. unfold put_after. rewrite flat_map_app. simpl. rewrite decide_True by done. simpl.
  rewrite !flat_map_id; [by rewrite <- app_assoc| |]; intros x Hx; by rewrite decide_False by set_solver.
Qed.
Lemma successor_split e p q : e ∉ p -> successor e (p ++ e :: q) = head q.
Proof.
  induction p as [|x p IH]; intros H; simpl; [by rewrite decide_True|].
  rewrite decide_False by set_solver. apply IH. set_solver.
Qed.
Lemma predecessor_split e p q : e ∉ q -> predecessor e (p ++ e :: q) = last p.
Proof.
  intros H. unfold predecessor. rewrite reverse_app, reverse_cons, <- app_assoc. simpl.
  rewrite successor_split by (by rewrite elem_of_reverse). by rewrite head_reverse.
Qed.
Lemma elem_split (e : nat) s : e ∈ s -> exists p q, s = p ++ e :: q.
Proof. intros H. by apply elem_of_list_split in H. Qed.

Section inv.
  Context {T : Type} (zero : T).
  Implicit Types (m : mem T) (s : lists T).

  Record inv m s : Prop := {
    I_vals : vals m = values s;
    I_ready : forall l, ready s l = true -> ring m (Root l) (Elt <$> elems s l);
    I_len : forall l, len m l = Z.of_nat (length (elems s l));
    I_unready : forall l, ready s l = false -> elems s l = [] /\ nxt m (Root l) = None;
    I_own : forall e l, own m e = Some l <-> e ∈ elems s l \/ lost s e = Some l;
    I_alloc : forall e l, e ∈ elems s l \/ lost s e = Some l -> e < length (values s);
    I_lost : forall e l, e ∈ elems s l -> lost s e = None;
    I_gone : forall e, (forall l, e ∉ elems s l) -> lost s e = None -> nxt m (Elt e) = None;
  }.

  Lemma inv_init : inv mem0 lists0.
  Proof. split; simpl; try done; intros; set_solver. Qed.

  Lemma inv_ext m s s' :
    (forall l, elems s' l = elems s l) -> (forall l, ready s' l = ready s l) ->
    (forall e, lost s' e = lost s e) -> values s' = values s -> inv m s -> inv m s'.
  Proof.
    intros E1 E2 E3 E4 [? ? ? ? ? ? ? G]. split; try (intros; rewrite ?E1, ?E2, ?E3, ?E4 in *; eauto; fail).
    intros e H HL. rewrite E3 in HL. apply G; [|done]. intros l. rewrite <- E1. apply H.
  Qed.

  Lemma inv_disj m s e l l' : inv m s -> e ∈ elems s l -> e ∈ elems s l' -> l = l'.
  Proof.
    intros I H1 H2. pose proof (proj2 (I_own _ _ I e l) (or_introl H1)).
    pose proof (proj2 (I_own _ _ I e l') (or_introl H2)). congruence.
  Qed.
  Lemma inv_is_ready m s e l : inv m s -> e ∈ elems s l -> ready s l = true.
  Proof.
    intros I H. destruct (ready s l) eqn:E; [done|]. apply (I_unready _ _ I) in E as [E _].
    rewrite E in H. set_solver.
  Qed.
  Lemma inv_nodup m s l : inv m s -> NoDup (elems s l).
  Proof.
    intros I. destruct (ready s l) eqn:E.
    - apply (I_ready _ _ I) in E as [_ ND]. apply NoDup_cons in ND as [_ ND]. by apply NoDup_fmap_1 in ND.
    - apply (I_unready _ _ I) in E as [-> _]. constructor.
  Qed.

  Ltac fn l l' := destruct (decide (l' = l)) as [->|];
    [rewrite ?fn_lookup_insert in *|rewrite ?fn_lookup_insert_ne in * by done].

  Lemma root_notin l (xs : list nat) : Root l ∉ Elt <$> xs.
  Proof. intros H. apply elem_of_list_fmap in H as (? & ? & _). done. Qed.

  (** rings of lists other than [l] survive changes confined to [l]'s ring and a fresh/removed element *)
  Lemma other_ring m m' s l l' t : inv m s -> same_ptrs m m' t -> l' <> l ->
    (forall x, x ∈ t -> x = Root l \/ exists e, x = Elt e /\ (e ∈ elems s l \/ length (values s) <= e)) ->
    ready s l' = true -> ring m' (Root l') (Elt <$> elems s l').
  Proof.
    intros I F Hne Ht Hr. eapply ring_frame; [exact F| |by apply I].
    intros x Hx Hin. destruct (Ht x Hin) as [->|(e & -> & He)].
    - apply elem_of_cons in Hx as [[= ->]|Hx]; [done|]. by apply root_notin in Hx.
    - apply elem_of_cons in Hx as [[=]|Hx]. apply elem_of_list_fmap in Hx as (e' & [= <-] & Hx).
      destruct He as [He|He].
      + apply Hne. eapply inv_disj; eauto.
      + pose proof (I_alloc _ _ I e l' (or_introl Hx)). lia.
  Qed.

  (** *** Init, Clear, lazyInit *)
  Lemma init_ok m s l : inv m s -> inv (init l m) (with_ready l true (drop_all l s)).
  Proof.
    intros I. split; simpl.
    - apply I.
    - intros l'. fn l l'; [intros _; rewrite ?fn_lookup_insert|intros Hr].
      + split; simpl; [by rewrite !fn_lookup_insert|apply NoDup_singleton].
      + eapply ring_frame; [|intros x Hx Hin|by apply (I_ready _ _ I)].
        * instantiate (1 := [Root l]).
          intros r Hr'. simpl. by rewrite !fn_lookup_insert_ne by set_solver.
        * apply elem_of_list_singleton in Hin as ->. apply elem_of_cons in Hx as [[=]|Hx]; [done|].
          by apply root_notin in Hx.
    - intros l'. fn l l'; [done|]. apply I.
    - intros l'. fn l l'; [done|]. intros Hr. rewrite fn_lookup_insert_ne by naive_solver. by apply I.
    - intros e l'. rewrite (I_own _ _ I). case_decide as He.
      + rewrite (I_lost _ _ I e l He). split.
        * intros [H|[=]]. right. f_equal. eapply inv_disj; eauto.
        * intros [H|[= <-]]; [|by left]. left. fn l l'; [set_solver|done].
      + fn l l'; set_solver.
    - intros e l'. case_decide as He.
      + intros _. by apply (I_alloc _ _ I e l); left.
      + intros H. apply (I_alloc _ _ I e l'). fn l l'; set_solver.
    - intros e l'. fn l l'; [set_solver|]. intros H. case_decide as He; [|by eapply I_lost].
      exfalso. eapply n, inv_disj; eauto.
    - intros e H HL. case_decide as He; [done|]. rewrite fn_lookup_insert_ne by done. apply (I_gone _ _ I); [|done].
      intros l'. specialize (H l'). by fn l l'.
  Qed.

  Lemma clear_ok m s l : inv m s -> inv (clear l m) (with_ready l false (drop_all l s)).
  Proof.
    intros I. split; simpl.
    - apply I.
    - intros l'. fn l l'; [done|intros Hr].
      eapply ring_frame; [|intros x Hx Hin|by apply (I_ready _ _ I)].
      + instantiate (1 := [Root l]).
        intros r Hr'. simpl. by rewrite !fn_lookup_insert_ne by set_solver.
      + apply elem_of_list_singleton in Hin as ->. apply elem_of_cons in Hx as [[=]|Hx]; [done|].
        by apply root_notin in Hx.
    - intros l'. fn l l'; [done|]. apply I.
    - intros l'. fn l l'; [done|]. intros Hr. rewrite fn_lookup_insert_ne by naive_solver. by apply I.
    - intros e l'. rewrite (I_own _ _ I). case_decide as He.
      + rewrite (I_lost _ _ I e l He). split.
        * intros [H|[=]]. right. f_equal. eapply inv_disj; eauto.
        * intros [H|[= <-]]; [|by left]. left. fn l l'; [set_solver|done].
      + fn l l'; set_solver.
    - intros e l'. case_decide as He.
      + intros _. by apply (I_alloc _ _ I e l); left.
      + intros H. apply (I_alloc _ _ I e l'). fn l l'; set_solver.
    - intros e l'. fn l l'; [set_solver|]. intros H. case_decide as He; [|by eapply I_lost].
      exfalso. eapply n, inv_disj; eauto.
    - intros e H HL. case_decide as He; [done|]. rewrite fn_lookup_insert_ne by done. apply (I_gone _ _ I); [|done].
      intros l'. specialize (H l'). by fn l l'.
  Qed.

  Lemma lazy_init_ok m s l : inv m s -> inv (lazy_init l m) (with_ready l true s).
  Proof.
    intros I. unfold lazy_init. destruct (ready s l) eqn:E.
    -
      destruct (I_ready _ _ I l E) as [C _]. rewrite (chain_first _ _ _ _ C).
      revert I. apply inv_ext; try done. intros l'. simpl. by fn l l'.
    - destruct (I_unready _ _ I l E) as [E1 ->].
      apply (init_ok _ _ l) in I. revert I. apply inv_ext; simpl; try done.
      + intros l'. by fn l l'.
      + intros e. rewrite decide_False; [done|]. rewrite E1. set_solver.
  Qed.

  (** *** insertion *)
  Lemma insert_ok m s l v p q : inv m s -> ready s l = true -> elems s l = p ++ q ->
    exists m', insert_value l v (Some (default (Root l) (Elt <$> last p))) m = Ok (m', next_id s) /\
      inv m' (with_elems l (p ++ next_id s :: q) (with_values (values s ++ [v]) s)).
  Proof.
    intros I Hr Es. unfold insert_value, next_id. rewrite (I_vals _ _ I). set (h := length (values s)).
    set (m0 := set_own _ _ _).
    assert (F0 : (forall r, r ∉ [Elt h] -> nxt m0 r = nxt m r /\ prv m0 r = prv m r)).
    { intros r Hx. simpl. by rewrite !fn_lookup_insert_ne by set_solver. }
    assert (Fresh : forall l', h ∉ elems s l').
    { intros l' H. pose proof (I_alloc _ _ I h l' (or_introl H)). unfold h in *. lia. }
    assert (Fresh' : forall l', Elt h ∉ Root l' :: (Elt <$> elems s l')).
    { intros l' H. apply elem_of_cons in H as [[=]|H]. apply elem_of_list_fmap in H as (? & [= <-] & H). by eapply Fresh. }
    assert (R0 : forall l', ready s l' = true -> ring m0 (Root l') (Elt <$> elems s l')).
    { intros l' Hl. destruct (I_ready _ _ I l' Hl) as [C ND]. split; [|done].
      revert C. apply chain_ext; intros r H; apply F0; intros ->%elem_of_list_singleton; apply (Fresh' l'); set_solver. }
    pose proof (R0 l Hr) as R. rewrite Es, fmap_app in R.
    destruct (link_at m0 (Root l) (Elt <$> p) (Elt <$> q) (Elt h) R) as (m1 & E & R1 & F1).
    { rewrite <- fmap_app, <- Es. apply Fresh'. }
    rewrite fmap_last in E. cbn [fmap] in *. rewrite E. cbn [rbind]. eexists. split; [reflexivity|].
    assert (Hin : forall e, e ∈ p ++ h :: q <-> e = h \/ e ∈ elems s l).
    { intros e. rewrite Es. set_solver. }
    assert (Hlost : lost s h = None).
    { destruct (lost s h) as [l'|] eqn:E'; [|done]. pose proof (I_alloc _ _ I h l' (or_intror E')). unfold h in *; lia. }
    destruct F1 as (F1 & O1 & L1 & V1).
    split; simpl.
    - by rewrite V1.
    - intros l'. fn l l'; intros Hl.
      + rewrite fmap_app. destruct R1 as [C1 ND1]. split; [|done]. revert C1; by apply chain_ext.
      + assert (ring m1 (Root l') (Elt <$> elems s l')) as [C1 ND1].
        { eapply ring_frame; [exact F1| |by apply R0].
          rewrite <- fmap_app, <- Es. intros x Hx Hx'. apply elem_of_cons in Hx' as [->|Hx'].
          - by apply (Fresh' l').
          - apply elem_of_cons in Hx' as [->|Hx'].
            + apply elem_of_cons in Hx as [[=]|Hx]; [done|]. by apply root_notin in Hx.
            + apply elem_of_list_fmap in Hx' as (e & -> & He). apply elem_of_cons in Hx as [[=]|Hx].
              apply elem_of_list_fmap in Hx as (e' & [= <-] & He'). eapply n, inv_disj; eauto. }
        split; [|done]. revert C1; by apply chain_ext.
    - intros l'. rewrite L1. simpl. fn l l'; [|apply I]. rewrite (I_len _ _ I). rewrite Es, !app_length. simpl. lia.
    - intros l'. intros Hl. assert (l' <> l) by congruence. rewrite fn_lookup_insert_ne by done.
      destruct (I_unready _ _ I l' Hl) as [El Nl]. split; [done|].
      destruct (F1 (Root l')) as [-> _].
      { intros H'. apply elem_of_cons in H' as [[=]|H']. apply elem_of_cons in H' as [[=]|H']; [done|].
        rewrite <- fmap_app in H'. by apply root_notin in H'. }
      simpl. by rewrite fn_lookup_insert_ne.
    - intros e l'. rewrite O1. simpl. destruct (decide (e = h)) as [->|Hne].
      + rewrite fn_lookup_insert. rewrite Hlost. split.
        * intros [= <-]. left. rewrite fn_lookup_insert. set_solver.
        * intros [H|[=]]. fn l l'; [done|]. by apply Fresh in H.
      + rewrite !fn_lookup_insert_ne by done. rewrite (I_own _ _ I). fn l l'; [|done]. rewrite Hin. naive_solver.
    - intros e l' H. rewrite app_length. simpl. fold h. destruct (decide (e = h)); [lia|].
      enough (e < h) by lia. apply (I_alloc _ _ I e l'). fn l l'; [rewrite Hin in H; naive_solver|done].
    - intros e l' H. fn l l'; [|by eapply I_lost]. apply Hin in H as [->|H]; [done|]. by eapply I_lost.
    - intros e H HL. pose proof (H l) as Hl. rewrite fn_lookup_insert, Hin in Hl. assert (e <> h) by tauto.
      destruct (F1 (Elt e)) as [-> _].
      { rewrite <- fmap_app, <- Es. intros [[= ->]|[[=]|(x & [= <-] & Hx)%elem_of_list_fmap]%elem_of_cons]%elem_of_cons; tauto. }
      simpl. rewrite fn_lookup_insert_ne by congruence. apply (I_gone _ _ I); [|done].
      intros l'. specialize (H l'). fn l l'; [tauto|done].
  Qed.

  (** *** removal *)
  Lemma unlink_inv m s l e p q : inv m s -> elems s l = p ++ e :: q ->
    exists m', unlink (Elt e) m = Ok m' /\ ring m' (Root l) (Elt <$> p ++ q) /\
      framed m m' (Root l :: (Elt <$> p ++ q)).
  Proof.
    intros I Es. assert (Hr : ready s l = true) by (eapply (inv_is_ready _ _ e); [done|rewrite Es; set_solver]).
    pose proof (I_ready _ _ I l Hr) as R. rewrite Es, fmap_app in R. simpl in R.
    destruct (unlink_at _ _ _ _ _ R) as (m' & E & R' & F). exists m'. rewrite fmap_app. done.
  Qed.

  Lemma remove_ok m s l e p q : inv m s -> elems s l = p ++ e :: q ->
    exists m', remove l e m = Ok m' /\ vals m' = vals m /\ inv m' (with_elems l (p ++ q) s).
  Proof.
    intros I Es. destruct (unlink_inv m s l e p q I Es) as (m1 & E & R & F).
    unfold remove. rewrite E. cbn [rbind]. eexists. split; [reflexivity|].
    pose proof (inv_nodup _ _ l I) as ND. rewrite Es in ND.
    assert (He : e ∉ p ++ q).
    { apply NoDup_app in ND as (_ & D & ND). apply NoDup_cons in ND as [? _]. set_solver. }
    assert (Hel : e ∈ elems s l) by (rewrite Es; set_solver).
    assert (Hsub : forall x, x ∈ p ++ q <-> x ∈ elems s l /\ x <> e).
    { intros x. rewrite Es. set_solver. }
    pose proof F as (F1 & O1 & L1 & V1).
    assert (Hring : forall l', ready s l' = true -> ring m1 (Root l') (Elt <$> (<[l:=p ++ q]> (elems s) : nat -> list nat) l')).
    { intros l' Hl. fn l l'; [done|]. eapply (other_ring m m1 s l l'); eauto.
      intros x Hx. apply elem_of_cons in Hx as [->|Hx]; [by left|]. right.
      apply elem_of_list_fmap in Hx as (x' & -> & Hx). apply Hsub in Hx as [Hx _]. eauto. }
    split; [by simpl|]. split; simpl.
    - rewrite V1. apply I.
    - intros l' Hl. destruct (Hring l' Hl) as [C N]. split; [|done]. revert C.
      assert (Hn : Elt e ∉ Root l' :: (Elt <$> (<[l:=p ++ q]> (elems s) : nat -> list nat) l')).
      { intros H. apply elem_of_cons in H as [[=]|H]. apply elem_of_list_fmap in H as (x & [= <-] & H).
        fn l l'; [done|]. eapply n, inv_disj; eauto. }
      apply chain_ext; intros r H; simpl; (rewrite fn_lookup_insert_ne; [done|]); intros <-; apply Hn; set_solver.
    - intros l'. rewrite L1. fn l l'; [|apply I]. rewrite (I_len _ _ I), Es, !app_length. simpl. lia.
    - intros l' Hl. destruct (I_unready _ _ I l' Hl) as [E1 E2].
      assert (l' <> l) by (intros ->; rewrite E1 in Hel; set_solver).
      rewrite !fn_lookup_insert_ne by naive_solver. split; [done|].
      destruct (F1 (Root l')) as [-> _]; [|done].
      intros H'. apply elem_of_cons in H' as [[=]|H']; [done|]. by apply root_notin in H'.
    - intros x l'. rewrite O1. destruct (decide (x = e)) as [->|Hx].
      + rewrite fn_lookup_insert. rewrite (I_lost _ _ I e l Hel). split; [done|]. intros [H|[=]].
        fn l l'; [done|]. exfalso. eapply n, inv_disj; eauto.
      + rewrite fn_lookup_insert_ne by done. rewrite (I_own _ _ I). fn l l'; [|done]. rewrite Hsub. naive_solver.
    - intros x l' H. apply (I_alloc _ _ I x l'). fn l l'; [|done]. rewrite Hsub in H. naive_solver.
    - intros x l' H. apply (I_lost _ _ I x l'). fn l l'; [|done]. rewrite Hsub in H. naive_solver.
    - intros x H HL. destruct (decide (x = e)) as [->|Hx]; [by rewrite fn_lookup_insert|].
      rewrite fn_lookup_insert_ne by congruence.
      pose proof (H l) as Hl. rewrite fn_lookup_insert in Hl. destruct (F1 (Elt x)) as [-> _].
      { intros [[=]|(y & [= <-] & Hy)%elem_of_list_fmap]%elem_of_cons. done. }
      apply (I_gone _ _ I); [|done]. intros l'. specialize (H l'). fn l l'; [|done]. rewrite Hsub in H. tauto.
  Qed.

  (** *** moving [e] to the position between [p'] and [q'] of the rest *)
  Lemma move_ok m s l e p q p' q' : inv m s -> elems s l = p ++ e :: q -> p ++ q = p' ++ q' ->
    exists m', 
      (let! m1 := unlink (Elt e) m in link (Elt e) (Some (default (Root l) (Elt <$> last p'))) m1) = Ok m' /\
      inv m' (with_elems l (p' ++ e :: q') s).
  Proof.
    intros I Es Epq. destruct (unlink_inv m s l e p q I Es) as (m1 & E & R & F).
    rewrite E. cbn [rbind]. rewrite Epq, fmap_app in R.
    pose proof (inv_nodup _ _ l I) as ND. rewrite Es in ND.
    assert (He : e ∉ p' ++ q').
    { rewrite <- Epq. apply NoDup_app in ND as (_ & D & ND). apply NoDup_cons in ND as [? _]. set_solver. }
    assert (Hel : e ∈ elems s l) by (rewrite Es; set_solver).
    assert (Hsub : forall x, x ∈ p' ++ e :: q' <-> x ∈ elems s l).
    { intros x. rewrite Es. transitivity (x = e \/ x ∈ p' ++ q'); [set_solver|]. rewrite <- Epq. set_solver. }
    destruct (link_at m1 (Root l) (Elt <$> p') (Elt <$> q') (Elt e) R) as (m2 & E2 & R2 & F2).
    { intros H. apply elem_of_cons in H as [[=]|H]. rewrite <- fmap_app in H.
      apply elem_of_list_fmap in H as (x & [= <-] & H). done. }
    rewrite fmap_last in E2. exists m2. split; [exact E2|].
    assert (F12 : framed m m2 (Elt <$> elems s l) \/ framed m m2 (Root l :: (Elt <$> elems s l))).
    { right. destruct F as (Fa & ? & ? & ?). destruct F2 as (Fb & ? & ? & ?).
      split; [|splits; congruence]. intros r Hr.
      destruct (Fa r) as [<- <-].
      { intros H'. apply Hr. apply elem_of_cons in H' as [->|H']; [left|right].
        apply elem_of_list_fmap in H' as (x & -> & H'). apply elem_of_list_fmap. exists x. split; [done|].
        rewrite Es. set_solver. }
      apply Fb. intros H'. apply Hr. rewrite <- fmap_app in H'.
      apply elem_of_cons in H' as [->|H']; [right; by apply elem_of_list_fmap_1|].
      apply elem_of_cons in H' as [->|H']; [left|right].
      apply elem_of_list_fmap in H' as (x & -> & H'). apply elem_of_list_fmap_1. apply Hsub. set_solver. }
    assert (F' : framed m m2 (Root l :: (Elt <$> elems s l))).
    { destruct F12 as [(Fa & ?)|]; [|done]. split; [|done]. intros; apply Fa; set_solver. }
    pose proof F' as (F1 & O1 & L1 & V1).
    split; simpl.
    - rewrite V1. apply I.
    - intros l' Hl. fn l l'; [by rewrite fmap_app|]. eapply (other_ring m m2 s l l'); eauto.
      intros x Hx. apply elem_of_cons in Hx as [->|Hx]; [by left|]. right.
      apply elem_of_list_fmap in Hx as (x' & -> & Hx). eauto.
    - intros l'. rewrite L1. fn l l'; [|apply I]. rewrite (I_len _ _ I), Es.
      assert (L : length (p ++ q) = length (p' ++ q')) by by rewrite Epq.
      rewrite !app_length in *. simpl. lia.
    - intros l' Hl. destruct (I_unready _ _ I l' Hl) as [Ea Eb].
      assert (l' <> l) by (intros ->; rewrite Ea in Hel; set_solver).
      rewrite !fn_lookup_insert_ne by naive_solver. split; [done|].
      destruct (F1 (Root l')) as [-> _]; [|done].
      intros H'. apply elem_of_cons in H' as [[=]|H']; [done|]. by apply root_notin in H'.
    - intros x l'. rewrite O1, (I_own _ _ I). fn l l'; [|done]. by rewrite Hsub.
    - intros x l' H. apply (I_alloc _ _ I x l'). fn l l'; [|done]. by rewrite Hsub in H.
    - intros x l' H. apply (I_lost _ _ I x l'). fn l l'; [|done]. by rewrite Hsub in H.
    - intros x H HL. pose proof (H l) as Hl. rewrite fn_lookup_insert, Hsub in Hl. destruct (F1 (Elt x)) as [-> _].
      { intros [[=]|(y & [= <-] & Hy)%elem_of_list_fmap]%elem_of_cons. done. }
      apply (I_gone _ _ I); [|done]. intros l'. specialize (H l'). fn l l'; done.
  Qed.

  (** *** reads *)
  Lemma rd_next_split m s l e p q : inv m s -> elems s l = p ++ e :: q ->
    nxt m (Elt e) = Some (default (Root l) (Elt <$> head q)) /\
    prv m (Elt e) = Some (default (Root l) (Elt <$> last p)).
  Proof.
    intros I Es. assert (Hr : ready s l = true) by (eapply (inv_is_ready _ _ e); [done|rewrite Es; set_solver]).
    pose proof (I_ready _ _ I l Hr) as R. rewrite Es, fmap_app in R. simpl in R.
    rewrite (ring_next _ _ _ _ _ R), (ring_prev _ _ _ _ _ R). rewrite fmap_last.
    split; [|done]. f_equal. by destruct q.
  Qed.
  Lemma rd_root m s l : inv m s -> ready s l = true ->
    nxt m (Root l) = Some (default (Root l) (Elt <$> head (elems s l))) /\
    prv m (Root l) = Some (default (Root l) (Elt <$> last (elems s l))).
  Proof.
    intros I Hr. destruct (I_ready _ _ I l Hr) as [C _].
    rewrite (chain_first _ _ _ _ C), (chain_last _ _ _ _ C), fmap_last. split; [|done].
    by destruct (elems s l).
  Qed.
  Lemma rd_own m s e l : inv m s -> e ∈ elems s l -> own m e = Some l.
  Proof. intros I H. apply (I_own _ _ I). by left. Qed.
  Lemma rd_own_not m s e l : inv m s -> lost s e <> Some l -> own m e = Some l <-> e ∈ elems s l.
  Proof. intros I H. rewrite (I_own _ _ I). naive_solver. Qed.

  Lemma rd_elt_next m s l e p q : inv m s -> elems s l = p ++ e :: q ->
    elt_next m (Elt e) = Elt <$> head q /\ elt_prev m (Elt e) = Elt <$> last p.
  Proof.
    intros I Es. destruct (rd_next_split m s l e p q I Es) as [En Ep].
    unfold elt_next, elt_prev, list_of. rewrite (rd_own m s e l I) by (rewrite Es; set_solver).
    rewrite En, Ep. split.
    - destruct (head q); [by rewrite decide_False by done|by rewrite decide_True by done].
    - destruct (last p); [by rewrite decide_False by done|by rewrite decide_True by done].
  Qed.

  (** *** ToSlice and Iter *)
  Lemma iter_path m s l j r : inv m s -> ready s l = true -> 
    (Root l :: (Elt <$> elems s l)) !! j = Some r ->
    iter_next zero l m r =
      match elems s l !! j with
      | Some e => Ok (Some (value_of zero s e), Elt e)
      | None => Ok (None, Root l)
      end.
  Proof.
    intros I Hr Hj. unfold iter_next.
    assert (En : nxt m r = Some (default (Root l) (Elt <$> elems s l !! j))).
    { destruct j as [|j]; simpl in Hj.
      - injection Hj as <-. destruct (rd_root m s l I Hr) as [-> _]. by destruct (elems s l).
      - rewrite list_lookup_fmap in Hj. destruct (elems s l !! j) as [e|] eqn:Ej; [|done].
        simpl in Hj. injection Hj as <-. pose proof (take_drop_middle _ _ _ Ej) as Es.
        destruct (rd_next_split m s l e (take j (elems s l)) (drop (S j) (elems s l)) I) as [-> _]; [by rewrite Es|].
        f_equal. f_equal. f_equal. rewrite <- (Nat.add_0_r (S j)) at 2. rewrite <- lookup_drop. by destruct (drop (S j) (elems s l)). }
    rewrite En. destruct (elems s l !! j) as [e|] eqn:Ee; cbn [fmap option_fmap option_map default from_option].
    - rewrite decide_False by done. unfold value_of, value. by rewrite (I_vals _ _ I).
    - by rewrite decide_True.
  Qed.

  Lemma collect_ok m s l fuel : inv m s -> ready s l = true -> forall j r,
    (Root l :: (Elt <$> elems s l)) !! j = Some r ->
    length (elems s l) - j < fuel ->
    collect zero fuel l m r = Ok (value_of zero s <$> drop j (elems s l)).
  Proof.
    intros I Hr. induction fuel as [|f IH]; intros j r Hj Hf; [lia|].
    cbn [collect]. rewrite (iter_path m s l j r I Hr Hj).
    destruct (elems s l !! j) as [e|] eqn:Ee; cbn [rbind].
    - rewrite (IH (S j)).
      + cbn [rbind]. by rewrite (drop_S _ _ _ Ee).
      + simpl. by rewrite list_lookup_fmap, Ee.
      + apply lookup_lt_Some in Ee. lia.
    - rewrite drop_ge; [done|]. by apply lookup_ge_None in Ee.
  Qed.

  Lemma elems_bound m s l : inv m s -> length (elems s l) <= length (values s).
  Proof.
    intros I. rewrite <- (seq_length (length (values s)) 0). apply submseteq_length, NoDup_submseteq; [by eapply inv_nodup|].
    intros e He. apply elem_of_seq. pose proof (I_alloc _ _ I e l (or_introl He)). lia.
  Qed.
End inv.
