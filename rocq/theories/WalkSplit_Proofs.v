From Verif Require Import Base Iter_Model Iter_Spec Split_Model WalkSplit_Model WalkSplit_Spec.

Section walk.
  Context {N T : Type} (next : N -> option N) (val : N -> T).
  Implicit Types (ns : list N).

  (** the nodes reachable from [o] are exactly [ns], in order *)
  Fixpoint node_path (o : option N) ns : Prop :=
    match ns with
    | [] => o = None
    | n :: ns' => o = Some n /\ node_path (next n) ns'
    end.

  Lemma advance_path k : forall o ns, node_path o ns -> node_path (advance next k o) (drop k ns).
  Proof.
    induction k as [|k IH]; intros o ns H; [by rewrite drop_0|].
    destruct ns as [|n ns]; simpl in *; [by subst|]. destruct H as [-> H]. by apply IH.
  Qed.

  Lemma rest_drains ns : forall o, node_path o ns ->
    exists fin, drains (rest_next next val) o (val <$> ns) fin.
  Proof.
    induction ns as [|n ns IH]; intros o H; simpl in H.
    - subst o. exists None, None. split; [constructor|done].
    - destruct H as [-> H]. destruct (IH _ H) as (fin & s1 & P & E).
      exists fin, s1. split; [|done]. rewrite fmap_cons. econstructor; [done|]. exact P.
  Qed.

  Lemma step_drains k : forall o ns, node_path o ns ->
    exists fin, drains (step_next next val) (Z.of_nat k, o) (val <$> take k ns) fin.
  Proof.
    induction k as [|k IH]; intros o ns H.
    - exists (-1, o)%Z, (0%Z, o). split; [constructor|]. simpl. by destruct o.
    - destruct ns as [|n ns]; simpl in H.
      + subst o. eexists (_, _), (_, _). split; [constructor|]. reflexivity.
      + destruct H as [-> H]. destruct (IH _ _ H) as (fin & s1 & P & E).
        exists fin, s1. split; [|done]. rewrite firstn_cons, fmap_cons. econstructor; [|exact P].
        unfold step_next. rewrite decide_True by lia. do 3 f_equal. lia.
  Qed.

  Lemma walk_simulates (whole : list T -> Prop) front ns p idx node o idx' :
    node_path front ns -> whole (val <$> ns) ->
    ((p <= 0)%Z \/ node_path node (drop idx ns)) ->
    split_next (val <$> ns) p idx = Ok (o, idx') ->
    exists o' node',
      walk_next next (Z.of_nat (length ns)) p (Z.of_nat idx, node) = Ok (o', (Z.of_nat idx', node')) /\
      same_segment next val whole o o' /\
      ((p <= 0)%Z \/ node_path node' (drop idx' ns)).
  Proof.
    intros Hf Hw Hn. unfold split_next, walk_next.
    assert (Es : walk_step (Z.of_nat (length ns)) p = split_step (length (val <$> ns)) p).
    { unfold walk_step, split_step. by rewrite fmap_length. }
    rewrite Es. clear Es. set (st := split_step _ _). rewrite fmap_length.
    case_decide as Hp.
    { case_decide as H0; intros [= <- <-].
      - subst idx. exists (Some SWhole), node. rewrite decide_True by lia. split; [|auto].
        reflexivity. 
      - rewrite decide_False by lia. exists None, node. split; [done|]. split; [done|auto]. }
    destruct Hn as [|Hn]; [done|].
    assert (Hst : (0 <= st)%Z).
    { unfold st, split_step. case_decide; [lia|]. apply Z.quot_pos; lia. }
    case_decide as H1.
    { intros [= <- <-]. rewrite decide_True by lia. exists None, node. split; [done|]. split; [done|auto]. }
    rewrite (decide_False (P := (Z.of_nat (length ns) <= Z.of_nat idx)%Z)) by lia.
    assert (Hadv : node_path (advance next (Z.to_nat st) node) (drop (idx + Z.to_nat st) ns)).
    { rewrite <- drop_drop. by apply advance_path. }
    case_decide as H2; intros [= <- <-].
    - rewrite decide_True by lia. do 2 eexists. split; [do 3 f_equal; lia|]. split; [|eauto].
      simpl. rewrite <- fmap_drop. by apply rest_drains.
    - rewrite decide_False by lia. do 2 eexists. split; [do 3 f_equal; lia|]. split; [|eauto].
      simpl. rewrite <- fmap_drop, <- fmap_take. destruct (step_drains (Z.to_nat st) node (drop idx ns) Hn) as [fin D]. exists fin. by rewrite Z2Nat.id in D by lia.
  Qed.

  Lemma split_next_total (s : list T) p idx : exists o idx', split_next s p idx = Ok (o, idx').
  Proof. unfold split_next. repeat case_decide; eauto. Qed.

  Lemma walk_agrees (whole : list T -> Prop) front ns p :
    node_path front ns -> whole (val <$> ns) -> forall k,
    exists outs outs' fin fin',
      length outs = k /\
      pulled (split_next (val <$> ns) p) 0 outs fin /\
      pulled (walk_next next (Z.of_nat (length ns)) p) (walk_init front) outs' fin' /\
      Forall2 (same_segment next val whole) outs outs'.
  Proof.
    intros Hf Hw k.
    assert (G : forall k idx node, ((p <= 0)%Z \/ node_path node (drop idx ns)) ->
      exists outs outs' fin fin', length outs = k /\
        pulled (split_next (val <$> ns) p) idx outs fin /\
        pulled (walk_next next (Z.of_nat (length ns)) p) (Z.of_nat idx, node) outs' fin' /\
        Forall2 (same_segment next val whole) outs outs').
    { clear k. induction k as [|k IH]; intros idx node Hn.
      - exists [], []. do 2 eexists. splits; constructor.
      - destruct (split_next_total (val <$> ns) p idx) as (o & idx' & E).
        destruct (walk_simulates whole front ns p idx node o idx' Hf Hw Hn E) as (o' & node' & E' & S & Hn').
        destruct (IH _ _ Hn') as (outs & outs' & fin & fin' & L & P & P' & F).
        exists (o :: outs), (o' :: outs'), fin, fin'. splits; [simpl; lia|econstructor; eauto|econstructor; eauto|].
        by constructor. }
    apply (G k 0 front). right. by rewrite drop_0.
  Qed.
End walk.
