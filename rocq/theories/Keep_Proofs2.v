From stdpp Require Import functions gmap.
From Verif Require Import Base Lin_Spec Queue_Model Queue_Spec Queue_Proofs.
From Verif Require PQ_Model.
From Verif Require Import Keep_Spec.

Lemma kept_ind_set {A} (root : A -> Prop) (edge : A -> A -> Prop) (P : A -> Prop) :
  (forall a, root a -> P a) -> (forall a b, P a -> edge a b -> P b) -> forall a, kept root edge a -> P a.
Proof. intros Hr He a H. induction H; eauto. Qed.
Lemma kept_mono {A} (root root' : A -> Prop) (edge edge' : A -> A -> Prop) a :
  (forall a, root a -> root' a) -> (forall a b, edge a b -> edge' a b) -> kept root edge a -> kept root' edge' a.
Proof. intros Hr He H. induction H; [by apply kept_root, Hr|]. eapply kept_edge; eauto. Qed.

(** * The linked queue *)
Section queue.
  Context {T : Type}.
  Implicit Types (q : queue T) (ls : list (nat * T)).

  Lemma chain_kept_to m o ls (root : nat -> Prop) (edge : nat -> nat -> Prop) : 
    (forall a b v, m !! a = Some (Node v (Some b)) -> edge a b) ->
    chain m o ls -> (forall n, o = Some n -> kept root edge n) -> forall n, n ∈ ls.*1 -> kept root edge n.
  Proof.
    intros He. revert o. induction ls as [|[n0 v0] ls IH]; intros o Hc Ho n Hn; [by apply elem_of_nil in Hn|].
    destruct Hc as [-> (o' & Hm & Hc)]. specialize (Ho _ eq_refl). cbn in Hn. apply elem_of_cons in Hn as [->|Hn]; [done|].
    apply (IH _ Hc); [|done]. intros n1 ->. eapply kept_edge; [done|]. by eapply He.
  Qed.
  Lemma chain_edge_closed m o ls a b v : chain m o ls -> a ∈ ls.*1 -> m !! a = Some (Node v (Some b)) -> b ∈ ls.*1.
  Proof.
    revert o. induction ls as [|[n0 v0] ls IH]; intros o Hc Ha Hm; [by apply elem_of_nil in Ha|].
    destruct Hc as [-> (o' & Hm0 & Hc)]. cbn in *. apply elem_of_cons in Ha as [->|Ha].
    - rewrite Hm in Hm0. injection Hm0 as -> <-. destruct ls as [|[n1 v1] ls]; [done|]. destruct Hc as [Hb _].
      injection Hb as ->. right. left.
    - right. by eapply IH.
  Qed.
  Lemma queue_kept q ls : rep q ls -> forall n, kept (queue_root q) (queue_edge q) n <-> n ∈ ls.*1.
  Proof.
    intros [Hlk Hc Hnd Ht Hk Hb] n. split.
    - revert n. apply kept_ind_set.
      + intros a [Ha|Ha].
        * destruct ls as [|[n0 v0] ls]; cbn in Hc; [by rewrite Hc in Ha|]. destruct Hc as [Hc _]. rewrite Hc in Ha.
          injection Ha as ->. left.
        * rewrite Ht in Ha. by apply last_Some_elem_of in Ha.
      + intros a b Ha [v Hv]. by eapply chain_edge_closed.
    - intros Hn. eapply chain_kept_to; [|exact Hc| |done].
      + intros a b v Hm. by exists v.
      + intros n0 Hn0. apply kept_root. by left.
  Qed.
  (** what a popped node keeps *)
  Lemma popped_kept q n v ls : chain (heap q) (Some n) ((n, v) :: ls) ->
    forall m, kept (eq n) (queue_edge q) m <-> m ∈ n :: ls.*1.
  Proof.
    intros Hc m. split.
    - revert m. apply kept_ind_set; [intros a <-; left|]. intros a b Ha [v' Hv].
      exact (chain_edge_closed _ _ ((n, v) :: ls) a b v' Hc Ha Hv).
    - intros Hm. eapply chain_kept_to with (ls := (n, v) :: ls); [|exact Hc| |done].
      + intros a b v' Hm'. by exists v'.
      + intros n0 E. injection E as ->. by apply kept_root.
  Qed.

  (** a link between two nodes is never cut by Push and Pop *)
  Lemma run1_edges q ls o r q' : rep q ls -> run1 o q = Ok (r, q') -> forall a b, queue_edge q a b -> queue_edge q' a b.
  Proof.
    intros H E a b [v Hv]. pose proof H as [Hlk Hc Hnd Ht Hk Hb]. destruct o as [w| | | |].
    - cbn in E. unfold push, new_node, push_node, lock in E. cbn in E. rewrite Hlk in E. cbn in E.
      assert (Ha : a <> fresh_loc q). { intros ->. specialize (Hb (fresh_loc q)). rewrite Hv in Hb. assert (fresh_loc q < fresh_loc q) by (apply Hb; by eexists). lia. }
      destruct (hnext q) as [h|] eqn:Eh.
      + cbn in E. destruct (tail q) as [t|] eqn:Et; cbn in E; injection E as <- <-.
        * exists v. cbn. unfold set_next. rewrite lookup_alter_ne; [by rewrite lookup_insert_ne|].
          intros ->. clear -Hc Ht Hv. symmetry in Ht. apply chain_last in Ht as (ls' & w & ->).
          revert Hc. generalize (Some h). induction ls' as [|[n0 v0] ls' IH]; intros o Hc.
          -- cbn in Hc. destruct Hc as [_ (o' & Hm & ->)]. congruence.
          -- destruct Hc as [_ (o' & _ & Hc)]. by eapply IH.
        * exists v. cbn. by rewrite lookup_insert_ne.
      + cbn in E. injection E as <- <-. exists v. cbn. by rewrite lookup_insert_ne.
    - cbn in E. unfold pop, pop_node, lock in E. rewrite Hlk in E. cbn in E. destruct (hnext q) as [h|]; [|by injection E as <- <-; exists v].
      destruct (heap q !! h) as [d|]; cbn in E; [|done]. injection E as <- <-. by exists v.
    - cbn in E. unfold peek, peek_node, lock in E. rewrite Hlk in E. cbn in E. injection E as <- <-. by exists v.
    - cbn in E. injection E as <- <-. by exists v.
    - cbn in E. injection E as <- <-. by exists v.
  Qed.
  Lemma run_edges os : forall q ls rs q', rep q ls -> run os q = Ok (rs, q') -> forall a b, queue_edge q a b -> queue_edge q' a b.
  Proof.
    induction os as [|o os IH]; intros q ls rs q' H E a b Hab; [by injection E as <- <-|].
    destruct (run1_ok q ls o H) as (r & q1 & ls1 & E1 & H1 & _). cbn in E. rewrite E1 in E. cbn in E.
    destruct (run os q1) as [[rs2 q2]| |] eqn:E2; cbn in E; [|discriminate E..]. injection E as <- <-.
    eapply IH; [exact H1|exact E2|]. exact (run1_edges q ls o r q1 H E1 a b Hab).
  Qed.
End queue.
