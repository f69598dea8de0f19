(** Proofs for C81, the red-black tree. *)
From Verif Require Import Base RBTree_Model RBTree_Spec RBTree_Proofs RBTree_Proofs7 RBTree_Proofs8 RBTree_Proofs9 RBTree_Proofs10.
From Verif Require Import PanicComp_Model PanicComp_Spec PanicCompRB_Model PanicCompRB_Spec PanicComp_Proofs PanicCompRB_Proofs PanicCompRB_Proofs2.
From Verif Require Import Nil_Spec.

Definition no_node_op {K V} (o : op K V) : Prop :=
  match o with OPutNode _ | ONewNode _ _ | OSetNode _ _ _ => False | _ => True end.

Section rb.
  Context {K V : Type} (kzero : K) (vzero : V) (comp : K -> K -> Z).
  Implicit Types t : tree K V.

  Lemma find_nil t k fuel : 0 < fuel ->
    rb_find_c comp fuel t k 0 = match parent (hp t 0) with None => Done None 0 | Some _ => Crash t end.
  Proof. intros Hf. destruct fuel as [|fuel]; [lia|]. unfold rb_find_c. cbn [rb_search_c]. by destruct (parent _). Qed.
  Lemma delete_keys_nil t ks fuel : 0 < fuel -> parent (hp t 0) = None -> rb_delete_keys_c comp fuel t ks 0 = Done (0%Z, t) 0.
  Proof.
    intros Hf E. induction ks as [|k ks IH]; [done|]. cbn [rb_delete_keys_c]. unfold rb_delete_c, cbnd at 1. unfold cbnd at 1.
    rewrite find_nil, E by done. cbn. unfold cbnd. by rewrite IH.
  Qed.
  (** with a root every call that looks for a key is abandoned *)
  Lemma step_nil_crash t m o p fuel : 0 < fuel -> parent (hp t 0) = Some p -> no_node_op o -> m <> [] ->
    size t = Z.of_nat (length m) ->
    match rb_step_c vzero comp fuel t o 0 with
    | Crash t' => t' = t /\ nil_tree vzero m o = (None, m)
    | Done r n => o = OClear /\ r = (RUnit, clear t) \/
                  r.2 = t /\ nil_tree vzero m o = (Some r.1, m)
    | _ => False
    end.
  Proof.
    intros Hf Ep Ho Hm Hz. destruct m as [|e m]; [done|].
    destruct o as [k v|nd|k v|nd k v|k|k| |k|ks|k v vc|]; try done; cbn [rb_step_c]; try (unfold cbnd at 1).
    - destruct fuel as [|fuel]; [lia|]. unfold rb_put_c, cbnd at 1. cbn [rb_descend_c]. by rewrite Ep.
    - unfold rb_get_c, cbnd. by rewrite find_nil, Ep.
    - unfold rb_has_c, cbnd. by rewrite find_nil, Ep.
    - cbn. right. by rewrite Hz.
    - unfold rb_delete_c, cbnd. by rewrite find_nil, Ep.
    - destruct ks as [|k ks]; [by right|]. cbn [rb_delete_keys_c]. unfold rb_delete_c, cbnd at 1. unfold cbnd at 1. by rewrite find_nil, Ep.
    - unfold rb_delete_whole_c, cbnd. by rewrite find_nil, Ep.
    - by left.
  Qed.
  (** without a root none is, and it does not matter which function would be called *)
  Lemma step_nil_empty comp' t o fuel : 0 < fuel -> parent (hp t 0) = None -> no_node_op o ->
    rb_step_c vzero comp fuel t o 0 = rb_step_c vzero comp' fuel t o 0.
  Proof.
    intros Hf Ep Ho. destruct o as [k v|nd|k v|nd k v|k|k| |k|ks|k v vc|]; try done; cbn [rb_step_c]; try (unfold cbnd at 1; symmetry; unfold cbnd at 1).
    - destruct fuel as [|fuel]; [lia|]. unfold rb_put_c, cbnd. cbn [rb_descend_c]. by rewrite Ep.
    - unfold rb_get_c, cbnd. destruct fuel as [|fuel]; [lia|]. unfold rb_find_c. cbn [rb_search_c]. by rewrite Ep.
    - unfold rb_has_c, cbnd. destruct fuel as [|fuel]; [lia|]. unfold rb_find_c. cbn [rb_search_c]. by rewrite Ep.
    - unfold rb_delete_c, cbnd. destruct fuel as [|fuel]; [lia|]. unfold rb_find_c. cbn [rb_search_c]. by rewrite Ep.
    - rewrite delete_keys_nil by done. clear -Hf Ep. assert (H : rb_delete_keys_c comp' fuel t ks 0 = Done (0%Z, t) 0).
      { destruct fuel as [|fuel]; [lia|]. induction ks as [|k ks IH]; [done|]. cbn [rb_delete_keys_c]. unfold rb_delete_c, cbnd at 1. unfold cbnd at 1.
        unfold rb_find_c. cbn [rb_search_c]. rewrite Ep. cbn. unfold cbnd. by rewrite IH. }
      by rewrite H.
    - unfold rb_delete_whole_c, cbnd. destruct fuel as [|fuel]; [lia|]. unfold rb_find_c. cbn [rb_search_c]. by rewrite Ep.
  Qed.
End rb.

Section rb2.
  Context {K V : Type} (kzero : K) (vzero : V) (comp : K -> K -> Z) (cmp : K -> K -> Z) (Hc : cmp_ok cmp) (Hu : cmp_unit cmp).
  Implicit Types t : tree K V.

  Lemma root_entries t bt own m : sinv kzero cmp own t bt m -> (parent (hp t 0) = None <-> m = []).
  Proof.
    intros H. destruct (i_tree _ _ _ _ (s_inv _ _ _ _ _ _ H)) as (E & _ & _). rewrite E, <- (s_entries _ _ _ _ _ _ H).
    destruct bt as [|c l k v a b]; cbn; [done|]. split; [done|]. unfold entries. cbn. rewrite fmap_app. cbn. by destruct (_ <$> _).
  Qed.
  Lemma step_nil own t bt m o fuel : sinv kzero cmp own t bt m -> length m <= 1 -> 3 <= fuel -> no_node_op o ->
    exists t' bt' m' own' r, 
      (rb_step_c vzero comp fuel t o 0 = Crash t' /\ r = None \/ exists x n, rb_step_c vzero comp fuel t o 0 = Done (x, t') n /\ r = Some x) /\
      nil_tree vzero m o = (r, m') /\ sinv kzero cmp own' t' bt' m' /\ length m' <= 1.
  Proof.
    intros I Hl Hf Ho. destruct (parent (hp t 0)) as [p|] eqn:Ep.
    - assert (Hm : m <> []) by (intros ->; apply (root_entries _ _ _ _ I) in Ep || (pose proof (proj2 (root_entries _ _ _ _ I) eq_refl); congruence)).
      pose proof (step_nil_crash vzero comp t m o p fuel ltac:(lia) Ep Ho Hm (s_size _ _ _ _ _ _ I)) as H.
      destruct (rb_step_c _ _ _ _ _ _) as [[x t1] n|t1| |] eqn:E; [..|done|done].
      + destruct H as [[-> [= -> ->]]|[Ht Hr]].
        * destruct (sinv_step kzero vzero cmp Hc Hu own t bt m OClear fuel I Logic.I ltac:(lia)) as (r & t' & bt' & m' & own' & E' & HM & I' & _ & _ & _).
          destruct HM as [-> ->]. cbn in E'. injection E' as <-. exists (clear t), bt', [], own', (Some RUnit).
          split; [right; eexists _, _; split; reflexivity|]. split; [by destruct m|]. split; [done|cbn; lia].
        * cbn in Ht, Hr. subst t1. exists t, bt, m, own, (Some x). split; [right; eexists _, _; split; reflexivity|]. by splits.
      + destruct H as [-> Hr]. exists t, bt, m, own, None. splits; [by left|done|done|done].
    - pose proof (proj1 (root_entries _ _ _ _ I) Ep) as ->.
      rewrite (step_nil_empty vzero comp cmp) by (done || lia).
      assert (HA : ascending cmp [] o) by (destruct o; try done; by right).
      pose proof (sinv_step_c kzero vzero cmp Hc Hu own t bt [] o 0 fuel I HA ltac:(cbn; lia)) as H.
      assert (HN : forall t', rb_step_c vzero cmp fuel t o 0 <> Crash t').
      { clear H. intros t'. destruct o as [k v|nd|k v|nd k v|k|k| |k|ks|k v vc|]; try done; cbn [rb_step_c]; try (unfold cbnd at 1).
        - destruct fuel as [|fuel]; [lia|]. unfold rb_put_c, cbnd. cbn [rb_descend_c]. rewrite Ep. unfold cret, cl. cbv beta iota. by destruct (rbind _ _) as [[? ?]| |].
        - unfold rb_get_c, cbnd. by rewrite find_nil, Ep by lia.
        - unfold rb_has_c, cbnd. by rewrite find_nil, Ep by lia.
        - unfold rb_delete_c, cbnd. by rewrite find_nil, Ep by lia.
        - by rewrite delete_keys_nil by (done || lia).
        - unfold rb_delete_whole_c, cbnd. by rewrite find_nil, Ep by lia. }
      destruct (rb_step_c _ _ _ _ _ _) as [[x t1] n|t1| |] eqn:E; [..|done|done]; [|by destruct (HN t1)].
      destruct H as (bt' & m' & own' & HM & I' & Hl'). cbn [fst snd] in *. exists t1, bt', m', own', (Some x).
      split; [right; eexists _, _; split; reflexivity|]. cbn in Hl'. split; [|split; [done|lia]].
      destruct o as [k v|nd|k v|nd k v|k|k| |k|ks|k v vc|]; try done; cbn in HM |- *.
      all: try (destruct HM as [-> ->]; done).
      + destruct HM as [(n0 & -> & Hn) ->]. assert (n0 = None) as -> by (destruct n0; [by discriminate (proj1 Hn ltac:(done))|done]). done.
      + destruct HM as [-> ->]. assert (EE : (erases cmp [] ks : list (K * V)) = []).
        { pose proof (erases_le cmp ([] : list (K * V)) ks) as L. cbn in L. destruct (erases cmp [] ks); [done|cbn in L; lia]. }
        rewrite EE. by destruct ks.
  Qed.
  Lemma run_nil os : forall own t bt m fuel, sinv kzero cmp own t bt m -> length m <= 1 -> 3 <= fuel -> Forall no_node_op os ->
    exists t' bt' own', rb_run_c vzero comp fuel t (unanswered os) = Ok ((nil_run (nil_tree vzero) m os).1, t') /\
      sinv kzero cmp own' t' bt' (nil_run (nil_tree vzero) m os).2 /\ length (nil_run (nil_tree vzero) m os).2 <= 1.
  Proof.
    induction os as [|o os IH]; intros own t bt m fuel I Hl Hf Ho; [by exists t, bt, own|].
    apply Forall_cons in Ho as [Ho Hos].
    destruct (step_nil own t bt m o fuel I Hl Hf Ho) as (t1 & bt1 & m1 & own1 & r & HS & HN & I1 & Hl1).
    destruct (IH own1 t1 bt1 m1 fuel I1 Hl1 Hf Hos) as (t2 & bt2 & own2 & E & I2 & Hl2). exists t2, bt2, own2.
    cbn [nil_run]. rewrite HN. destruct (nil_run (nil_tree vzero) m1 os) as [rs m2] eqn:EN. cbn [fst snd] in *.
    split; [|done]. unfold unanswered in *. cbn [fmap list_fmap rb_run_c].
    destruct HS as [[-> ->]|(x & n & -> & ->)]; cbn [fst snd]; rewrite E; done.
  Qed.
End rb2.
