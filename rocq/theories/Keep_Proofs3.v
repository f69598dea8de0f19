From stdpp Require Import functions gmap.
From Verif Require Import Base Iter_Model Iter_Spec LinkedList_Model LinkedList_Spec LinkedList_Proofs LinkedList_Proofs2 LinkedList_Proofs4.
From Verif Require Import Keep_Spec Keep_Proofs2.

(** * The linked list *)
Section list.
  Context {T : Type} (zero : T).
  Implicit Types (m : mem T) (s : lists T).

  Lemma ring_kept_closed m r t : ring m r t -> forall a, a ∈ r :: t ->
    (exists b, nxt m a = Some b /\ b ∈ r :: t) /\ (exists b, prv m a = Some b /\ b ∈ r :: t).
  Proof.
    intros R a Ha. apply elem_of_cons in Ha as [->|Ha].
    - destruct R as [C _]. rewrite (chain_first _ _ _ _ C), (chain_last _ _ _ _ C).
      split; eexists; (split; [done|]).
      + destruct t; cbn; [left|]. right. left.
      + destruct (last t) eqn:E; cbn; [|left]. right. by apply last_Some_elem_of in E.
    - apply elem_of_list_split in Ha as (p & q & ->).
      rewrite (ring_next _ _ _ _ _ R), (ring_prev _ _ _ _ _ R). split; eexists; (split; [done|]).
      + destruct q; cbn; [left|]. right. apply elem_of_app. right. right. left.
      + destruct (last p) eqn:E; cbn; [|left]. right. apply elem_of_app. left. by apply last_Some_elem_of in E.
  Qed.
  Lemma chain_next_kept m (root : ref -> Prop) a t z : chain m a t z -> kept root (list_edge m) a ->
    forall x, x ∈ t -> kept root (list_edge m) x.
  Proof.
    revert a. induction t as [|b t IH]; intros a C Ha x Hx; [by apply elem_of_nil in Hx|].
    destruct C as (Hn & _ & C). assert (kept root (list_edge m) b) by (eapply kept_edge; [exact Ha|by left]).
    apply elem_of_cons in Hx as [->|Hx]; [done|]. by eapply IH.
  Qed.
  Lemma chain_prev_kept m (root : ref -> Prop) a t z : chain m a t z -> kept root (fun a b => prv m a = Some b) z ->
    forall x, x ∈ t -> kept root (fun a b => prv m a = Some b) x.
  Proof.
    intros C Hz x Hx. revert z C Hz. induction t as [|b t IH] using rev_ind; intros z C Hz; [by apply elem_of_nil in Hx|].
    apply chain_app in C as [C1 [_ C2]].
    assert (kept root (fun a b => prv m a = Some b) b) by (eapply kept_edge; [exact Hz|exact C2]).
    apply elem_of_app in Hx as [Hx|Hx]; [by eapply IH|]. apply elem_of_list_singleton in Hx as ->. done.
  Qed.
  Definition owned m l (t : list nat) : Prop := forall e, e ∈ t -> own m e = Some l.

  Lemma list_kept m l t : ring m (Root l) (Elt <$> t) -> owned m l t ->
    forall x, kept (eq (Root l)) (list_edge m) x <-> x = Root l \/ exists e, e ∈ t /\ x = Elt e.
  Proof.
    intros R O x. split.
    - intros H. assert (x ∈ Root l :: (Elt <$> t)) as Hx.
      { revert x H. apply kept_ind_set; [intros a <-; left|]. intros a b Ha [Hab|[Hab|(e & l' & -> & Ho & ->)]].
        - destruct (ring_kept_closed _ _ _ R a Ha) as [(b' & E & Hb) _]. congruence.
        - destruct (ring_kept_closed _ _ _ R a Ha) as [_ (b' & E & Hb)]. congruence.
        - apply elem_of_cons in Ha as [Ha|Ha]; [done|]. apply elem_of_list_fmap in Ha as (e' & Ee & He).
          injection Ee as <-. rewrite (O _ He) in Ho. injection Ho as ->. left. }
      apply elem_of_cons in Hx as [->|Hx]; [by left|right]. apply elem_of_list_fmap in Hx as (e & -> & He). eauto.
    - intros [->|(e & He & ->)]; [by apply kept_root|].
      destruct R as [C _]. eapply chain_next_kept; [exact C|by apply kept_root|]. by apply elem_of_list_fmap_1.
  Qed.
  Lemma cleared_kept m l t : ring m (Root l) (Elt <$> t) -> owned m l t ->
    let m' := clear l m in
    forall x, kept (eq (Root l)) (list_edge m') x <-> x = Root l \/ exists e, e ∈ t /\ x = Elt e.
  Proof.
    intros R O m' x. unfold m', clear in *. split.
    - intros H. apply (list_kept m l t R O). eapply kept_mono; [intros ? E; exact E| |exact H].
      intros a b [Hab|[Hab|Hab]]; [|by right; left|by right; right].
      cbn in Hab. unfold set_len, set_nxt in Hab. cbn in Hab. destruct (decide (a = Root l)) as [->|Ha].
      + by rewrite fn_lookup_insert in Hab.
      + rewrite fn_lookup_insert_ne in Hab by done. by left.
    - intros [->|(e & He & ->)]; [by apply kept_root|].
      apply (kept_mono (eq (Root l)) (eq (Root l)) (fun a b => prv m a = Some b)); [done|intros a b Hab; by right; left|].
      destruct R as [C _]. eapply chain_prev_kept; [exact C|by apply kept_root|]. by apply elem_of_list_fmap_1.
  Qed.
  (** a removed element refers to nothing *)
  Lemma removed_kept m l e m' : remove l e m = Ok m' -> forall x, kept (eq (Elt e)) (list_edge m') x <-> x = Elt e.
  Proof.
    unfold remove. destruct (unlink (Elt e) m) as [m1| |]; [|done..]. cbn. intros E. injection E as <-. intros x. split.
    - revert x. apply kept_ind_set; [by intros a <-|]. intros a b -> [H|[H|(e' & l' & Ee & H & _)]]; exfalso.
      + cbn in H. by rewrite fn_lookup_insert in H.
      + cbn in H. by rewrite fn_lookup_insert in H.
      + injection Ee as <-. cbn in H. by rewrite fn_lookup_insert in H.
    - intros ->. by apply kept_root.
  Qed.
  Lemma execs_snoc (os : list (op T)) o : forall m, (execs zero m (os ++ [o])).1 = (exec zero (execs zero m os).1 o).1.
  Proof.
    induction os as [|o' os IH]; intros m; cbn [app execs].
    - cbn [fst]. destruct (exec zero m o) as [m1 r]. reflexivity.
    - destruct (exec zero m o') as [m1 r]. specialize (IH m1).
      destruct (execs zero m1 (os ++ [o])) as [m2 r2], (execs zero m1 os) as [m3 r3]. exact IH.
  Qed.
End list.
