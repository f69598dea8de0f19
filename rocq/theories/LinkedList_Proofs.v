From Verif Require Import Base Iter_Model Iter_Spec LinkedList_Model LinkedList_Spec.

Global Instance Elt_inj : Inj (=) (=) Elt.
Proof. by intros ?? [= ->]. Qed.

(** ** Rings of pointers *)
Section ring.
  Context {T : Type}.
  Implicit Types (m : mem T) (a b e r z : ref) (s t p q : list ref).

  Fixpoint chain m a s z : Prop :=
    match s with
    | [] => nxt m a = Some z /\ prv m z = Some a
    | b :: s' => nxt m a = Some b /\ prv m b = Some a /\ chain m b s' z
    end.

  Lemma chain_app m a s1 b s2 z : chain m a (s1 ++ b :: s2) z <-> chain m a s1 b /\ chain m b s2 z.
  Proof. revert a. induction s1 as [|c s1 IH]; intros a; simpl; [tauto|]. rewrite IH. tauto. Qed.

  Lemma chain_ext m m' a s z :
    (forall r, r ∈ a :: s -> nxt m' r = nxt m r) ->
    (forall r, r ∈ s ++ [z] -> prv m' r = prv m r) ->
    chain m a s z -> chain m' a s z.
  Proof.
    revert a. induction s as [|b s IH]; intros a Hn Hp; simpl.
    - rewrite Hn, Hp by set_solver. done.
    - rewrite Hn, Hp by set_solver. intros (? & ? & ?). splits; try done. apply IH; set_solver.
  Qed.

  Lemma chain_first m a s z : chain m a s z -> nxt m a = Some (default z (head s)).
  Proof. destruct s; simpl; naive_solver. Qed.
  Lemma chain_last m a s z : chain m a s z -> prv m z = Some (default a (last s)).
  Proof.
    destruct s as [|b s _] using rev_ind; [simpl; naive_solver|].
    rewrite chain_app, last_snoc. simpl. naive_solver.
  Qed.

  Definition ring m r t : Prop := chain m r t r /\ NoDup (r :: t).

  Lemma ring_rotate m r s1 a s2 : ring m r (s1 ++ a :: s2) -> ring m a (s2 ++ r :: s1).
  Proof.
    unfold ring. rewrite !chain_app. intros [[? ?] ND]. split; [done|].
    revert ND. apply NoDup_Permutation_proper. simpl. solve_Permutation.
  Qed.

  Definition framed m m' (t : list ref) : Prop :=
    (forall r, r ∉ t -> nxt m' r = nxt m r /\ prv m' r = prv m r) /\
    own m' = own m /\ len m' = len m /\ vals m' = vals m.

  Ltac upd := repeat (rewrite ?fn_lookup_insert; rewrite ?fn_lookup_insert_ne by set_solver).

  Lemma link_ring m a t e : ring m a t -> e ∉ a :: t ->
    exists m', link e (Some a) m = Ok m' /\ ring m' a (e :: t) /\ framed m m' (e :: a :: t).
  Proof.
    intros [C ND] Hne. unfold link. cbn [deref rbind set_prv nxt prv].
    rewrite (chain_first _ _ _ _ C).
    set (n := default a (head t)).
    assert (Hn : n = a \/ n ∈ t).
    { unfold n. destruct t; simpl; [auto|right; left]. }
    cbn [set_nxt set_prv nxt prv]. rewrite fn_lookup_insert. cbn [deref rbind set_nxt set_prv nxt prv].
    assert (a <> e) by set_solver. assert (n <> e) by set_solver.
    rewrite fn_lookup_insert_ne by done. rewrite fn_lookup_insert. cbn [deref rbind set_nxt set_prv nxt prv].
    eexists. split; [reflexivity|]. split.
    - split.
      + simpl. rewrite fn_lookup_insert. rewrite fn_lookup_insert_ne by done. rewrite fn_lookup_insert.
        splits; [done|done|].
        destruct t as [|b t]; simpl in n; subst n.
        * simpl. rewrite fn_lookup_insert_ne by done. rewrite fn_lookup_insert, fn_lookup_insert. done.
        * simpl in C. destruct C as (C1 & C2 & C3). simpl.
          rewrite fn_lookup_insert_ne by done. rewrite fn_lookup_insert, fn_lookup_insert.
          splits; try done. revert C3. apply chain_ext; cbn [nxt prv set_nxt set_prv]; intros r Hr.
          -- assert (r <> a) by (intros ->; apply NoDup_cons in ND as [ND _]; set_solver).
             assert (r <> e) by set_solver. by rewrite !fn_lookup_insert_ne by done.
          -- apply NoDup_cons in ND as [ND1 ND2]. apply NoDup_cons in ND2 as [ND2 _].
             assert (r <> b). { intros ->. apply elem_of_app in Hr as [|Hr]; [done|]. apply elem_of_list_singleton in Hr. set_solver. }
             assert (r <> e) by set_solver. by rewrite !fn_lookup_insert_ne by done.
      + apply NoDup_cons in ND as [ND1 ND2].
        rewrite !NoDup_cons. set_solver.
    - split; [|done]. intros r Hr. simpl.
      assert (r <> e) by set_solver. assert (r <> a) by set_solver. assert (r <> n) by set_solver.
      by rewrite !fn_lookup_insert_ne by done.
  Qed.

  Lemma unlink_ring m e x t : ring m e (x :: t) ->
    exists m', unlink e m = Ok m' /\ ring m' x t /\ framed m m' (x :: t).
  Proof.
    intros [C ND]. unfold unlink.
    rewrite (chain_last _ _ _ _ C). rewrite (chain_first _ _ _ _ C).
    set (y := default e (last (x :: t))). cbn [head default].
    assert (Hy : y ∈ x :: t).
    { unfold y. destruct (last (x :: t)) as [y'|] eqn:E; simpl; [|by apply last_None in E].
      by apply last_Some_elem_of in E. }
    assert (y <> e). { intros ->. by apply NoDup_cons in ND as [? _]. }
    cbn [deref rbind set_nxt nxt prv]. rewrite fn_lookup_insert_ne by done.
    rewrite (chain_first _ _ _ _ C). cbn [head default deref rbind].
    rewrite (chain_last _ _ _ _ C). fold y.
    eexists. split; [reflexivity|]. 
    assert (x <> e). { intros ->. apply NoDup_cons in ND as [? _]. set_solver. }
    split.
    - split; [|by apply NoDup_cons in ND as [_ ND]].
      simpl in C. destruct C as (C1 & C2 & C3).
      destruct t as [|y' t _] using rev_ind.
      + simpl in *. subst y. by rewrite !fn_lookup_insert.
      + assert (y = y') as ->.
        { unfold y. rewrite app_comm_cons, last_snoc. done. }
        apply chain_app in C3 as [C3 C4]. apply chain_app. split.
        * revert C3. apply chain_ext; simpl; intros r Hr.
          -- rewrite fn_lookup_insert_ne; [done|]. intros ->.
             apply NoDup_cons in ND as [_ ND]. rewrite app_comm_cons in ND. apply NoDup_app in ND as (_ & ND & _).
             apply (ND r); [done|set_solver].
          -- rewrite fn_lookup_insert_ne; [done|]. intros ->.
             apply NoDup_cons in ND as [_ ND]. apply NoDup_cons in ND as [ND _]. set_solver.
        * simpl. by rewrite !fn_lookup_insert.
    - split; [|done]. intros r Hr. simpl.
      rewrite !fn_lookup_insert_ne by set_solver. done.
  Qed.

  (** insertion and removal at any place of the ring of [r] *)
  Lemma link_at m r p q e : ring m r (p ++ q) -> e ∉ r :: p ++ q ->
    exists m', link e (Some (default r (last p))) m = Ok m' /\ ring m' r (p ++ e :: q) /\
               framed m m' (e :: r :: p ++ q).
  Proof.
    intros R He. destruct p as [|a p _] using rev_ind.
    - simpl. destruct (link_ring _ _ _ _ R He) as (m' & E & R' & F). eauto.
    - rewrite last_snoc. simpl. rewrite <- app_assoc in R. simpl in R. apply ring_rotate in R.
      destruct (link_ring _ _ _ e R) as (m' & E & R' & F); [set_solver|].
      exists m'. split; [done|]. split.
      + rewrite app_comm_cons in R'. apply ring_rotate in R'. by rewrite <- app_assoc.
      + destruct F as [F ?]. split; [|done]. intros x Hx. apply F. set_solver.
  Qed.

  Lemma unlink_at m r p q e : ring m r (p ++ e :: q) ->
    exists m', unlink e m = Ok m' /\ ring m' r (p ++ q) /\ framed m m' (r :: p ++ q).
  Proof.
    intros R. apply ring_rotate in R. destruct q as [|x q].
    - simpl in R. destruct (unlink_ring _ _ _ _ R) as (m' & E & R' & F). rewrite app_nil_r. eauto.
    - simpl in R. destruct (unlink_ring _ _ _ _ R) as (m' & E & R' & F). exists m'. split; [done|]. split.
      + by apply ring_rotate in R'.
      + destruct F as [F ?]. split; [|done]. intros y Hy. apply F. set_solver.
  Qed.

  Lemma ring_next m r p e q : ring m r (p ++ e :: q) -> nxt m e = Some (default r (head q)).
  Proof. intros [C _]. apply chain_app in C as [_ C]. by apply chain_first in C. Qed.
  Lemma ring_prev m r p e q : ring m r (p ++ e :: q) -> prv m e = Some (default r (last p)).
  Proof. intros [C _]. apply chain_app in C as [C _]. by apply chain_last in C. Qed.

  Definition same_ptrs m m' (t : list ref) : Prop :=
    forall r, r ∉ t -> nxt m' r = nxt m r /\ prv m' r = prv m r.
  Lemma ring_frame m m' r t t' : same_ptrs m m' t' -> (forall x, x ∈ r :: t -> x ∉ t') -> ring m r t -> ring m' r t.
  Proof.
    intros F D [C ND]. split; [|done]. revert C. apply chain_ext; intros x Hx; apply F; apply D; set_solver.
  Qed.
End ring.
