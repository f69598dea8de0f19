(** C67, linked list: running iterators while the list changes. *)
From Verif Require Import Base Iter_Model Iter_Spec Split_Model WalkSplit_Model WalkSplit_Spec
  LinkedList_Model LinkedList_Spec LinkedList_Proofs LinkedList_Proofs2 LinkedList_Proofs3 LinkedList_Proofs4.

Local Lemma iter_from {T} (zero : T) m s l : inv m s -> ready s l = true -> forall q p, elems s l = p ++ q ->
  drains (iter_next zero l m) (default (Root l) (Elt <$> last p)) (value_of zero s <$> q) (Root l).
Proof.
  intros I Hr. induction q as [|e q IH]; intros p Es.
  - exists (default (Root l) (Elt <$> last p)). split; [constructor|].
    rewrite (iter_path zero m s l (length p) (default (Root l) (Elt <$> last p)) I Hr).
    + by rewrite lookup_ge_None_2 by (rewrite Es, app_nil_r; done).
    + rewrite Es, app_nil_r. destruct p as [|x p _] using rev_ind; [done|].
      rewrite last_snoc, app_length, Nat.add_1_r. simpl. rewrite fmap_app, lookup_app_r by (by rewrite fmap_length).
      by rewrite fmap_length, Nat.sub_diag.
  - destruct (IH (p ++ [e])) as (r1 & P & E); [by rewrite Es, <- app_assoc|]. rewrite last_snoc in P.
    exists r1. split; [|done]. rewrite fmap_cons. econstructor; [|exact P].
    rewrite (iter_path zero m s l (length p) _ I Hr).
    + rewrite Es. by rewrite lookup_app_r, Nat.sub_diag by done.
    + rewrite Es. destruct p as [|x p _] using rev_ind; [done|].
      rewrite last_snoc, app_length, Nat.add_1_r. simpl. rewrite !fmap_app, <- app_assoc, lookup_app_r by (by rewrite fmap_length).
      by rewrite fmap_length, Nat.sub_diag.
Qed.

(** A running iterator holds the element it yielded last (or the list itself).
    After any history, the iterator that holds element [e] of [l] yields what
    now follows [e], with the values of now, and then exhaustion - elements
    inserted behind it included, elements removed or moved in front of it not. *)
Theorem C67_list_iterator_sees_the_current_list :
  forall (T : Type) (zero : T) os rs s l p e q, spec_execs zero lists0 os rs s -> elems s l = p ++ e :: q ->
  let m := (execs zero mem0 os).1 in
  drains (iter_next zero l m) (Elt e) (value_of zero s <$> q) (Root l) /\
  drains (iter_next zero l m) (Root l) (contents zero s l) (Root l).
Proof.
  intros T zero os rs s l p e q H Es m. destruct (refine_execs zero os mem0 lists0 rs s inv_init H) as [I _]. fold m in I.
  assert (Hr : ready s l = true).
  { destruct (ready s l) eqn:E; [done|]. destruct (I_unready _ _ I l E) as [E2 _]. rewrite Es in E2. by destruct p. }
  split.
  - pose proof (iter_from zero m s l I Hr q (p ++ [e])) as G. rewrite last_snoc in G. apply G. by rewrite <- app_assoc.
  - apply (iter_from zero m s l I Hr (elems s l) []). done.
Qed.
Print Assumptions C67_list_iterator_sees_the_current_list.

(** If the element it holds has been removed, the next pull panics *)
Theorem C67_list_iterator_on_removed_element_panics :
  forall (T : Type) (zero : T) os rs s l e, spec_execs zero lists0 os rs s ->
  (forall l', e ∉ elems s l') -> lost s e = None ->
  iter_next zero l (execs zero mem0 os).1 (Elt e) = Panic.
Proof.
  intros T zero os rs s l e H He Hl. destruct (refine_execs zero os mem0 lists0 rs s inv_init H) as [I _].
  unfold iter_next. by rewrite (I_gone _ _ I e He Hl).
Qed.
Print Assumptions C67_list_iterator_on_removed_element_panics.

(** Clear and Init do not disturb a running iterator past the front: it goes on over the old elements *)
Theorem C67_list_clear_does_not_stop_an_iterator :
  forall (T : Type) (zero : T) os rs s l p e q, spec_execs zero lists0 os rs s -> elems s l = p ++ e :: q ->
  let m := (execs zero mem0 os).1 in
  drains (iter_next zero l (exec zero m (Clear l)).1) (Elt e) (value_of zero s <$> q) (Root l) /\
  drains (iter_next zero l (exec zero m (Init l)).1) (Elt e) (value_of zero s <$> q) (Root l).
Proof.
  intros T zero os rs s l p e q H Es m. destruct (refine_execs zero os mem0 lists0 rs s inv_init H) as [I _]. fold m in I.
  assert (Hr : ready s l = true).
  { destruct (ready s l) eqn:E; [done|]. destruct (I_unready _ _ I l E) as [E2 _]. rewrite Es in E2. by destruct p. }
  assert (G : forall m', (forall x, nxt m' (Elt x) = nxt m (Elt x)) -> vals m' = vals m ->
    drains (iter_next zero l m') (Elt e) (value_of zero s <$> q) (Root l)).
  { intros m' Hn Hv. assert (HN : forall x, iter_next zero l m' (Elt x) = iter_next zero l m (Elt x)).
    { intros x. unfold iter_next, value. by rewrite Hn, Hv. }
    assert (HP : forall p e q, elems s l = p ++ e :: q -> iter_next zero l m' (Elt e) =
      match head q with Some x => Ok (Some (value_of zero s x), Elt x) | None => Ok (None, Root l) end).
    { clear p e q Es. intros p e q Es. rewrite HN, (iter_path zero m s l (S (length p)) (Elt e) I Hr).
      - rewrite Es. rewrite lookup_app_r by lia. replace (S (length p) - length p) with 1 by lia. by destruct q.
      - simpl. rewrite list_lookup_fmap, Es. by rewrite list_lookup_middle. }
    revert p e Es. induction q as [|x q IH]; intros p e Es.
    - exists (Elt e). split; [constructor|]. by rewrite (HP p e [] Es).
    - destruct (IH (p ++ [e]) x) as (r2 & P2 & E2); [by rewrite <- app_assoc|]. exists r2. split; [|done].
      rewrite fmap_cons. econstructor; [|exact P2]. by rewrite (HP p e _ Es). }
  split; by apply G.
Qed.
Print Assumptions C67_list_clear_does_not_stop_an_iterator.

(** Non-vacuity: list 0 holds elements 1 and 3, element 0 was removed from it *)
Definition demo : list (op Z) := [PushBack 0 10; PushFront 0 5; PushBack 1 7; Remove 0 0; PushBackList 0 0]%Z.
Example demo_handles : exists rs s, spec_execs 0%Z lists0 demo rs s /\ elems s 0 = [1; 3] /\ (forall l', 0 ∉ elems s l') /\ lost s 0 = None.
Proof.
  eexists _, _. split; [|split; [|split]].
  - unfold demo.
    eapply SpecCons; [done|split; reflexivity|].
    eapply SpecCons; [done|split; reflexivity|].
    eapply SpecCons; [done|split; reflexivity|].
    eapply SpecCons; [split; [cbv; lia|done]|split; [reflexivity|rewrite decide_True by (cbn; set_solver); reflexivity]|].
    eapply SpecCons; [done|split; reflexivity|].
    apply SpecNil.
  - reflexivity.
  - intros [|[|l']]; apply (bool_decide_unpack _); by vm_compute.
  - reflexivity.
Qed.
