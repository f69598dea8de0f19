(** C67, skip list: nodes and running iterators while the list changes. *)
From Verif Require Import Base Iter_Model Iter_Spec Split_Model WalkSplit_Model WalkSplit_Spec WalkSplit_Proofs
  SkipList_Model SkipList_Spec SkipList_Proofs SkipList_Proofs2 SkipList_Proofs3 SkipList_Proofs4 SkipList_Proofs5.

Local Lemma iter_from {K V} (s : slist K V) ns : repr s ns -> forall R C, ns = C ++ R -> drains (iter_next s) (head R) (ents s R) None.
Proof.
  intros HR. induction R as [|x R IH]; intros C EN.
  - exists None. split; [constructor|done].
  - destruct (IH (C ++ [x])) as (s1 & P & Ex); [by rewrite <- app_assoc|].
    destruct (next_of s ns C x R HR EN) as [_ En].
    exists s1. split; [|done]. cbn [ents head]. econstructor; [|exact P]. cbn. by rewrite En.
Qed.
(** [ns'] comes from [ns] by deleting some nodes *)
Local Lemma del_handles {K V} (comp : K -> K -> Z) (s : slist K V) ns k fuel : repr s ns -> length ns < fuel ->
  exists b s' ns', SkipList_Model.delete comp fuel s k = Ok (b, s') /\ repr s' ns' /\
    (forall l, entry s' l = entry s l) /\ ns' `sublist_of` ns.
Proof.
  intros HR Hf. destruct (delete_ok comp s ns k fuel HR Hf) as (b & s' & ns' & E & HR' & _ & HK & HS).
  exists b, s', ns'. split; [done|]. split; [done|]. split.
  - intros l. unfold entry. by destruct (HK l) as [-> ->].
  - destruct b; [|by destruct HS as [_ ->]]. destruct HS as (A & x & B & -> & -> & _).
    apply sublist_app; [done|]. by apply sublist_cons.
Qed.
Local Lemma dels_handles {K V} (comp : K -> K -> Z) ks : forall (s : slist K V) ns fuel, repr s ns -> length ns < fuel ->
  exists c s' ns', delete_keys comp fuel s ks = Ok (c, s') /\ repr s' ns' /\
    (forall l, entry s' l = entry s l) /\ ns' `sublist_of` ns.
Proof.
  induction ks as [|k ks IH]; intros s ns fuel HR Hf; cbn [delete_keys].
  - exists 0%Z, s, ns. done.
  - destruct (del_handles comp s ns k fuel HR Hf) as (b & s1 & ns1 & -> & HR1 & HE1 & HS1). cbn [rbind].
    pose proof (sublist_length _ _ HS1) as HL.
    destruct (IH s1 ns1 fuel HR1 ltac:(lia)) as (c & s2 & ns2 & -> & HR2 & HE2 & HS2). cbn [rbind].
    eexists _, s2, ns2. split; [done|]. split; [done|]. split; [intros l; by rewrite HE2|by etrans].
Qed.

(** Every call but Clear leaves the entries of all nodes alone (but for SetValue,
    which changes the value of its node), keeps the nodes it does not
    remove in their order, and adds at most one; a running iterator
    that holds a node still in the list yields the entries from there on, as
    the list is now. *)
Theorem C67_skiplist_nodes_and_iterators :
  forall (K V : Type) (kzero : K) (vzero : V) (comp : K -> K -> Z) os fuel rs s o r s', length os + 1 < fuel ->
  run kzero vzero comp fuel (new_list kzero vzero) os = Ok (rs, s) -> step kzero vzero comp fuel s o = Ok (r, s') ->
  o <> OClear ->
  exists ns ns', node_path (next s) (first s) ns /\ node_path (next s') (first s') ns' /\
    (forall l, l ∈ ns -> entry s' l =
       match o with OSetValue i v => if decide (ns !! i = Some l) then ((entry s l).1, v) else entry s l | _ => entry s l end) /\
    (ns' `sublist_of` ns \/ exists A n B, ns = A ++ B /\ ns' = A ++ n :: B /\ n ∉ ns) /\
    (forall X l Y, ns' = X ++ l :: Y -> drains (iter_next s') (Some l) (entry s' <$> l :: Y) None).
Proof.
  intros K V kz vz comp os fuel rs s o r s' Hf E ES Hc.
  destruct (run_new comp kz vz os fuel ltac:(lia)) as (rs' & s1 & ns & E' & HR & HZ & HL & _). rewrite E in E'. injection E' as <- <-.
  assert (G : exists ns', repr s' ns' /\ (forall l, l ∈ ns -> entry s' l =
       match o with OSetValue i v => if decide (ns !! i = Some l) then ((entry s l).1, v) else entry s l | _ => entry s l end) /\
    (ns' `sublist_of` ns \/ exists A n B, ns = A ++ B /\ ns' = A ++ n :: B /\ n ∉ ns)).
  { assert (Hb : brk s ∉ ns).
    { intros Hl. pose proof (r_brk _ _ HR) as F. rewrite Forall_forall in F. specialize (F (brk s) ltac:(by right)). lia. }
    assert (HI : forall k v u d b, insert comp fuel s k v u d = Ok (b, s') -> exists ns', repr s' ns' /\ (forall l, l ∈ ns -> entry s' l = entry s l) /\
      (ns' `sublist_of` ns \/ exists A n B, ns = A ++ B /\ ns' = A ++ n :: B /\ n ∉ ns)).
    { intros k v u d b EI. destruct (insert_ok comp s ns k v u d fuel HR ltac:(lia)) as (s2 & A & B & EI2 & EN & HR' & _ & _ & _ & HK & _).
      rewrite EI in EI2. injection EI2 as -> <-. exists (A ++ brk s :: B). split; [done|]. split.
      - intros l Hl. unfold entry. destruct (HK l) as [-> ->]; [congruence|done].
      - right. exists A, (brk s), B. done. }
    destruct o as [k v u|k v u|k|ks|k v vc|min max| |i v]; cbn [step] in ES; [| | | | | |done|].
    - destruct (insert comp fuel s k v true u) as [[b s2]| |] eqn:EI; [|done|done]. injection ES as _ ->. by eapply HI.
    - destruct (insert comp fuel s k v false u) as [[b s2]| |] eqn:EI; [|done|done]. injection ES as _ ->. by eapply HI.
    - destruct (del_handles comp s ns k fuel HR ltac:(lia)) as (b & s2 & ns2 & ED & HR2 & HE2 & HS2). rewrite ED in ES. injection ES as _ <-.
      exists ns2. auto.
    - destruct (dels_handles comp ks s ns fuel HR ltac:(lia)) as (b & s2 & ns2 & ED & HR2 & HE2 & HS2). rewrite ED in ES. injection ES as _ <-.
      exists ns2. auto.
    - unfold delete_whole in ES. destruct (search_ok comp s ns k fuel HR ltac:(lia)) as (x & z & EX & _). rewrite EX in ES. cbn [rbind] in ES.
      destruct x as [x|]; [|injection ES as _ <-; exists ns; auto].
      case_decide; [|injection ES as _ <-; exists ns; auto].
      destruct (del_handles comp s ns k fuel HR ltac:(lia)) as (b & s2 & ns2 & ED & HR2 & HE2 & HS2). rewrite ED in ES. injection ES as _ <-.
      exists ns2. auto.
    - destruct (delete_range_ok comp s ns min max fuel HR ltac:(lia)) as (s2 & A & M & R & ED & EN & HR' & _ & HK & _). rewrite ED in ES. injection ES as _ <-.
      exists (A ++ R). split; [done|]. split.
      + intros l _. unfold entry. by destruct (HK l) as [-> ->].
      + left. rewrite EN. apply sublist_app; [done|]. by apply sublist_inserts_l.
    - rewrite (nth_node_ok s ns HR) in ES. exists ns. destruct (ns !! i) as [x|] eqn:Ei; injection ES as _ <-.
      + pose proof (r_nodup _ _ HR) as ND. apply NoDup_cons in ND as [N1 N2].
        assert (Hl : x <> hdr s) by (intros ->; apply N1; by eapply elem_of_list_lookup_2).
        destruct (set_value_ok s ns x v HR Hl) as (HR' & Hh & HK & HV). split; [done|]. split; [|by left].
        intros l _. unfold entry. rewrite HK, HV. cbn [fst]. case_decide as D; [subst; by rewrite decide_True|]. rewrite decide_False; [done|]. congruence.
      + split; [done|]. split; [|by left]. intros l _. by rewrite decide_False. }
  destruct G as (ns' & HR' & HE & HS). exists ns, ns'. splits; [by apply node_path_ok|by apply node_path_ok|done|done|].
  intros X l Y EN. apply (iter_from s' ns' HR' (l :: Y) X EN).
Qed.
Print Assumptions C67_skiplist_nodes_and_iterators.

(** Clear hangs a new header in front of nothing and leaves the old nodes as
    they are: a running iterator goes on over the old entries *)
Theorem C67_skiplist_clear_and_iterators :
  forall (K V : Type) (kzero : K) (vzero : V) (comp : K -> K -> Z) os fuel rs s, length os < fuel ->
  run kzero vzero comp fuel (new_list kzero vzero) os = Ok (rs, s) ->
  exists ns, node_path (next s) (first s) ns /\ first (clear kzero vzero s) = None /\
    forall X l Y, ns = X ++ l :: Y -> drains (iter_next (clear kzero vzero s)) (Some l) (entry s <$> l :: Y) None.
Proof.
  intros K V kz vz comp os fuel rs s Hf E.
  destruct (run_new comp kz vz os fuel ltac:(lia)) as (rs' & s1 & ns & E' & HR & HZ & HL & _). rewrite E in E'. injection E' as <- <-.
  exists ns. split; [by apply node_path_ok|]. split; [by apply (first_of _ [] (repr_init comp kz vz (hp s) (brk s)))|].
  assert (HI : forall l, l ∈ ns -> iter_next (clear kz vz s) (Some l) = iter_next s (Some l)).
  { intros l Hl. pose proof (r_brk _ _ HR) as F. rewrite Forall_forall in F. specialize (F l ltac:(by right)).
    unfold iter_next, clear, init, entry, rd_fwd. cbn. rewrite fn_lookup_insert_ne by lia. done. }
  assert (G : forall Y X, ns = X ++ Y -> drains (iter_next (clear kz vz s)) (head Y) (entry s <$> Y) None).
  { induction Y as [|l Y IH]; intros X EN.
    - exists None. split; [constructor|done].
    - destruct (IH (X ++ [l])) as (s1 & P & Ex); [by rewrite <- app_assoc|].
      destruct (next_of s ns X l Y HR EN) as [_ En]. exists s1. split; [|done]. cbn [head]. rewrite fmap_cons. econstructor; [|exact P].
      rewrite HI by (rewrite EN; apply elem_of_app; right; left). cbn. by rewrite En. }
  intros X l Y EN. exact (G (l :: Y) X EN).
Qed.
Print Assumptions C67_skiplist_clear_and_iterators.

(** Non-vacuity: a list of three nodes; a further insertion, and a removal of a
    range that leaves two nodes, one of which an iterator holds *)
Local Lemma ok_ex {A B : Type} (r : res (A * B)) (P : A -> B -> Prop) :
  match r with Ok (x, y) => P x y | _ => False end -> exists x y, r = Ok (x, y) /\ P x y.
Proof. destruct r as [[x y]| |]; [eauto|done|done]. Qed.
Example demo_handles : exists rs s, run 0%Z 0%Z Zcomp 20 (new_list 0 0)%Z
    [OInsertUnique 5 50 0; OInsertUnique 3 30 1; OInsertUnique 1 10 2]%Z = Ok (rs, s) /\
  node_path (next s) (first s) [3; 2; 1] /\
  (match step 0%Z 0%Z Zcomp 20 s (ODeleteRange 3 5)%Z with
   | Ok (r, s') => r = RInt 1 /\ first s' = Some 3 /\ next s' 3 = Some 1 /\ entry s' 2 = (3, 30)%Z | _ => False end) /\
  (match step 0%Z 0%Z Zcomp 20 s (OInsertUnique 0 0 0)%Z with
   | Ok (r, s') => r = RBool true /\ node_path (next s') (first s') [4; 3; 2; 1] | _ => False end).
Proof. apply ok_ex. by vm_compute. Qed.
