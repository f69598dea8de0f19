(** C75: a comparator that panics; the B+ tree. *)
From Verif Require Import Base BPlus_Model BPlus_Spec BPlus_Proofs BPlus_Proofs2 BPlus_Proofs11 BPlus_Proofs12.
From Verif Require Import PanicComp_Model PanicComp_Spec PanicComp_Proofs PanicCompBP_Model PanicCompBP_Spec PanicCompBP_Proofs PanicCompBP_Proofs2 PanicCompBP_Proofs3 PanicCompBP_Proofs4 PanicCompBP_Proofs6 PanicCompBP_Proofs7 PanicCompBP_Proofs8.

Local Lemma ok_ex {A B} (r : res (A * B)) (P : A -> B -> Prop) :
  match r with Ok (x, y) => P x y | _ => False end -> exists x y, r = Ok (x, y) /\ P x y.
Proof. destruct r as [[x y]| |]; [|done|done]. intros H. by exists x, y. Qed.

(** a comparator that answers often enough: the call is that of the model *)
Theorem C75_bplus_recovers_the_model {K V} (kzero : K) (vzero : V) comp compV o (t : @tree K V) :
  recovers (do_op_c kzero vzero comp compV o t) (do_op kzero vzero comp compV o t).
Proof. apply rec_do_op. Qed.
Print Assumptions C75_bplus_recovers_the_model.

(** Any tree, any comparator: an abandoned call leaves Size, the degree and the
    root pointer as they were, and an abandoned lookup leaves everything. *)
Theorem C75_bplus_abandoned_calls_keep_size {K V} (kzero : K) (vzero : V) comp compV o (t t' : @tree K V) n :
  do_op_c kzero vzero comp compV o t n = Crash t' ->
  size t' = size t /\ degree t' = degree t /\ root t' = root t
  /\ match o with GetVerify _ => t' = t | _ => True end.
Proof.
  intros H. destruct (ab_meta_op kzero vzero comp compV o t n t' H) as (A1 & A2 & A3). splits; try done.
  destruct o as [k v|k v|k|k v|k]; try done. cbn [do_op_c] in H.
  apply bind_crash in H as [H|([v b] & n' & _ & H)]; [|discriminate]. symmetry. exact (ab_get_verify vzero comp k t n t' H).
Qed.
Print Assumptions C75_bplus_abandoned_calls_keep_size.

(** An abandoned InsertEqual adds nothing.  If the root had room, the entries
    are as before, or one is stored twice and a later one is gone; if the root
    was full, its upper part, at least degree-1 entries, is gone too. *)
Theorem C75_bplus_abandoned_insert_equal {K V} (kzero : K) (vzero : V) comp (t t' : @tree K V) d k v n :
  2 <= degree t -> tree_stands t d (reading t) ->
  insert_equal_c kzero vzero comp k v t n = Crash t' -> insertion_cut comp t t'.
Proof.
  intros HM T HC. unfold insert_equal_c in HC. apply bind_crash in HC as [HC|([? ?] & ? & _ & HC)]; [|discriminate].
  destruct (insert_c_cut kzero vzero comp t d _ (k, v) n t' HM T HC) as (w' & es & lost & (A1 & A2 & A3 & A4 & _ & A5) & B1 & B2 & B3).
  pose proof (stands_reading _ _ _ A1) as <-. unfold insertion_cut. splits; try done; [by exists d|]. by exists es, lost.
Qed.
Print Assumptions C75_bplus_abandoned_insert_equal.

(** so does an abandoned InsertUnique, unless it was abandoned in its lookup:
    then nothing has changed *)
Theorem C75_bplus_abandoned_insert_unique {K V} (kzero : K) (vzero : V) comp (t t' : @tree K V) d k v n :
  2 <= degree t -> tree_stands t d (reading t) ->
  insert_unique_c kzero vzero comp k v t n = Crash t' -> t' = t \/ insertion_cut comp t t'.
Proof.
  intros HM T HC. unfold insert_unique_c in HC. apply bind_crash in HC as [HC|(ex & n' & _ & HC)].
  { left. symmetry. exact (ab_contains_key comp k t n t' HC). }
  destruct ex; [discriminate|]. right. by eapply (C75_bplus_abandoned_insert_equal kzero vzero comp t t' d k v n').
Qed.
Print Assumptions C75_bplus_abandoned_insert_unique.

(** An abandoned deletion, which may have moved entries between nodes, leaves
    the entries as they were, or one of them overwritten by its left neighbour.
    Lookups still work, but the tree may have been left with a root without
    keys over a single child. *)
Theorem C75_bplus_abandoned_deletion {K V} (kzero : K) (vzero : V) comp compV (t t' : @tree K V) d o n :
  2 <= degree t -> tree_stands t d (reading t) -> ~ no_delete o ->
  do_op_c kzero vzero comp compV o t n = Crash t' ->
  size t' = size t
  /\ (entries (reading t') = entries (reading t) \/ overwrite (entries (reading t)) (entries (reading t')))
  /\ (tree_stands t' d (reading t') \/ exists d', d = S d' /\ tree_hollow t' d' (reading t')).
Proof.
  intros HM T Hnd HC.
  assert (Del : forall k m, delete_key_c comp k t m = Crash t' -> size t' = size t
    /\ (entries (reading t') = entries (reading t) \/ overwrite (entries (reading t)) (entries (reading t')))
    /\ (tree_stands t' d (reading t') \/ exists d', d = S d' /\ tree_hollow t' d' (reading t'))).
  { intros k m Hm. unfold delete_key_c in Hm. apply bind_crash in Hm as [Hm|(ex & m' & Hx & Hm)].
    { destruct (ab_contains_key comp k t m t' Hm). splits; auto. }
    destruct (found_entry_stands comp k t d _ T) as (oe & _ & E & So).
    pose proof (rec_contains_key comp k t) as RC. rewrite E in RC. apply (rec_cases kzero vzero comp compV _ _ m) in RC as [(m2 & RC)|(s & RC)]; [|by rewrite RC in Hx].
    rewrite RC in Hx. injection Hx as <- <-. destruct oe as [e|]; cycle 1.
    { rewrite bool_decide_false in Hm by by intros [? ?]. discriminate. }
    rewrite bool_decide_true in Hm by by eexists. destruct (So e eq_refl) as [_ He].
    apply bind_crash in Hm as [Hm|([? ?] & ? & _ & Hm)]; [|discriminate].
    assert (Hne : entries (reading t) <> []). { intros H. rewrite H in He. by apply elem_of_nil in He. }
    destruct (delete_c_cut comp t d _ k m2 t' HM T Hne Hm) as ((A1 & _) & w' & A2 & A3). split; [done|].
    assert (Ew : reading t' = w'). { destruct A3 as [A3|(d' & _ & A3)]; [exact (stands_reading _ _ _ A3)|exact (hollow_reading _ _ _ A3)]. }
    rewrite Ew. done. }
  destruct o as [k v|k v|k|k v|k]; try by destruct Hnd.
  - cbn [do_op_c] in HC. unfold bpair_c in HC. apply bind_crash in HC as [HC|([? ?] & ? & _ & HC)]; [|discriminate]. by eapply Del.
  - cbn [do_op_c] in HC. unfold bpair_c, delete_by_whole_mapping_c in HC. apply bind_crash in HC as [HC|([? ?] & ? & _ & HC)]; [|discriminate].
    apply bind_crash in HC as [HC|(oe & m & _ & HC)].
    { destruct (ab_found_entry comp k t n t' HC). splits; auto. }
    destruct oe as [e|]; [|discriminate]. apply bind_crash in HC as [HC|(c & m' & _ & HC)].
    { destruct m; inversion HC; subst t'. splits; auto. }
    destruct (_ <? _)%Z; [|discriminate]. by eapply Del.
Qed.
Print Assumptions C75_bplus_abandoned_deletion.

(** every tree reached without an abandoned call is of the kind the three
    theorems above start from *)
Theorem C75_bplus_reached_trees_stand {K V} (kzero : K) (vzero : V) comp compV deg (os : list (@op K V)) t rs :
  (2 <= deg)%Z -> run_new kzero vzero comp compV deg os = Ok (t, rs) ->
  2 <= degree t /\ exists d, tree_stands t d (reading t).
Proof.
  intros Hd E. destruct (run_new_ok kzero vzero comp compV deg os Hd) as [[H _]|(t0 & rs' & d & w & E' & L & T & Dg & _)]; [by rewrite H in E|].
  rewrite E in E'. injection E' as <- <-. split; [lia|]. exists d. rewrite (reading_ok _ _ _ T). by eapply reads_stands.
Qed.
Print Assumptions C75_bplus_reached_trees_stand.

(** Histories of insertions and lookups, abandoned anywhere and any number of
    times, any comparator: no call panics by itself or runs forever, the tree
    stays balanced and within its bounds, in order if the comparator orders;
    every entry was inserted by a call that returned, and Size is the number of
    those calls (which may be more than the number of entries left). *)
Theorem C75_bplus_insertions_and_lookups {K V} (kzero : K) (vzero : V) comp compV deg (os : list (@op K V * nat)) :
  (2 <= deg)%Z -> Forall (fun o => no_delete o.1) os ->
  exists t rs d, bp_run_new_c kzero vzero comp compV deg os = Ok (t, rs) /\ length rs = length os
    /\ 2 <= degree t /\ tree_stands t d (reading t) /\ (cmp_ok comp -> in_order comp (reading t))
    /\ size t = Z.of_nat (length (stored_c os rs))
    /\ forall e, e ∈ entries (reading t) -> e ∈ stored_c os rs.
Proof.
  intros Hd F. destruct (new_map_ok kzero vzero comp compV deg) as (t0 & E & T0 & D0); [lia|].
  unfold bp_run_new_c. rewrite E. cbn [rbind].
  assert (T1 : tree_stands t0 0 []) by by eapply reads_stands.
  destruct (run_c_ok kzero vzero comp compV os t0 0 [] ltac:(lia) T1 F) as (t & rs & d & w & A1 & A2 & A3 & A4 & A5 & A6 & A7).
  exists t, rs, d. rewrite (stands_reading _ _ _ A3). splits; try done.
  - lia.
  - intros C. apply A5; [done|constructor].
  - rewrite A6. destruct T0 as (?&?&?&?&?&?&Hs). rewrite Hs. cbn. lia.
  - intros e He. destruct (A7 e He) as [H|H]; [by apply elem_of_nil in H|done].
Qed.
Print Assumptions C75_bplus_insertions_and_lookups.

(** All histories, abandoned anywhere and any number of times, any comparator:
    no call runs forever; a call panics by itself only if there is a deletion in
    the history; otherwise the tree is balanced and within its bounds, but
    possibly for a root without keys, every entry was inserted by a call that
    returned, and there are at most Size of them. *)
Theorem C75_bplus_all_histories {K V} (kzero : K) (vzero : V) comp compV deg (os : list (@op K V * nat)) :
  (2 <= deg)%Z ->
  (bp_run_new_c kzero vzero comp compV deg os = Panic /\ ~ Forall (fun o => no_delete o.1) os)
  \/ exists t rs d, bp_run_new_c kzero vzero comp compV deg os = Ok (t, rs) /\ length rs = length os
    /\ (tree_stands t d (reading t) \/ tree_hollow t d (reading t))
    /\ (Z.of_nat (length (entries (reading t))) <= size t)%Z
    /\ forall e, e ∈ entries (reading t) -> e ∈ stored_c os rs.
Proof.
  intros Hd. destruct (new_map_ok kzero vzero comp compV deg) as (t0 & E & T0 & D0); [lia|].
  unfold bp_run_new_c. rewrite E. cbn [rbind].
  destruct (run_c_stays kzero vzero comp compV os t0 0 [] ltac:(lia)) as [H|(t & rs & d & w & A1 & A2 & A3 & A4 & A7)]; [left; by eapply reads_stands|by left|right].
  exists t, rs, d. pose proof (stays_reading _ _ _ A3) as ->. splits; try done.
  - destruct A3 as [(?&?&?&?&?&?&?)|(?&?&?&?&?&?&?&?&?&?&?&?&?&?&?)]; done.
  - intros e He. destruct (A7 e He) as [H|H]; [by apply elem_of_nil in H|done].
Qed.
Print Assumptions C75_bplus_all_histories.

(** A tree of degree 3 with the keys 10, 20, 30.  InsertEqual(5) is abandoned
    after two comparisons: 20 is stored twice and 30 is gone, Size says 3. *)
Theorem C75_bplus_abandoned_insertion_loses_an_entry_refuted :
  let i k n := (InsertEqual k 0%Z, n) in
  exists t rs, bp_run_new_c 0%Z 0%Z Zcomp Zcomp 3 [i 10 99%nat; i 20 99%nat; i 30 99%nat; i 5 2%nat; (GetVerify 30, 99%nat)]%Z = Ok (t, rs)
    /\ rs = replicate 3 (Some (RBool true)) ++ [None; Some (RVal 0%Z false)]
    /\ entries (reading t) = [(10, 0); (20, 0); (20, 0)]%Z /\ size t = 3%Z.
Proof. apply ok_ex. vm_compute. done. Qed.
Print Assumptions C75_bplus_abandoned_insertion_loses_an_entry_refuted.

(** A tree of degree 2 with 1, 2, 3 in a full root.  InsertEqual(4) is abandoned
    at its first comparison: 3 is gone, Size says 3. *)
Theorem C75_bplus_abandoned_insertion_loses_the_upper_part_refuted :
  let i k n := (InsertEqual k 0%Z, n) in
  exists t rs, bp_run_new_c 0%Z 0%Z Zcomp Zcomp 2 [i 1 99%nat; i 2 99%nat; i 3 99%nat; i 4 0%nat; (GetVerify 3, 99%nat)]%Z = Ok (t, rs)
    /\ rs = replicate 3 (Some (RBool true)) ++ [None; Some (RVal 0%Z false)]
    /\ entries (reading t) = [(1, 0); (2, 0)]%Z /\ size t = 3%Z.
Proof. apply ok_ex. vm_compute. done. Qed.
Print Assumptions C75_bplus_abandoned_insertion_loses_the_upper_part_refuted.

(** The keys 1..4 are put in and 4 and 1 removed.  With or without a Delete(2)
    abandoned at its third comparison, all entries can be found after this; but
    with it, deleting 2 and then 3 panics (a nil child is read), without it not. *)
Theorem C75_bplus_deletion_after_an_abandoned_deletion_panics_refuted :
  let i k := (InsertEqual k 0%Z, 99%nat) in let del k := (Delete k, 99%nat) in let get k := (GetVerify k, 99%nat) in
  let h := [i 1; i 2; i 3; i 4; del 4; del 1]%Z in
  (exists t rs, bp_run_new_c 0%Z 0%Z Zcomp Zcomp 2 (h ++ [(Delete 2, 2%nat); get 2; get 3])%Z = Ok (t, rs)
     /\ rs = replicate 6 (Some (RBool true)) ++ [None; Some (RVal 0%Z true); Some (RVal 0%Z true)])
  /\ bp_run_new_c 0%Z 0%Z Zcomp Zcomp 2 (h ++ [(Delete 2, 2%nat); get 2; get 3; del 2; del 3])%Z = Panic
  /\ (exists t rs, bp_run_new_c 0%Z 0%Z Zcomp Zcomp 2 (h ++ [get 2; get 3; del 2; del 3])%Z = Ok (t, rs)
     /\ rs = replicate 6 (Some (RBool true)) ++ [Some (RVal 0%Z true); Some (RVal 0%Z true); Some (RBool true); Some (RBool true)]).
Proof. cbv zeta. split; [|split]; [apply ok_ex| |apply ok_ex]; by vm_compute. Qed.
Print Assumptions C75_bplus_deletion_after_an_abandoned_deletion_panics_refuted.

(** the hypotheses are met: a tree of two levels; an insertion and a deletion
    abandoned in it; the deletion leaves a root without keys *)
Example C75_two_levels :
  exists t rs, run_new 0%Z 0%Z Zcomp Zcomp 2 [InsertEqual 1 0; InsertEqual 2 0; InsertEqual 3 0; InsertEqual 4 0; Delete 4; Delete 1]%Z = Ok (t, rs)
    /\ reading t = [Entry (2, 0); Sep (2, 0); Entry (3, 0)]%Z
    /\ (match do_op_c 0%Z 0%Z Zcomp Zcomp (InsertEqual 1 0)%Z t 1 with Crash t' => reading t' = reading t | _ => False end)
    /\ (match do_op_c 0%Z 0%Z Zcomp Zcomp (Delete 2)%Z t 2 with
        | Crash t' => reading t' = [Entry (2, 0); Entry (3, 0)]%Z /\ (num <$> (hp t' <$> root t')) = Some 0 | _ => False end).
Proof. apply ok_ex. vm_compute. done. Qed.
Example C75_full_root :
  exists t rs, run_new 0%Z 0%Z Zcomp Zcomp 2 [InsertEqual 1 0; InsertEqual 2 0; InsertEqual 3 0]%Z = Ok (t, rs)
    /\ root_full t /\ exists t', insert_equal_c 0%Z 0%Z Zcomp 4%Z 0%Z t 0 = Crash t'.
Proof.
  apply ok_ex. match goal with |- match ?x with _ => _ end => let y := eval vm_compute in x in change x with y end.
  cbv beta iota. split; [eexists; split; [reflexivity|by vm_compute]|]. eexists. by vm_compute.
Qed.
Example C75_no_delete : Forall (fun o => no_delete o.1) [(InsertEqual 1 0, 0%nat); (GetVerify 3, 5%nat)]%Z.
Proof. repeat constructor. Qed.
