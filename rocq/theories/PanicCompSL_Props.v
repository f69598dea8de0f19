(** C74: a comparator that panics; the skip list. *)
From Verif Require Import Base Iter_Model Iter_Spec SkipList_Model SkipList_Spec SkipList_Proofs SkipList_Proofs2 SkipList_Proofs3 SkipList_Proofs4 SkipList_Proofs5.
From Verif Require Import PanicComp_Model PanicCompSL_Model PanicComp_Spec PanicCompSL_Spec PanicComp_Proofs PanicCompSL_Proofs PanicCompSL_Proofs2.

Local Lemma ok_ex {A B} (r : res (A * B)) (P : A -> B -> Prop) :
  match r with Ok (x, y) => P x y | _ => False end -> exists x y, r = Ok (x, y) /\ P x y.
Proof. destruct r as [[x y]| |]; [|done|done]. intros H. by exists x, y. Qed.

(** a comparator that answers often enough: the call is that of the model *)
Theorem C74_skiplist_recovers_the_model {K V} (kzero : K) (vzero : V) (comp : K -> K -> Z) fuel (s : slist K V) o :
  recovers (sl_step_c vzero comp kzero fuel s o) (step kzero vzero comp fuel s o).
Proof. apply rec_sl_step. Qed.
Print Assumptions C74_skiplist_recovers_the_model.
Theorem C74_skiplist_lookups_recover_the_model {K V} (kzero : K) (vzero : V) (comp : K -> K -> Z) fuel (s : slist K V) k :
  recovers (sl_has_c comp fuel s k) (has comp fuel s k) /\
  recovers (sl_get_c vzero comp fuel s k) (get vzero comp fuel s k) /\
  recovers (sl_rank_c comp fuel s k) (rank comp fuel s k).
Proof. splits; [by apply rec_sl_has|by apply rec_sl_get|by apply rec_sl_rank]. Qed.
Print Assumptions C74_skiplist_lookups_recover_the_model.

(** every history with abandoned calls, every comparator, every random draws: no
    later call panics by itself or runs forever; the list is consistent in the
    sense of C40, and shows what remains of a sequence whose abandoned calls did
    what [lost_spec] says *)
Theorem C74_skiplist_stays_consistent {K V} (kzero : K) (vzero : V) (comp : K -> K -> Z) (os : list (op K V * nat)) fuel :
  length os < fuel ->
  exists rs s m, sl_run_c vzero comp kzero fuel (new_list kzero vzero) os = Ok (rs, s) /\
    seq_run_c comp [] os.*1 rs m /\ shows vzero fuel s m.
Proof.
  intros Hf. destruct (sl_run_c_new kzero vzero comp os fuel Hf) as (rs & s & ns & E & HR & HZ & HL & HS).
  exists rs, s, (ents s ns). splits; [done|done|]. apply shows_ok; [done|lia|apply HZ].
Qed.
Print Assumptions C74_skiplist_stays_consistent.

(** an abandoned insertion, Delete or DeleteByWholeMapping changes nothing at
    all, whatever state it starts from; nor does an abandoned Has, Get or Rank;
    an abandoned DeleteKeys leaves what DeleteKeys of a shorter list leaves *)
Theorem C74_skiplist_abandoned_calls_change_nothing {K V} (kzero : K) (vzero : V) (comp : K -> K -> Z) fuel (s s' : slist K V) o n :
  sl_step_c vzero comp kzero fuel s o n = Crash s' ->
  match o with
  | OInsertUnique _ _ _ | OInsertEquals _ _ _ | ODelete _ | ODeleteWhole _ _ _ => s' = s
  | ODeleteKeys ks => exists j z, j < length ks /\ step kzero vzero comp fuel s (ODeleteKeys (take j ks)) = Ok (RInt z, s')
  | ODeleteRange _ _ => True
  | OClear | OSetValue _ _ => False
  end.
Proof.
  intros H. destruct o as [k v u|k v u|k|ks|k v vc|mi ma| |i v]; cbn [sl_step_c] in *; try done; try (cbn in H; discriminate).
  - apply bind_crash in H as [H|([b s1] & n1 & _ & H)]; [|discriminate]. by apply ab_sl_insert in H.
  - apply bind_crash in H as [H|([b s1] & n1 & _ & H)]; [|discriminate]. by apply ab_sl_insert in H.
  - apply bind_crash in H as [H|([b s1] & n1 & _ & H)]; [|discriminate]. by apply ab_sl_delete in H.
  - apply bind_crash in H as [H|([b s1] & n1 & _ & H)]; [|discriminate].
    destruct (ab_sl_delete_keys kzero comp fuel ks s _ _ H) as (j & z & Hj & E). exists j, z. split; [done|].
    cbn [step]. by rewrite E.
  - apply bind_crash in H as [H|([b s1] & n1 & _ & H)]; [|discriminate].
    unfold sl_delete_whole_c in H. apply bind_crash in H as [H|([[x|] r] & n1 & _ & H)].
    + by apply ab_sl_search in H.
    + apply bind_crash in H as [H|(c & n3 & _ & H)]; [by destruct n1; inversion H|].
      destruct (decide _); [|discriminate]. apply bind_crash in H as [H|([b s1] & n2 & _ & H)]; [|discriminate].
      by apply ab_sl_delete in H.
    + discriminate.
Qed.
Print Assumptions C74_skiplist_abandoned_calls_change_nothing.

Theorem C74_skiplist_abandoned_lookups_change_nothing {K V} (kzero : K) (vzero : V) (comp : K -> K -> Z) fuel (s s' : slist K V) k n :
  sl_has_c comp fuel s k n = Crash s' \/ sl_get_c vzero comp fuel s k n = Crash s' \/ sl_rank_c comp fuel s k n = Crash s' -> s' = s.
Proof.
  intros [H|[H|H]]; apply bind_crash in H as [H|([[x|] r] & n1 & _ & H)]; try discriminate; by apply ab_sl_search in H.
Qed.
Print Assumptions C74_skiplist_abandoned_lookups_change_nothing.

(** DeleteRangeByKey really can stop half way: of the entries 9, 5, 1 of the
    block 1 <= k < 10 two are gone, the third is still there *)
Theorem C74_skiplist_range_deletion_is_atomic_refuted :
  exists rs s, sl_run_c 0%Z Zcomp 0%Z 20 (new_list 0 0)%Z
    [(OInsertUnique 9 90 4294967294, 99%nat); (OInsertUnique 5 50 4294967294, 99%nat); (OInsertUnique 1 10 4294967294, 99%nat); (ODeleteRange 1 10, 3%nat)]%Z = Ok (rs, s) /\
    rs = [Some (RBool true); Some (RBool true); Some (RBool true); None] /\ size s = 1%Z.
Proof. apply ok_ex. by vm_compute. Qed.
Print Assumptions C74_skiplist_range_deletion_is_atomic_refuted.

(** non-vacuity: an abandoned insertion and an abandoned lookup *)
Example C74_skiplist_example :
  exists rs s, sl_run_c 0%Z Zcomp 0%Z 20 (new_list 0 0)%Z [(OInsertUnique 5 50 4294967294, 99%nat); (OInsertUnique 3 30 4294967294, 0%nat); (ODeleteKeys [7; 5], 1%nat)]%Z = Ok (rs, s) /\
    rs = [Some (RBool true); None; None] /\ size s = 1%Z /\ sl_has_c Zcomp 20 s 5%Z 0 = Crash s.
Proof.
  assert (exists rs s, sl_run_c 0%Z Zcomp 0%Z 20 (new_list 0 0)%Z [(OInsertUnique 5 50 4294967294, 99%nat); (OInsertUnique 3 30 4294967294, 0%nat); (ODeleteKeys [7; 5], 1%nat)]%Z = Ok (rs, s) /\
    (rs = [Some (RBool true); None; None] /\ size s = 1%Z /\ match sl_has_c Zcomp 20 s 5%Z 0 with Crash _ => True | _ => False end)) as (rs & s & E & H1 & H2 & H3).
  { apply ok_ex. by vm_compute. }
  exists rs, s. splits; try done. clear E. destruct (sl_has_c _ _ _ _ _) as [| s'| |] eqn:E; try done.
  f_equal. apply (C74_skiplist_abandoned_lookups_change_nothing 0%Z 0%Z Zcomp 20 s s' 5%Z 0). by left.
Qed.
