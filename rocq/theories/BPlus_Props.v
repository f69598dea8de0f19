(** Property theorems for the B+ tree (C45-C49 and its part of C59). *)
From Verif Require Import Base BPlus_Model BPlus_Spec BPlus_Proofs BPlus_Proofs2 BPlus_Proofs3 BPlus_Proofs4 BPlus_Proofs5 BPlus_Proofs6 BPlus_Proofs7 BPlus_Proofs8 BPlus_Proofs9 BPlus_Proofs10 BPlus_Proofs11 BPlus_Proofs12 BPlus_Proofs14 BPlus_Proofs15 BPlus_Proofs13.

Local Lemma ok_ex {A B} (r : res (A * B)) (P : A -> B -> Prop) :
  match r with Ok (x, y) => P x y | _ => False end -> exists x y, r = Ok (x, y) /\ P x y.
Proof. destruct r as [[x y]| |]; [|done|done]. intros H. by exists x, y. Qed.

(** ** C45: insertions *)

(** Degree >= 2, an ordering comparator, insertions and lookups only: no call
    panics, the tree is balanced and within its occupancy bounds
    ([tree_reads]), reads in order, and stores exactly what the insertions
    said they stored; Size counts it, and InsertEqual always stores. *)
Theorem C45_insertions_lose_nothing {K V} (kzero : K) (vzero : V) comp compV deg (os : list (@op K V)) :
  cmp_ok comp -> (2 <= deg)%Z -> Forall no_delete os ->
  exists t rs d, run_new kzero vzero comp compV deg os = Ok (t, rs) /\ length rs = length os
    /\ tree_reads t d (reading t) /\ in_order comp (reading t)
    /\ entries (reading t) ≡ₚ stored os rs /\ size t = Z.of_nat (length (stored os rs))
    /\ (forall i k v, os !! i = Some (InsertEqual k v) -> rs !! i = Some (RBool true)).
Proof.
  intros C Hd F. destruct (run_new_ok kzero vzero comp compV deg os Hd) as [[_ H]|(t & rs & d & w & E & L & T & _ & S & N)]; [done|].
  destruct (N F) as [P O]. exists t, rs, d. rewrite (reading_ok _ _ _ T). splits; try done.
  - by apply O.
  - destruct T as (?&?&?&?&?&?&Hs). by rewrite Hs, P.
  - assert (G : forall os t0 t rs i k v, run kzero vzero comp compV os t0 = Ok (t, rs) -> os !! i = Some (InsertEqual k v) -> rs !! i = Some (RBool true)).
    { clear. induction os as [|o os IH]; intros t0 t rs i k v E Hi; [done|]. cbn [run] in E.
      destruct (do_op kzero vzero comp compV o t0) as [[t1 r]| |] eqn:E1; [|done|done]. cbn [rbind] in E.
      destruct (run kzero vzero comp compV os t1) as [[t2 rs']| |] eqn:E2; [|done|done]. injection E as <- <-.
      destruct i as [|i]; [|cbn in Hi |- *; exact (IH _ _ _ _ _ _ E2 Hi)]. injection Hi as ->. cbn [do_op] in E1. unfold insert_equal, bpair in E1.
      destruct (insert _ _ _ _ _ _) as [[? ?]| |]; [|done|done]. cbn in E1. by injection E1 as <- <-. }
    unfold run_new in E. destruct (new_map kzero vzero deg); [|done|done]. cbn [rbind] in E. intros i k v Hi. by eapply G.
Qed.
Print Assumptions C45_insertions_lose_nothing.

(** Any comparator and any history: unless a deletion panics, the tree stays
    balanced and within its bounds, Size is the number of stored entries, every
    stored entry was inserted, and no call runs forever. *)
Theorem C45_every_history_keeps_a_balanced_tree {K V} (kzero : K) (vzero : V) comp compV deg (os : list (@op K V)) :
  (2 <= deg)%Z ->
  (run_new kzero vzero comp compV deg os = Panic /\ ~ Forall no_delete os)
  \/ exists t rs d, run_new kzero vzero comp compV deg os = Ok (t, rs) /\ length rs = length os
    /\ tree_reads t d (reading t) /\ size t = Z.of_nat (length (entries (reading t)))
    /\ (forall e, e ∈ entries (reading t) -> e ∈ stored os rs).
Proof.
  intros Hd. destruct (run_new_ok kzero vzero comp compV deg os Hd) as [H|(t & rs & d & w & E & L & T & _ & S & N)]; [by left|right].
  exists t, rs, d. rewrite (reading_ok _ _ _ T). splits; try done. by destruct T as (?&?&?&?&?&?&Hs).
Qed.
Print Assumptions C45_every_history_keeps_a_balanced_tree.

(** [reading] is the in-order reading of the tree *)
Theorem C45_reading_is_computable {K V} (t : @tree K V) d w : tree_reads t d w -> reading t = w.
Proof. apply reading_ok. Qed.
Print Assumptions C45_reading_is_computable.

(** Degree 1 and below are not usable: NewMap panics for degree <= 0, and with
    degree 1 the second insertion can panic. *)
Theorem C45_degree_below_two_refuted :
  (forall K V (kzero : K) (vzero : V) deg, (deg <= 0)%Z -> new_map kzero vzero deg = Panic)
  /\ run_new 0%Z 0%Z Zcomp Zcomp 1 [InsertEqual 1%Z 0%Z; InsertEqual 0%Z 0%Z] = Panic.
Proof.
  split; [|by vm_compute]. intros K V kzero vzero deg H. unfold new_map. destruct (Z.ltb_spec (deg * 2 - 1) 0); [done|lia].
Qed.
Print Assumptions C45_degree_below_two_refuted.

(** ** C46: lookup *)

(** After any history that did not panic, for any comparator: a lookup
    terminates without panic, the four lookup functions agree, and what they
    report is a stored entry with an equal key. *)
Theorem C46_lookup_is_sound {K V} (kzero : K) (vzero : V) comp compV deg (os : list (@op K V)) t rs k :
  (2 <= deg)%Z -> run_new kzero vzero comp compV deg os = Ok (t, rs) ->
  exists o, get_entry comp k t = Ok o
    /\ contains_key comp k t = Ok (bool_decide (is_Some o))
    /\ get_verify vzero comp k t = Ok (from_option snd vzero o, bool_decide (is_Some o))
    /\ get vzero comp k t = Ok (from_option snd vzero o)
    /\ (forall e, o = Some e -> comp k e.1 = 0%Z /\ e ∈ entries (reading t) /\ e ∈ stored os rs).
Proof.
  intros Hd E. destruct (run_new_ok kzero vzero comp compV deg os Hd) as [[H _]|(t' & rs' & d & w & E' & L & T & _ & S & N)]; [by rewrite H in E|].
  rewrite E in E'. injection E' as <- <-. rewrite (reading_ok _ _ _ T).
  destruct (found_entry_ok comp k t d w T) as (o & EF & EC & So & _). exists o.
  unfold get_entry, get_verify, get. rewrite EF, EC. cbn [rbind]. splits; try done.
  - destruct o; [by rewrite bool_decide_true by by eexists|by rewrite bool_decide_false by by intros [? ?]].
  - intros e He. destruct (So e He). auto.
Qed.
Print Assumptions C46_lookup_is_sound.

(** Completeness, away from the separators, after insertions. *)
Theorem C46_lookup_finds_keys_that_are_not_separators {K V} (kzero : K) (vzero : V) comp compV deg (os : list (@op K V)) t rs k e :
  cmp_ok comp -> (2 <= deg)%Z -> Forall no_delete os -> run_new kzero vzero comp compV deg os = Ok (t, rs) ->
  (forall s, s ∈ separators (reading t) -> comp k s.1 <> 0%Z) ->
  e ∈ stored os rs -> comp k e.1 = 0%Z ->
  exists e', get_entry comp k t = Ok (Some e') /\ comp k e'.1 = 0%Z /\ e' ∈ stored os rs.
Proof.
  intros C Hd F E Hs He Ce.
  destruct (run_new_ok kzero vzero comp compV deg os Hd) as [[H _]|(t' & rs' & d & w & E' & L & T & _ & S & N)]; [by rewrite H in E|].
  rewrite E in E'. injection E' as <- <-. rewrite (reading_ok _ _ _ T) in Hs. destruct (N F) as [P O].
  destruct (found_entry_ok comp k t d w T) as (o & EF & _ & So & Co). unfold get_entry. rewrite EF.
  destruct o as [e'|]; [exists e'; destruct (So e' eq_refl); auto|].
  exfalso. apply (Co eq_refl C (O C) Hs e); [by rewrite P|done].
Qed.
Print Assumptions C46_lookup_finds_keys_that_are_not_separators.

(** InsertUnique refuses only a key that is stored. *)
Theorem C46_insert_unique_refuses_only_stored_keys {K V} (kzero : K) (vzero : V) comp compV deg (os : list (@op K V)) t rs k v t' :
  (2 <= deg)%Z -> run_new kzero vzero comp compV deg os = Ok (t, rs) ->
  insert_unique kzero vzero comp k v t = Ok (t', false) ->
  t' = t /\ exists e, e ∈ entries (reading t) /\ comp k e.1 = 0%Z.
Proof.
  intros Hd E I. destruct (C46_lookup_is_sound kzero vzero comp compV deg os t rs k Hd E) as (o & _ & EC & _ & _ & So).
  unfold insert_unique in I. rewrite EC in I. cbn [rbind] in I. destruct o as [e|].
  - rewrite bool_decide_true in I by by eexists. injection I as <-. split; [done|]. exists e. destruct (So e eq_refl) as (?&?&?); auto.
  - rewrite bool_decide_false in I by by intros [? ?].
    destruct (insert _ _ _ _ _ _) as [[? ?]| |]; [|done|done]. done.
Qed.
Print Assumptions C46_insert_unique_refuses_only_stored_keys.

(** Which stored keys are found.  The search of an inner node halves the range
    of its separators and stops at an equal one; the descent then continues
    from where the remaining range begins.  So a key that no inner node has as
    a separator is found, and one that is a separator is found if wherever it
    is one it is well placed. *)
Theorem C46_lookup_finds_well_placed_keys {K V} (kzero : K) (vzero : V) comp compV deg (os : list (@op K V)) t rs k e :
  cmp_ok comp -> (2 <= deg)%Z -> Forall no_delete os -> run_new kzero vzero comp compV deg os = Ok (t, rs) ->
  e ∈ stored os rs -> comp k e.1 = 0%Z -> findable comp t k ->
  exists e', get_entry comp k t = Ok (Some e') /\ comp k e'.1 = 0%Z /\ e' ∈ stored os rs.
Proof.
  intros C Hd F E He Ce Fi.
  destruct (run_new_ok kzero vzero comp compV deg os Hd) as [[H _]|(t' & rs' & d & w & E' & L & T & _ & S & N)]; [by rewrite H in E|].
  rewrite E in E'. injection E' as <- <-. destruct (N F) as [P _].
  destruct (grown_run_new kzero vzero comp compV deg os t rs C Hd F E) as (d' & G & HM).
  rewrite (reading_ok _ _ _ T) in G. destruct (found_entry_ok comp k t d w T) as (o & EF & EC & So & _). unfold get_entry. rewrite EF.
  destruct o as [e'|]; [exists e'; destruct (So e' eq_refl); auto|]. exfalso.
  rewrite (contains_found comp t d' w k C HM G) in EC; [by rewrite bool_decide_false in EC by by intros [? ?]| |done].
  exists e. split; [by rewrite P|done].
Qed.
Print Assumptions C46_lookup_finds_well_placed_keys.

(** If no two stored keys are equal, exactly these are found. *)
Theorem C46_lookup_exact {K V} (kzero : K) (vzero : V) comp compV deg (os : list (@op K V)) t rs k :
  cmp_ok comp -> (2 <= deg)%Z -> Forall no_delete os -> run_new kzero vzero comp compV deg os = Ok (t, rs) ->
  distinct comp (stored os rs) ->
  contains_key comp k t = Ok true <-> (exists e, e ∈ stored os rs /\ comp k e.1 = 0%Z) /\ findable comp t k.
Proof.
  intros C Hd F E D.
  destruct (run_new_ok kzero vzero comp compV deg os Hd) as [[H _]|(t' & rs' & d & w & E' & L & T & _ & S & N)]; [by rewrite H in E|].
  rewrite E in E'. injection E' as <- <-. destruct (N F) as [P _].
  destruct (grown_run_new kzero vzero comp compV deg os t rs C Hd F E) as (d' & G & HM).
  rewrite (reading_ok _ _ _ T) in G. split.
  - intros Ec. split.
    + destruct (found_entry_ok comp k t d w T) as (o & _ & EC & So & _). rewrite Ec in EC.
      destruct o as [e|]; [|by rewrite bool_decide_false in EC by by intros [? ?]].
      exists e. destruct (So e eq_refl) as [A B]. split; [by rewrite <-P|done].
    + eapply (contains_findable comp t d' w k C HM G); [|done]. intros x y rest Pp. apply (D x y rest). by rewrite <-P.
  - intros [(e & He & Ce) Fi]. apply (contains_found comp t d' w k C HM G); [|done]. exists e. split; [by rewrite P|done].
Qed.
Print Assumptions C46_lookup_exact.

(** Positions: the first is well placed, and all are if there are at most two;
    the middle one of three or more is not. *)
Theorem C46_well_placed_positions n :
  (0 < n -> well_placed n 0) /\ (forall i, n <= 2 -> i < n -> well_placed n i) /\ (3 <= n -> ~ well_placed n ((n - 1) / 2)).
Proof.
  splits.
  - intros _. unfold well_placed. generalize n at 1. intros f. generalize n as hi.
    induction f as [|f IH]; intros hi; cbn [arrive]; [done|]. destruct (decide _); [apply IH|]. rewrite decide_False by lia. done.
  - intros i. by apply well_placed_small.
  - intros H. unfold well_placed. destruct n as [|m]; [lia|]. cbn [arrive]. change (0 + S m - 1) with (S m - 1).
    rewrite !decide_False by lia. pose proof (Nat.div_le_lower_bound (S m - 1) 2 1). lia.
Qed.
Print Assumptions C46_well_placed_positions.

(** So the middle separator of an inner node with three or more of them is a
    stored key that no lookup finds. *)
Theorem C46_middle_separators_are_missed {K V} (kzero : K) (vzero : V) comp compV deg (os : list (@op K V)) t rs ks s :
  cmp_ok comp -> (2 <= deg)%Z -> Forall no_delete os -> run_new kzero vzero comp compV deg os = Ok (t, rs) ->
  distinct comp (stored os rs) ->
  inner_node t ks -> 3 <= length ks -> ks !! ((length ks - 1) / 2) = Some s ->
  contains_key comp s.1 t = Ok false /\ exists e, e ∈ stored os rs /\ comp s.1 e.1 = 0%Z.
Proof.
  intros C Hd F E D I Hl Hs. split.
  - destruct (C46_lookup_is_sound kzero vzero comp compV deg os t rs s.1 Hd E) as (o & _ & EC & _).
    rewrite EC. destruct (bool_decide (is_Some o)) eqn:B; [exfalso|done].
    apply (C46_lookup_exact kzero vzero comp compV deg os t rs s.1 C Hd F E D) in EC as [_ Fi].
    destruct (C46_well_placed_positions (length ks)) as (_ & _ & W). apply (W Hl). by apply (Fi ks _ s I Hs), cmp_refl.
  - destruct (run_new_ok kzero vzero comp compV deg os Hd) as [[H _]|(t' & rs' & d & w & E' & L & T & _ & S & N)]; [by rewrite H in E|].
    rewrite E in E'. injection E' as <- <-. destruct (N F) as [P _].
    destruct (grown_run_new kzero vzero comp compV deg os t rs C Hd F E) as (d' & G & HM).
    rewrite (reading_ok _ _ _ T) in G. destruct G as (T' & _ & Cp & _). destruct T' as (r & fp & Er & R & _).
    destruct I as (r' & l & Er' & B & Lf & ->). rewrite Er in Er'. injection Er' as <-.
    pose proof (reads_sep _ _ _ _ _ _ _ _ _ R B Lf Hs) as Hw. apply elem_of_list_split in Hw as (a & b & Ew).
    destruct (Cp a s b Ew) as (a' & e & -> & Ee). exists e. split; [|by apply cmp_eq_sym].
    rewrite <-P. rewrite Ew. apply elem_entries. rewrite <-app_assoc, elem_of_app. right. by left.
Qed.
Print Assumptions C46_middle_separators_are_missed.

(** A history of insertions and lookups with at most 4*degree-3 insertions has
    no such node, and every call has exactly the effect and reply of a sorted
    multimap. *)
Theorem C46_small_insertion_histories_are_right {K V} (kzero : K) (vzero : V) comp compV deg (os : list (@op K V)) :
  cmp_ok comp -> (2 <= deg)%Z -> Forall no_delete os -> (Z.of_nat (insertions os) <= 4 * deg - 3)%Z ->
  exists t rs, run_new kzero vzero comp compV deg os = Ok (t, rs)
    /\ (exists d, tree_reads t d (reading t)) /\ in_order comp (reading t)
    /\ right_history vzero comp compV [] os rs (entries (reading t)).
Proof.
  intros C Hd F L. destruct (grown_new kzero vzero comp compV deg Hd) as (t0 & E0 & G0 & D0).
  destruct (few_run kzero vzero comp compV os C t0 0 []) as (t & rs & d & w & E & G & H); try done; [lia|cbn; lia|].
  exists t, rs. unfold run_new. rewrite E0. cbn [rbind]. pose proof G as (T & So & _). rewrite (reading_ok t d w T).
  splits; try done. by exists d.
Qed.
Print Assumptions C46_small_insertion_histories_are_right.

(** One insertion more can go wrong.  Six distinct keys inserted into a tree of degree 2: lookup misses one of
    them, and InsertUnique then stores it a second time. *)
Theorem C46_lookup_of_a_separator_refuted :
  let os := [InsertUnique 7 70; InsertUnique 4 40; InsertUnique 9 90; InsertUnique 2 20; InsertUnique 1 10; InsertUnique 3 30]%Z in
  exists t rs, run_new 0%Z 0%Z Zcomp Zcomp 2 (os ++ [GetVerify 4; InsertUnique 4 41]%Z) = Ok (t, rs)
    /\ rs = [RBool true; RBool true; RBool true; RBool true; RBool true; RBool true; RVal 0%Z false; RBool true]
    /\ entries (reading t) = [(1, 10); (2, 20); (3, 30); (4, 40); (4, 41); (7, 70); (9, 90)]%Z.
Proof. apply ok_ex. vm_compute. split; done. Qed.
Print Assumptions C46_lookup_of_a_separator_refuted.

(** ** C47: deletion *)

(** As long as a history (of insertions, deletions and lookups) contains at
    most 2*degree-1 insertions, every call has exactly the effect and reply of
    a sorted multimap. *)
Theorem C47_small_histories_are_right {K V} (kzero : K) (vzero : V) comp compV deg (os : list (@op K V)) :
  cmp_ok comp -> (2 <= deg)%Z -> (Z.of_nat (insertions os) <= 2 * deg - 1)%Z ->
  exists t rs, run_new kzero vzero comp compV deg os = Ok (t, rs)
    /\ tree_reads t 0 (reading t) /\ in_order comp (reading t)
    /\ right_history vzero comp compV [] os rs (entries (reading t)).
Proof.
  intros C Hd L. destruct (new_map_ok kzero vzero comp compV deg) as (t0 & E0 & T0 & D0); [lia|].
  destruct (leaf_run kzero vzero comp compV C os t0 []) as (t & rs & w & E & T & S & H); try done; [lia|constructor|cbn; lia|].
  unfold run_new. rewrite E0. cbn [rbind]. rewrite E. exists t, rs. rewrite (reading_ok _ _ _ T). done.
Qed.
Print Assumptions C47_small_histories_are_right.

Local Definition one_more : list (@op Z Z) :=
  [InsertUnique 4 0; InsertUnique 3 0; InsertUnique 2 0; InsertUnique 1 0; Delete 4]%Z.
Local Lemma ok_same {A B} (r : res (A * B)) x y x' y' : r = Ok (x, y) -> r = Ok (x', y') -> x = x' /\ y = y'.
Proof. intros -> [= -> ->]. done. Qed.
Local Lemma one_more_run : exists t rs, run_new 0%Z 0%Z Zcomp Zcomp 2 one_more = Ok (t, rs)
  /\ rs = replicate 5 (RBool true) /\ entries (reading t) = [(1, 0); (2, 0); (3, 0); (3, 0)]%Z.
Proof. apply ok_ex. vm_compute. split; done. Qed.
Local Lemma ins_length k v es es' : right_effect 0%Z Zcomp Zcomp (InsertUnique k v) es es' (RBool true) -> length es' = S (length es).
Proof. intros [(_ & X & _)|(_ & _ & X)]; [discriminate X|]. apply Permutation_length in X. exact X. Qed.
Local Lemma del_length k es es' : right_effect 0%Z Zcomp Zcomp (Delete k) es es' (RBool true) -> S (length es') = length es.
Proof. intros [(_ & _ & a & x & c & -> & -> & _)|(_ & X & _)]; [|discriminate X]. rewrite !app_length. cbn [length]. lia. Qed.
Local Lemma one_more_right es : right_history 0%Z Zcomp Zcomp [] one_more (replicate 5 (RBool true)) es -> length es = 3.
Proof.
  unfold one_more. cbn [replicate]. intros H.
  inversion H as [|? ? ? e1 ? ? ? H1 T1]; subst. inversion T1 as [|? ? ? e2 ? ? ? H2 T2]; subst.
  inversion T2 as [|? ? ? e3 ? ? ? H3 T3]; subst. inversion T3 as [|? ? ? e4 ? ? ? H4 T4]; subst.
  inversion T4 as [|? ? ? e5 ? ? ? H5 T5]; subst. inversion T5; subst.
  apply ins_length in H1, H2, H3, H4. apply del_length in H5. cbn [length] in *. lia.
Qed.

(** The bound 2*degree-1 cannot be raised: with one insertion more a deletion
    can lose one key and store another one twice.  Degree 2, the distinct keys
    4, 3, 2, 1 inserted in this order, then Delete 4: it replies true and
    leaves the keys 1, 2, 3, 3. *)
Theorem C47_one_insertion_more_refuted :
  ~ (forall (deg : Z) (os : list (@op Z Z)), (2 <= deg)%Z -> (Z.of_nat (insertions os) <= 2 * deg)%Z ->
       exists t rs, run_new 0%Z 0%Z Zcomp Zcomp deg os = Ok (t, rs)
         /\ right_history 0%Z Zcomp Zcomp [] os rs (entries (reading t))).
Proof.
  intros H.
  destruct (H 2%Z one_more) as (t & rs & E & R); [lia|by vm_compute|].
  destruct one_more_run as (t' & rs' & E' & Hrs & He).
  destruct (ok_same _ _ _ _ _ E E') as [-> ->]. rewrite Hrs, He in R. clear E E' He H.
  apply one_more_right in R. done.
Qed.
Print Assumptions C47_one_insertion_more_refuted.

(** The same for any tree that is a single leaf in order. *)
Theorem C47_single_leaf_deletion_is_exact {K V} comp (t : @tree K V) k :
  cmp_ok comp -> 2 <= degree t -> tree_reads t 0 (reading t) -> in_order comp (reading t) ->
  exists t' b, delete_key comp k t = Ok (t', b) /\ tree_reads t' 0 (reading t') /\ in_order comp (reading t')
    /\ ((has comp k (entries (reading t)) /\ b = true
         /\ removed (fun x => comp k x.1 = 0%Z) (entries (reading t)) (entries (reading t')))
        \/ (~ has comp k (entries (reading t)) /\ b = false /\ entries (reading t') = entries (reading t))).
Proof.
  intros C HM T S. destruct (leaf_delete comp C k t _ HM T S) as (t' & b & w' & E & T' & S' & _ & H).
  exists t', b. rewrite (reading_ok t' 0 w' T'). done.
Qed.
Print Assumptions C47_single_leaf_deletion_is_exact.

(** Any tree reached by any history, any comparator: Delete panics or keeps
    the tree balanced and within its bounds, replies what ContainsKey replied
    before, changes nothing when it replies false; when it replies true, at
    most one entry was overwritten by its left neighbour, and after that
    either nothing was removed or one entry whose key is not above [k]; Size
    is always the number of entries. *)
Theorem C47_effect_of_a_deletion {K V} (kzero : K) (vzero : V) comp compV deg (os : list (@op K V)) t rs k :
  (2 <= deg)%Z -> run_new kzero vzero comp compV deg os = Ok (t, rs) ->
  delete_key comp k t = Panic
  \/ exists t' b d, delete_key comp k t = Ok (t', b) /\ contains_key comp k t = Ok b
    /\ tree_reads t' d (reading t') /\ size t' = Z.of_nat (length (entries (reading t')))
    /\ (b = false -> t' = t)
    /\ (b = true -> exists es,
          (es = entries (reading t) \/ overwrite (entries (reading t)) es)
          /\ (entries (reading t') = es
              \/ removed (fun x => comp k x.1 = 0%Z \/ (comp x.1 k < 0)%Z) es (entries (reading t')))).
Proof.
  intros Hd E. destruct (run_new_ok kzero vzero comp compV deg os Hd) as [[H _]|(t0 & rs' & d & w & E' & L & T & Dg & S & N)]; [by rewrite H in E|].
  rewrite E in E'. injection E' as <- <-.
  destruct (delete_key_ok vzero comp compV t d w k ltac:(lia) T) as [->|(t' & b & d' & w' & -> & EC & T' & _ & Eff)]; [by left|right].
  exists t', b, d'. rewrite (reading_ok _ _ _ T), (reading_ok _ _ _ T'). splits; try done.
  - by destruct T' as (?&?&?&?&?&?&?).
  - intros ->. by destruct Eff.
  - intros ->. destruct Eff as (es & H1 & H2). exists es. split; [|by destruct H2 as [[? _]|[? _]]; auto].
    destruct H1 as [->|[_ H1]]; auto.
Qed.
Print Assumptions C47_effect_of_a_deletion.

(** Delete of a present key replies true, the key stays, another key that was
    present disappears and a third is stored twice (degree 2, distinct keys). *)
Theorem C47_deletion_loses_another_key_refuted :
  let ins := [InsertUnique 9 90; InsertUnique 5 50; InsertUnique 8 80; InsertUnique 6 60; InsertUnique 4 40; InsertUnique 1 10;
              InsertUnique 7 70; InsertUnique 3 30]%Z in
  exists t rs, run_new 0%Z 0%Z Zcomp Zcomp 2 (ins ++ [GetVerify 9; Delete 7; GetVerify 9]%Z) = Ok (t, rs)
    /\ rs = replicate 8 (RBool true) ++ [RVal 90%Z true; RBool true; RVal 0%Z false]
    /\ entries (reading t) = [(1, 10); (3, 30); (4, 40); (5, 50); (6, 60); (7, 70); (8, 80); (8, 80)]%Z
    /\ size t = 8%Z.
Proof. apply ok_ex. vm_compute. split; [done|]. split; done. Qed.
Print Assumptions C47_deletion_loses_another_key_refuted.

(** Delete replies true and removes nothing. *)
Theorem C47_deletion_removes_nothing_refuted :
  let ins := [InsertUnique 7 0; InsertUnique 6 0; InsertUnique 8 0; InsertUnique 4 0; InsertUnique 5 0; InsertUnique 9 0;
              InsertUnique 1 0; InsertUnique 2 0]%Z in
  exists t rs, run_new 0%Z 0%Z Zcomp Zcomp 2 (ins ++ [Delete 7]%Z) = Ok (t, rs)
    /\ rs = replicate 9 (RBool true) /\ (fst <$> entries (reading t)) = [1; 2; 4; 5; 6; 7; 8; 9]%Z.
Proof. apply ok_ex. vm_compute. split; done. Qed.
Print Assumptions C47_deletion_removes_nothing_refuted.

(** A key deleted and inserted again is invisible to lookup. *)
Theorem C47_reinserted_key_is_invisible_refuted :
  exists t rs, run_new 0%Z 0%Z Zcomp Zcomp 2
      [InsertUnique 6 0; InsertUnique 2 0; InsertUnique 4 0; InsertUnique 1 0; Delete 4; InsertUnique 4 7; GetVerify 4]%Z = Ok (t, rs)
    /\ rs = replicate 6 (RBool true) ++ [RVal 0%Z false] /\ entries (reading t) = [(1, 0); (2, 0); (4, 7); (6, 0)]%Z.
Proof. apply ok_ex. vm_compute. split; done. Qed.
Print Assumptions C47_reinserted_key_is_invisible_refuted.

(** A history of InsertUnique and Delete of keys, all positive, whose last
    Delete panics: the slice is read past its end. *)
Theorem C47_deletion_can_panic_refuted :
  let i k := InsertUnique k 0%Z in
  let os := [i 15; i 5; i 13; i 8; i 6; i 3; i 4; i 14; Delete 14; i 14; i 9; Delete 4; i 13; i 11; Delete 13; i 16; i 12; Delete 16]%Z in
  (exists t rs, run_new 0%Z 0%Z Zcomp Zcomp 2 os = Ok (t, rs) /\ contains_key Zcomp 13%Z t = Ok true)
  /\ run_new 0%Z 0%Z Zcomp Zcomp 2 (os ++ [Delete 13%Z]) = Panic.
Proof. split; [apply ok_ex; by vm_compute|by vm_compute]. Qed.
Print Assumptions C47_deletion_can_panic_refuted.

(** DeleteByKeys and DeleteAll are the deletions one after the other, and the
    count returned is the number of them that replied true; they panic when
    one of the deletions does. *)
Theorem C47_deleting_many_keys {K V} (kzero : K) (vzero : V) comp compV (t : @tree K V) (ks : list K) :
  match run kzero vzero comp compV (Delete <$> ks) t with
  | Ok (t', rs) => delete_by_keys comp ks t
                   = Ok (t', Z.of_nat (length (List.filter (fun r => match r with RBool true => true | _ => false end) rs)))
  | Panic => delete_by_keys comp ks t = Panic
  | Fuel => delete_by_keys comp ks t = Fuel
  end.
Proof.
  unfold delete_by_keys.
  assert (G : forall ks t n, match run kzero vzero comp compV (Delete <$> ks) t with
    | Ok (t', rs) => delete_all comp ks t n
                     = Ok (t', n + Z.of_nat (length (List.filter (fun r => match r with RBool true => true | _ => false end) rs)))%Z
    | Panic => delete_all comp ks t n = Panic
    | Fuel => delete_all comp ks t n = Fuel end).
  { clear. induction ks as [|k ks IH]; intros t n; [cbn; by rewrite Z.add_0_r|].
    cbn [fmap list_fmap run do_op delete_all]. unfold bpair.
    destruct (delete_key comp k t) as [[t1 b]| |]; cbn [rbind]; [|done..].
    specialize (IH t1 (if b then n + 1 else n)%Z).
    destruct (run kzero vzero comp compV _ t1) as [[t2 rs]| |]; cbn [rbind]; [|done..].
    rewrite IH. do 2 f_equal. destruct b; cbn [List.filter length]; lia. }
  specialize (G ks t 0%Z). by destruct (run _ _ _ _ _ _) as [[? ?]| |].
Qed.
Print Assumptions C47_deleting_many_keys.

(** DeleteEntryByKey looks only at the key of the entry. *)
Theorem C47_delete_entry_by_key {K V} comp (t : @tree K V) (k : K) (v : V) :
  delete_entry_by_key comp (k, v) t = delete_key comp k t.
Proof. done. Qed.
Print Assumptions C47_delete_entry_by_key.

(** IsEmpty after any history. *)
Theorem C45_is_empty {K V} (kzero : K) (vzero : V) comp compV deg (os : list (@op K V)) t rs :
  (2 <= deg)%Z -> run_new kzero vzero comp compV deg os = Ok (t, rs) ->
  is_empty t = true <-> entries (reading t) = [].
Proof.
  intros Hd E. destruct (C45_every_history_keeps_a_balanced_tree kzero vzero comp compV deg os Hd) as [[H _]|(t' & rs' & d & E' & _ & _ & S & _)];
    [by rewrite H in E|]. rewrite E in E'. injection E' as <- <-. unfold is_empty. rewrite Z.eqb_eq, S.
  destruct (entries (reading t)); cbn [length]; split; intros; try done; lia.
Qed.
Print Assumptions C45_is_empty.

(** LeftMost and RightMost after any history: the leaf with the first and the
    leaf with the last stored entries; empty only if the tree is. *)
Theorem C45_leftmost_rightmost {K V} (kzero : K) (vzero : V) comp compV deg (os : list (@op K V)) t rs :
  (2 <= deg)%Z -> run_new kzero vzero comp compV deg os = Ok (t, rs) ->
  exists l r, left_most t = Ok (Some l) /\ right_most t = Ok (Some r)
    /\ leaf (hp t l) = true /\ leaf (hp t r) = true
    /\ take (num (hp t l)) (vals (hp t l)) `prefix_of` entries (reading t)
    /\ take (num (hp t r)) (vals (hp t r)) `suffix_of` entries (reading t)
    /\ (entries (reading t) <> [] -> take (num (hp t l)) (vals (hp t l)) <> [] /\ take (num (hp t r)) (vals (hp t r)) <> []).
Proof.
  intros Hd E. destruct (run_new_ok kzero vzero comp compV deg os Hd) as [[H _]|(t' & rs' & d & w & E' & L & T & D & _)]; [by rewrite H in E|].
  rewrite E in E'. injection E' as <- <-. rewrite (reading_ok _ _ _ T). pose proof (tree_fuel _ _ _ T) as Hf.
  destruct T as (a & fp & Ea & R & _). unfold left_most, right_most. rewrite Ea.
  destruct (minimum_ok _ _ _ _ _ _ _ R Hf) as (x & X1 & X2 & X3 & X4), (maximum_ok _ _ _ _ _ _ _ R Hf) as (y & Y1 & Y2 & Y3 & Y4).
  exists x, y. splits; try done. intros Hne. split.
  - destruct X4 as [(_ & _ & ->)|Hx]; [done|]. intros Hn%(f_equal length). rewrite take_length in Hn. cbn in Hn. lia.
  - destruct Y4 as [(_ & _ & ->)|Hx]; [done|]. intros Hn%(f_equal length). rewrite take_length in Hn. cbn in Hn. lia.
Qed.
Print Assumptions C45_leftmost_rightmost.

(** ** C48: after Clear *)

Theorem C48_cleared_tree_stores_nothing {K V} (kzero : K) (vzero : V) comp compV (t : @tree K V) (os : list (@op K V)) :
  run kzero vzero comp compV os (clear t)
    = Ok (clear t, (fun o => match o with
                             | InsertEqual _ _ | InsertUnique _ _ => RBool true
                             | Delete _ | DeleteWhole _ _ => RBool false
                             | GetVerify _ => RVal vzero false end) <$> os)
  /\ size (clear t) = 0%Z /\ (forall k, contains_key comp k (clear t) = Ok false)
  /\ left_most (clear t) = Ok None /\ right_most (clear t) = Panic.
Proof.
  splits; try done. induction os as [|o os IH]; [done|]. cbn [run].
  assert (E : do_op kzero vzero comp compV o (clear t) = Ok (clear t, match o with
                             | InsertEqual _ _ | InsertUnique _ _ => RBool true
                             | Delete _ | DeleteWhole _ _ => RBool false
                             | GetVerify _ => RVal vzero false end)) by by destruct o.
  rewrite E. cbn [rbind]. rewrite IH. done.
Qed.
Print Assumptions C48_cleared_tree_stores_nothing.

(** ** C49: DeleteByWholeMapping *)

Theorem C49_delete_by_whole_mapping_condition {K V} (kzero : K) (vzero : V) comp compV deg (os : list (@op K V)) t rs k v (cv : V -> V -> Z) :
  (2 <= deg)%Z -> run_new kzero vzero comp compV deg os = Ok (t, rs) ->
  exists x b, get_verify vzero comp k t = Ok (x, b)
    /\ delete_by_whole_mapping comp k v cv t
       = (if decide (b = true /\ (cv x v < 0)%Z) then delete_key comp k t else Ok (t, false))
    /\ (b = true -> exists e, e ∈ entries (reading t) /\ comp k e.1 = 0%Z /\ x = e.2).
Proof.
  intros Hd E. destruct (C46_lookup_is_sound kzero vzero comp compV deg os t rs k Hd E) as (o & EE & _ & EV & _ & So).
  rewrite EV. eexists _, _. split; [done|]. unfold delete_by_whole_mapping. unfold get_entry in EE. rewrite EE. cbn [rbind].
  destruct o as [e|].
  - rewrite bool_decide_true by by eexists. cbn [from_option]. split.
    + destruct (Z.ltb_spec (cv e.2 v) 0); [by rewrite decide_True|rewrite decide_False; [done|lia]].
    + intros _. exists e. destruct (So e eq_refl) as (?&?&?). auto.
  - rewrite bool_decide_false by by intros [? ?]. split; [by rewrite decide_False by by intros [? _]|done].
Qed.
Print Assumptions C49_delete_by_whole_mapping_condition.

(** so an equal value is not deleted *)
Theorem C49_equal_value_is_not_deleted {K V} (comp : K -> K -> Z) (cv : V -> V -> Z) (t : @tree K V) k v (vzero : V) :
  (forall a, cv a a = 0%Z) -> get_verify vzero comp k t = Ok (v, true) ->
  delete_by_whole_mapping comp k v cv t = Ok (t, false).
Proof.
  intros Hr. unfold get_verify, delete_by_whole_mapping. destruct (found_entry comp k t) as [[e|]| |]; cbn [rbind]; [|done..].
  intros [= ->]. by rewrite Hr.
Qed.
Print Assumptions C49_equal_value_is_not_deleted.

(** ** C59: only the signs of the comparator matter to the B+ tree *)
Theorem C59_bplustree_depends_only_on_sign {K V} (kzero : K) (vzero : V) c1 c2 v1 v2 deg (os : list (@op K V)) :
  (forall a b, Z.sgn (c1 a b) = Z.sgn (c2 a b)) -> (forall a b, Z.sgn (v1 a b) = Z.sgn (v2 a b)) ->
  run_new kzero vzero c1 v1 deg os = run_new kzero vzero c2 v2 deg os.
Proof. intros H1 H2. unfold run_new. apply rbind_ext. intros t. by apply run_sg. Qed.
Print Assumptions C59_bplustree_depends_only_on_sign.

(** ** The hypotheses are met *)
Example C45_hypotheses_met :
  let os := [InsertEqual 1 0; InsertEqual 2 0; InsertUnique 3 0; InsertEqual 2 1; InsertUnique 2 5; GetVerify 3; InsertEqual 0 0; InsertEqual 9 0; InsertEqual 8 0]%Z in
  cmp_ok Zcomp /\ Forall no_delete os /\ exists t rs, run_new 0%Z 0%Z Zcomp Zcomp 2 os = Ok (t, rs)
    /\ reading t = [Entry (0, 0); Entry (1, 0); Entry (2, 0); Sep (2, 0); Entry (2, 1); Entry (3, 0); Sep (3, 0); Entry (8, 0); Entry (9, 0)]%Z.
Proof. split; [exact Zcomp_ok|]. split; [by repeat constructor|]. apply ok_ex. by vm_compute. Qed.
Example C46_separator_hypothesis_met :
  exists t rs, run_new 0%Z 0%Z Zcomp Zcomp 2 [InsertEqual 1 0; InsertEqual 2 0; InsertEqual 3 0; InsertEqual 4 7]%Z = Ok (t, rs)
    /\ separators (reading t) = [(2, 0)]%Z /\ (4, 7)%Z ∈ stored [InsertEqual 1 0; InsertEqual 2 0; InsertEqual 3 0; InsertEqual 4 7]%Z rs.
Proof. apply ok_ex. vm_compute. split; [done|]. do 3 right. left. Qed.
Example C46_well_placed_met :
  let os := [InsertUnique 7 70; InsertUnique 4 40; InsertUnique 9 90; InsertUnique 2 20; InsertUnique 1 10; InsertUnique 3 30]%Z in
  Forall no_delete os /\ exists t rs, run_new 0%Z 0%Z Zcomp Zcomp 2 os = Ok (t, rs)
    /\ distinct Zcomp (stored os rs) /\ separators (reading t) = [(2, 20); (4, 40); (7, 70)]%Z
    /\ inner_node t [(2, 20); (4, 40); (7, 70)]%Z
    /\ findable Zcomp t 2%Z /\ findable Zcomp t 7%Z /\ ~ findable Zcomp t 4%Z /\ findable Zcomp t 9%Z.
Proof.
  intros os. assert (F : Forall no_delete os) by by repeat constructor. split; [done|].
  assert (H : exists t rs, run_new 0%Z 0%Z Zcomp Zcomp 2 os = Ok (t, rs) /\ stored os rs = [(7, 70); (4, 40); (9, 90); (2, 20); (1, 10); (3, 30)]%Z
    /\ separators (reading t) = [(2, 20); (4, 40); (7, 70)]%Z
    /\ match root t with Some r => leaf (hp t r) = false /\ [(2, 20); (4, 40); (7, 70)]%Z = take (num (hp t r)) (vals (hp t r)) | None => False end
    /\ contains_key Zcomp 2%Z t = Ok true /\ contains_key Zcomp 7%Z t = Ok true /\ contains_key Zcomp 4%Z t = Ok false /\ contains_key Zcomp 9%Z t = Ok true).
  { apply ok_ex. vm_compute. splits; done. }
  destruct H as (t & rs & E & Es & Esep & Hr & A2 & A7 & A4 & A9).
  destruct (root t) as [r|] eqn:Er; [destruct Hr as [Lf Ev]|destruct Hr].
  assert (D : distinct Zcomp (stored os rs)).
  { clear E. intros x y rest P Exy. rewrite Es in P. assert (ND : NoDup (fst <$> [(7, 70); (4, 40); (9, 90); (2, 20); (1, 10); (3, 30)]%Z)).
    { apply (bool_decide_unpack _). by vm_compute. }
    rewrite P in ND. cbn in ND. apply NoDup_cons in ND as [ND _]. apply ND. apply Zcomp_eq in Exy. rewrite Exy. by left. }
  assert (X : forall k, contains_key Zcomp k t = Ok true <-> (exists e, e ∈ stored os rs /\ Zcomp k e.1 = 0%Z) /\ findable Zcomp t k).
  { intros k. exact (C46_lookup_exact 0%Z 0%Z Zcomp Zcomp 2 os t rs k Zcomp_ok ltac:(lia) F E D). }
  exists t, rs. split; [exact E|]. clear E. splits; try done.
  - exists r, r. splits; try done. constructor.
  - by apply X.
  - by apply X.
  - intros Fi. assert (contains_key Zcomp 4%Z t = Ok true); [|congruence].
    apply X. split; [|done]. exists (4, 40)%Z. split; [|done]. rewrite Es. right. by left.
  - by apply X.
Qed.
Example C46_small_insertion_history_met :
  let os := [InsertUnique 7 70; InsertUnique 4 40; InsertUnique 9 90; InsertUnique 2 20; InsertUnique 1 10; GetVerify 4; InsertUnique 4 5]%Z in
  Forall no_delete os /\ exists t rs, run_new 0%Z 0%Z Zcomp Zcomp 2 (take 5 os) = Ok (t, rs)
    /\ (Z.of_nat (insertions (take 6 os)) <= 4 * 2 - 3)%Z /\ separators (reading t) = [(4, 40); (7, 70)]%Z.
Proof. split; [by repeat constructor|]. apply ok_ex. vm_compute. split; done. Qed.
Example C46_refusal_met :
  exists t rs, run_new 0%Z 0%Z Zcomp Zcomp 2 [InsertEqual 1 0; InsertUnique 1 5]%Z = Ok (t, rs) /\ rs = [RBool true; RBool false].
Proof. apply ok_ex. by vm_compute. Qed.
Example C47_small_history_met :
  let os := [InsertEqual 1 0; InsertEqual 3 0; InsertEqual 2 0; Delete 3; Delete 3; DeleteWhole 1 1; GetVerify 2]%Z in
  (Z.of_nat (insertions os) <= 2 * 2 - 1)%Z
  /\ exists t rs, run_new 0%Z 0%Z Zcomp Zcomp 2 os = Ok (t, rs) /\ entries (reading t) = [(2, 0)]%Z.
Proof. split; [by vm_compute|]. apply ok_ex. by vm_compute. Qed.
Example C47_effect_removes_met :
  exists t rs, run_new 0%Z 0%Z Zcomp Zcomp 2 [InsertEqual 1 0; InsertEqual 2 0; InsertEqual 3 0; InsertEqual 4 7; Delete 4]%Z = Ok (t, rs)
    /\ rs = replicate 5 (RBool true) /\ entries (reading t) = [(1, 0); (2, 0); (3, 0)]%Z.
Proof. apply ok_ex. vm_compute. split; done. Qed.
Example C49_smaller_value_is_deleted :
  exists t rs, run_new 0%Z 0%Z Zcomp Zcomp 2 [InsertEqual 1 5; DeleteWhole 1 5; DeleteWhole 1 6]%Z = Ok (t, rs)
    /\ rs = [RBool true; RBool false; RBool true].
Proof. apply ok_ex. by vm_compute. Qed.
Example C59_bplus_hypotheses_met : forall a b : Z, Z.sgn (a - b) = Z.sgn (Zcomp a b).
Proof. intros a b. unfold Zcomp. repeat case_match; lia. Qed.
Example C47_deleting_many_met :
  exists t rs, run_new 0%Z 0%Z Zcomp Zcomp 2 [InsertEqual 1 0; InsertEqual 2 0; InsertEqual 3 0]%Z = Ok (t, rs)
    /\ exists t' n, delete_by_keys Zcomp [1; 5; 1; 3]%Z t = Ok (t', n) /\ n = 2%Z /\ entries (reading t') = [(2, 0)]%Z /\ is_empty t' = false.
Proof. apply ok_ex. apply ok_ex. vm_compute. done. Qed.
