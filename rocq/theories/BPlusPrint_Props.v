(** C83: what Inorder of a B+ tree prints. *)
From Verif Require Import Base BPlus_Model BPlus_Spec BPlus_Proofs BPlus_Proofs2 BPlus_Proofs3 BPlus_Proofs4 BPlus_Proofs5 BPlus_Proofs6 BPlus_Proofs7
  BPlus_Proofs8 BPlus_Proofs9 BPlus_Proofs10 BPlus_Proofs11 BPlus_Proofs12 BPlus_Proofs14 BPlus_Proofs13 BPlusPrint_Model BPlusPrint_Spec BPlusPrint_Proofs.

(** the items of a reading are its entries and its separators *)
Local Lemma items {K V} (w : list (@item K V)) : item_kv <$> w ≡ₚ entries w ++ separators w.
Proof.
  induction w as [|[e|e] w IH]; [done|cbn; f_equiv; exact IH|]. cbn.
  etrans; [|apply Permutation_middle]. by apply perm_skip.
Qed.
Local Lemma sorted_items {K V} (comp : K -> K -> Z) (w : list (@item K V)) : in_order comp w ->
  StronglySorted (fun a b => (comp a.1 b.1 <= 0)%Z) (item_kv <$> w).
Proof.
  induction 1 as [|i w S IH F]; [constructor|]. cbn. constructor; [done|]. apply Forall_fmap. eapply Forall_impl; [exact F|].
  intros j. by destruct i, j.
Qed.

(** After any history, with any comparator, Inorder called on the root ends and
    prints the whole reading of the tree, separators among the entries: every
    stored entry, and every separator of an inner node once more *)
Theorem C83_inorder_prints_the_reading {K V} (kzero : K) (vzero : V) comp compV deg (os : list (@op K V)) t rs :
  (2 <= deg)%Z -> run_new kzero vzero comp compV deg os = Ok (t, rs) ->
  forall fuel, S (brk t) < fuel ->
  exists out, inorder fuel (hp t) (root t) = Ok out /\ out = item_kv <$> reading t /\ out ≡ₚ entries (reading t) ++ separators (reading t).
Proof.
  intros Hd E fuel Hf. destruct (run_new_ok kzero vzero comp compV deg os Hd) as [[H _]|(t' & rs' & d & w & E' & L & T & D & _)]; [by rewrite H in E|].
  rewrite E in E'. injection E' as <- <-. rewrite (reading_ok _ _ _ T). pose proof (tree_fuel _ _ _ T) as Hd'.
  destruct T as (a & fp & -> & R & _). exists (item_kv <$> w). splits; [|done|apply items]. eapply inorder_ok; [|exact R|lia]. lia.
Qed.
Print Assumptions C83_inorder_prints_the_reading.

(** If nothing was deleted and the comparator orders, the lines are in ascending
    order; they are the stored entries, each once, and further lines whose keys
    equal keys of stored entries *)
Theorem C83_inorder_after_insertions {K V} (kzero : K) (vzero : V) comp compV deg (os : list (@op K V)) :
  cmp_ok comp -> (2 <= deg)%Z -> Forall no_delete os ->
  exists t rs out more, run_new kzero vzero comp compV deg os = Ok (t, rs) /\
    (forall fuel, S (brk t) < fuel -> inorder fuel (hp t) (root t) = Ok out) /\
    StronglySorted (fun a b => (comp a.1 b.1 <= 0)%Z) out /\
    out ≡ₚ stored os rs ++ more /\ forall s, s ∈ more -> exists e, e ∈ stored os rs /\ comp e.1 s.1 = 0%Z.
Proof.
  intros C Hd F. destruct (run_new_ok kzero vzero comp compV deg os Hd) as [[_ H]|(t & rs & d & w & E & L & T & _ & S & N)]; [done|].
  destruct (N F) as [P O]. specialize (O C). destruct (grown_run_new kzero vzero comp compV deg os t rs C Hd F E) as (d' & (_ & _ & Cp & _) & _).
  rewrite (reading_ok _ _ _ T) in Cp. exists t, rs, (item_kv <$> w), (separators w). splits; [done|..].
  - intros fuel Hf. destruct (C83_inorder_prints_the_reading _ _ _ _ _ _ _ _ Hd E fuel Hf) as (out & -> & -> & _). by rewrite (reading_ok _ _ _ T).
  - by apply sorted_items.
  - by rewrite items, P.
  - intros s Hs%elem_separators. apply elem_of_list_split in Hs as (a & b & Ew). destruct (Cp a s b Ew) as (a' & e & -> & Ce).
    exists e. split; [|done]. rewrite <-P. apply elem_entries. rewrite Ew, <-app_assoc. apply elem_of_app. right. by left.
Qed.
Print Assumptions C83_inorder_after_insertions.

(** Inorder on the node LeftMost returns -- the only way to a node from outside
    the package besides RightMost -- prints the entries of that leaf, the first
    ones of the tree, once each *)
Theorem C83_inorder_of_the_leftmost_leaf {K V} (kzero : K) (vzero : V) comp compV deg (os : list (@op K V)) t rs :
  (2 <= deg)%Z -> run_new kzero vzero comp compV deg os = Ok (t, rs) ->
  exists nd out, left_most t = Ok nd /\ (forall fuel, 1 < fuel -> inorder fuel (hp t) nd = Ok out) /\ out `prefix_of` entries (reading t) /\
    (entries (reading t) <> [] -> out <> []).
Proof.
  intros Hd E. destruct (run_new_ok kzero vzero comp compV deg os Hd) as [[H _]|(t' & rs' & d & w & E' & L & T & D & _)]; [by rewrite H in E|].
  rewrite E in E'. injection E' as <- <-. rewrite (reading_ok _ _ _ T). pose proof (tree_fuel _ _ _ T) as Hf.
  assert (HM : 1 <= degree t) by lia. destruct T as (a & fp & Ea & R & _). unfold left_most. rewrite Ea.
  destruct (minimum_ok _ _ _ _ _ _ _ R Hf) as (x & X1 & X2 & X3 & X4), (inorder_minimum _ _ _ _ _ _ _ HM R Hf) as (x' & X1' & Rx).
  rewrite X1 in X1'. injection X1' as <-. exists (Some x), (take (num (hp t x)) (vals (hp t x))). splits; [done| |done|].
  - intros fuel H2. rewrite (inorder_ok _ _ _ fuel _ _ _ HM Rx) by lia. f_equal. rewrite <- list_fmap_compose. apply list_fmap_id.
  - intros Hne. destruct X4 as [(_ & _ & ->)|Hx]; [done|]. intros Hn%(f_equal length). rewrite take_length in Hn. cbn in Hn. lia.
Qed.
Print Assumptions C83_inorder_of_the_leftmost_leaf.

Local Definition ins (k : Z) : @op Z Z := InsertEqual k k.

(** what Inorder prints after a history, next to what is stored *)
Local Definition printed (deg : Z) (os : list (@op Z Z)) : option (list (Z * Z) * list (Z * Z)) :=
  match run_new 0%Z 0%Z Zcomp Zcomp deg os with
  | Ok (t, _) => match inorder (S (S (brk t))) (hp t) (root t) with Ok out => Some (out, entries (reading t)) | _ => None end
  | _ => None
  end.
Local Lemma printed_ok deg os out es : printed deg os = Some (out, es) ->
  exists t rs, run_new 0%Z 0%Z Zcomp Zcomp deg os = Ok (t, rs) /\ inorder (S (S (brk t))) (hp t) (root t) = Ok out /\ entries (reading t) = es.
Proof.
  unfold printed. destruct (run_new _ _ _ _ _ _) as [[t rs]| |]; [|done|done]. intros H. exists t, rs. split; [done|].
  destruct (inorder _ _ _) as [o| |]; [|done|done]. by injection H as -> ->.
Qed.

(** Stored entries may be printed twice: degree 2, keys 1 to 4 inserted *)
Theorem C83_inorder_prints_each_entry_once_refuted :
  ~ (forall (deg : Z) (os : list (@op Z Z)) t rs out, (2 <= deg)%Z -> Forall no_delete os -> run_new 0%Z 0%Z Zcomp Zcomp deg os = Ok (t, rs) ->
       inorder (S (S (brk t))) (hp t) (root t) = Ok out -> out = entries (reading t)).
Proof.
  intros H. destruct (printed_ok 2 [ins 1; ins 2; ins 3; ins 4]%Z [(1, 1); (2, 2); (2, 2); (3, 3); (4, 4)]%Z [(1, 1); (2, 2); (3, 3); (4, 4)]%Z) as (t & rs & E & O & R);
    [by vm_compute|].
  assert (N : Forall no_delete [ins 1; ins 2; ins 3; ins 4]%Z) by (by repeat constructor). specialize (H 2%Z _ t rs _ ltac:(done) N E O). rewrite R in H. clear -H. discriminate H.
Qed.
Print Assumptions C83_inorder_prints_each_entry_once_refuted.

(** Keys that were deleted may still be printed: the same, then Delete 2 *)
Theorem C83_inorder_prints_stored_keys_only_refuted :
  ~ (forall (deg : Z) (os : list (@op Z Z)) t rs out e, (2 <= deg)%Z -> run_new 0%Z 0%Z Zcomp Zcomp deg os = Ok (t, rs) ->
       inorder (S (S (brk t))) (hp t) (root t) = Ok out -> e ∈ out -> exists e', e' ∈ entries (reading t) /\ Zcomp e'.1 e.1 = 0%Z).
Proof.
  intros H. destruct (printed_ok 2 [ins 1; ins 2; ins 3; ins 4; Delete 2]%Z [(1, 1); (2, 2); (3, 3); (4, 4)]%Z [(1, 1); (3, 3); (4, 4)]%Z) as (t & rs & E & O & R);
    [by vm_compute|].
  destruct (H 2%Z _ t rs _ (2, 2)%Z ltac:(done) E O) as (e' & He & Ce); [right; left|].
  rewrite R in He. apply elem_of_list_In in He. cbn in He. by destruct He as [<-|[<-|[<-|[]]]].
Qed.
Print Assumptions C83_inorder_prints_stored_keys_only_refuted.

(** ** The hypotheses are met *)
Example inorder_seven : printed 2 (ins <$> [5; 3; 7; 1; 6; 2; 4]%Z) =
  Some ([(1, 1); (2, 2); (3, 3); (3, 3); (4, 4); (5, 5); (5, 5); (6, 6); (7, 7)], (fun k => (k, k)) <$> [1; 2; 3; 4; 5; 6; 7])%Z /\
  Forall no_delete (ins <$> [5; 3; 7; 1; 6; 2; 4]%Z).
Proof. split; [by vm_compute|by repeat constructor]. Qed.
Example inorder_of_nil {K V} (h : nat -> @node K V) fuel : 0 < fuel -> inorder fuel h None = Ok [].
Proof. destruct fuel; [lia|done]. Qed.
