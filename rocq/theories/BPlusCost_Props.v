(** C72, B+ tree: how often the user's comparator is called. *)
From Verif Require Import Base BPlus_Model BPlus_Spec BPlus_Proofs BPlus_Proofs11 BPlus_Proofs13 BPlus_Proofs15 BPlus_Proofs12 Cost_Model Cost_Proofs BPlusCost_Proofs BPlusCost_Proofs2.

(** Forgetting the recorded calls gives ContainsKey, InsertEqual and InsertUnique of BPlus_Model *)
Theorem C72_bplus_recording_is_the_model {K V} (kzero : K) (vzero : V) comp k v (t : @tree K V) :
  erase (contains_key_n comp k t) = contains_key comp k t
  /\ erase (insert_equal_n comp kzero vzero k v t) = insert_equal kzero vzero comp k v t
  /\ erase (insert_unique_n comp kzero vzero k v t) = insert_unique kzero vzero comp k v t.
Proof. splits; [apply contains_erase|apply insert_equal_erase|apply insert_unique_erase]. Qed.
Print Assumptions C72_bplus_recording_is_the_model.

(** After any history with any comparator that did not panic, a tree of degree
    at least 2 whose root is at depth d + 1 above its leaves stores at least
    2 (degree-1) degree^d entries; so its depth is at most log2 of their number *)
Theorem C72_bplus_depth {K V} (kzero : K) (vzero : V) comp compV deg (os : list (@op K V)) t rs d :
  (2 <= deg)%Z -> run_new kzero vzero comp compV deg os = Ok (t, rs) -> tree_reads t d (reading t) ->
  d <= Nat.log2 (length (entries (reading t)))
  /\ (forall d', d = S d' -> 2 * (Z.to_nat deg - 1) * Z.to_nat deg ^ d' <= length (entries (reading t))).
Proof.
  intros Hd E T. destruct (run_new_ok kzero vzero comp compV deg os Hd) as [[H _]|(t' & rs' & d' & w & E' & _ & _ & Hdg & _)]; [by rewrite H in E|].
  rewrite E in E'. injection E' as <- <-. clear E. split; [apply (depth_log t); [exact T|lia]|].
  intros d0 ->. destruct T as (r & fp & _ & R & _). assert (degree t = Z.to_nat deg) as <- by lia. eapply root_many; [exact R|lia].
Qed.
Print Assumptions C72_bplus_depth.

(** After any such history, in a tree with n entries: ContainsKey calls the
    comparator at most (log2 n + 1) (log2 (2 degree - 1) + 1) times, InsertEqual
    at most (log2 n + 2) (2 degree - 1) times, InsertUnique at most their sum *)
Theorem C72_bplus_comparator_calls {K V} (kzero : K) (vzero : V) comp compV deg (os : list (@op K V)) t rs k v :
  (2 <= deg)%Z -> run_new kzero vzero comp compV deg os = Ok (t, rs) ->
  let logn := Nat.log2 (length (entries (reading t))) in
  let lookup := (logn + 1) * (Nat.log2 (2 * Z.to_nat deg - 1) + 1) in
  let insertion := (logn + 2) * (2 * Z.to_nat deg - 1) in
  (forall r calls, contains_key_n comp k t = Ok (r, calls) -> length calls <= lookup)
  /\ (forall r calls, insert_equal_n comp kzero vzero k v t = Ok (r, calls) -> length calls <= insertion)
  /\ (forall r calls, insert_unique_n comp kzero vzero k v t = Ok (r, calls) -> length calls <= lookup + insertion).
Proof.
  intros Hd E logn lookup insertion.
  destruct (run_new_ok kzero vzero comp compV deg os Hd) as [[H _]|(t' & rs' & d & w & E' & _ & T & Hdg & _)]; [by rewrite H in E|].
  rewrite E in E'. injection E' as <- <-. clear E. pose proof (reading_ok _ _ _ T) as Hw.
  assert (HM : 2 <= degree t) by lia. assert (D : degree t = Z.to_nat deg) by lia.
  pose proof (depth_log t d w T HM) as HD. rewrite <-Hw in HD. fold logn in HD.
  assert (H1 : S d * S (Nat.log2 (2 * degree t - 1)) <= lookup) by (rewrite D; subst lookup; apply Nat.mul_le_mono; lia).
  assert (H2 : (d + 2) * (2 * degree t - 1) <= insertion) by (rewrite D; subst insertion; apply Nat.mul_le_mono; lia).
  splits; intros r n E.
  - pose proof (contains_costs comp t d w k HM T _ _ E). lia.
  - pose proof (insert_equal_costs kzero vzero comp t d w k v HM T _ _ E). lia.
  - pose proof (insert_unique_costs kzero vzero comp t d w k v HM T _ _ E). lia.
Qed.
Print Assumptions C72_bplus_comparator_calls.

(** Only the recorded pairs are asked about: with another comparator that
    answers those alike, the call makes the same calls and does the same *)
Theorem C72_bplus_no_other_question {K V} (kzero : K) (vzero : V) comp comp' k v (t : @tree K V) calls :
  (forall x y, (x, y) ∈ calls -> comp' x y = comp x y) ->
  (forall r, contains_key_n comp k t = Ok (r, calls) -> contains_key_n comp' k t = Ok (r, calls) /\ contains_key comp' k t = Ok r)
  /\ (forall r, insert_equal_n comp kzero vzero k v t = Ok (r, calls) ->
        insert_equal_n comp' kzero vzero k v t = Ok (r, calls) /\ insert_equal kzero vzero comp' k v t = Ok r)
  /\ (forall r, insert_unique_n comp kzero vzero k v t = Ok (r, calls) ->
        insert_unique_n comp' kzero vzero k v t = Ok (r, calls) /\ insert_unique kzero vzero comp' k v t = Ok r).
Proof.
  intros H. splits; intros r E.
  - pose proof (contains_follows comp comp' k t _ _ E H) as E'. split; [exact E'|]. by rewrite <-contains_erase, E'.
  - pose proof (insert_equal_follows kzero vzero comp comp' k v t _ _ E H) as E'. split; [exact E'|]. by rewrite <-insert_equal_erase, E'.
  - pose proof (insert_unique_follows kzero vzero comp comp' k v t _ _ E H) as E'. split; [exact E'|]. by rewrite <-insert_unique_erase, E'.
Qed.
Print Assumptions C72_bplus_no_other_question.

(** ten entries, degree 2: a lookup of 5 calls, an insertion of 4 *)
Example C72_bplus_calls_ex :
  match run_new 0%Z 0%Z Zcomp Zcomp 2 ((fun k => InsertEqual k 0%Z) <$> [1; 2; 3; 4; 5; 6; 7; 8; 9; 10]%Z) with
  | Ok (t, _) => match contains_key_n Zcomp 10%Z t, insert_equal_n Zcomp 0%Z 0%Z 0%Z 0%Z t with
    | Ok (true, a), Ok (_, b) => (length (entries (reading t)), length a, length b) = (10, 5, 4)
    | _, _ => False end
  | _ => False end.
Proof. by vm_compute. Qed.
