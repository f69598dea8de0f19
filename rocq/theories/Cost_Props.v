(** C72, priority queue and red-black tree: how often the user's comparator is called. *)
From Verif Require Import Base PQ_Model PQ_Spec RBTree_Model RBTree_Spec RBTree_Proofs RBTree_Proofs7 RBTree_Proofs8 RBTree_Proofs9
  Cost_Model Cost_Proofs RBCost_Proofs.

(** ** Priority queue *)

(** Forgetting the recorded calls gives Push and Pop of PQ_Model *)
Theorem C72_pq_recording_is_the_model :
  forall (T : Type) (zero : T) (comp : T -> T -> Z) (q : queue T) (v : T),
  erase (q_push_n comp q v) = q_push comp q v /\ erase (q_pop_n zero comp q) = q_pop zero comp q.
Proof. intros. split; [apply push_erase|apply pop_erase]. Qed.
Print Assumptions C72_pq_recording_is_the_model.

(** Push into a queue of n elements calls the comparator at most log2 (n+1)
    times, Pop at most 2 log2 (n-1) times - whatever the comparator answers *)
Theorem C72_pq_comparator_calls :
  forall (T : Type) (zero : T) (comp : T -> T -> Z) (q : queue T),
  (forall v r calls, q_push_n comp q v = Ok (r, calls) -> length calls <= Nat.log2 (qsize q + 1)) /\
  (forall r calls, q_pop_n zero comp q = Ok (r, calls) -> length calls <= 2 * Nat.log2 (qsize q - 1)).
Proof. intros T zero comp q. split; [intros v r n E; exact (push_costs zero comp q v _ _ E)|intros r n E; exact (pop_costs zero comp q _ _ E)]. Qed.
Print Assumptions C72_pq_comparator_calls.

(** Only the recorded pairs are asked about: with another comparator that
    answers those alike, the call makes the same calls and does the same *)
Theorem C72_pq_no_other_question :
  forall (T : Type) (zero : T) (comp comp' : T -> T -> Z) (q : queue T),
  (forall v r calls, q_push_n comp q v = Ok (r, calls) -> (forall x y, (x, y) ∈ calls -> comp' x y = comp x y) ->
     q_push_n comp' q v = Ok (r, calls) /\ q_push comp' q v = Ok r) /\
  (forall r calls, q_pop_n zero comp q = Ok (r, calls) -> (forall x y, (x, y) ∈ calls -> comp' x y = comp x y) ->
     q_pop_n zero comp' q = Ok (r, calls) /\ q_pop zero comp' q = Ok r).
Proof.
  intros T zero comp comp' q. split; [intros v|]; intros r calls E H.
  - pose proof (push_follows comp comp' q v _ _ E H) as E'. split; [exact E'|]. by rewrite <-push_erase, E'.
  - pose proof (pop_follows zero comp comp' q _ _ E H) as E'. split; [exact E'|]. by rewrite <-pop_erase, E'.
Qed.
Print Assumptions C72_pq_no_other_question.

(** The bound of Push is met: pushing a new minimum each time costs exactly log2 (n+1) *)
Example C72_pq_calls_ex :
  match q_new 0%Z [0%Z] with
  | Ok q => match q_push Zcomp q 9%Z with
    | Ok (_, q) => match q_push Zcomp q 8%Z with
      | Ok (_, q) => match q_push Zcomp q 7%Z with
        | Ok (_, q) => match q_push_n Zcomp q 6%Z, q_push_n Zcomp q 100%Z, q_pop_n 0%Z Zcomp q with
          | Ok (_, a), Ok (_, b), Ok (_, c) => (qsize q, a, b, c) = (3%nat, [(6, 9); (6, 7)]%Z, [(100, 9)]%Z, [(9, 8)]%Z)
          | _, _, _ => False end
        | _ => False end
      | _ => False end
    | _ => False end
  | _ => False end.
Proof. by vm_compute. Qed.

(** ** Red-black tree *)

(** Forgetting the recorded calls gives Has, Get, Put and Delete of RBTree_Model *)
Theorem C72_rb_recording_is_the_model :
  forall (K V : Type) (vzero : V) (comp : K -> K -> Z) fuel (t : tree K V) k v,
  erase (has_n comp fuel t k) = has comp fuel t k /\
  erase (get_n vzero comp fuel t k) = get vzero comp fuel t k /\
  erase (put_n comp fuel t k v) = put comp fuel t k v /\
  erase (delete_n comp fuel t k) = delete comp fuel t k.
Proof. intros. splits; [apply has_erase|apply get_erase|apply put_erase|apply delete_erase]. Qed.
Print Assumptions C72_rb_recording_is_the_model.

(** After any history, with any comparator: for a tree of n nodes, Has, Get and
    Put call the comparator at most 2 log2 (n+1) times, Delete at most twice more *)
Theorem C72_rb_comparator_calls :
  forall (K V : Type) (kzero : K) (vzero : V) (comp : K -> K -> Z) own (t : tree K V) bt fuel k v,
  reach kzero vzero comp own t -> is_tree (hp t) bt ->
  let bound := 2 * Nat.log2 (length (locs bt) + 1) in
  (forall r calls, has_n comp fuel t k = Ok (r, calls) -> length calls <= bound) /\
  (forall r calls, get_n vzero comp fuel t k = Ok (r, calls) -> length calls <= bound) /\
  (forall r calls, put_n comp fuel t k v = Ok (r, calls) -> length calls <= bound) /\
  (forall r calls, delete_n comp fuel t k = Ok (r, calls) -> length calls <= bound + 2).
Proof.
  intros K V kzero vzero comp own t bt0 fuel k v HR HT0 bound. destruct (reach_inv kzero vzero comp own t HR) as [bt I].
  assert (Hl : length (locs bt) = length (locs bt0)).
  { pose proof (i_tree _ _ _ _ I) as HT2. pose proof (linked_locs _ _ HT0) as L1. pose proof (linked_locs _ _ HT2) as L2.
    destruct HT0 as (_ & _ & N1). destruct HT2 as (_ & _ & N2). apply NoDup_cons in N1 as [_ N1]. apply NoDup_cons in N2 as [_ N2].
    apply Permutation_length, NoDup_Permutation; [done|done|]. intros x. by rewrite <- L1, <- L2. }
  pose proof (height_log bt (i_rb _ _ _ _ I)) as Hh. rewrite Hl in Hh. fold bound in Hh. pose proof (i_tree _ _ _ _ I) as HT.
  splits; intros r n E.
  - pose proof (has_costs comp fuel t bt k HT _ _ E). lia.
  - pose proof (get_costs vzero comp fuel t bt k HT _ _ E). lia.
  - pose proof (put_costs comp fuel t bt k v HT _ _ E). lia.
  - pose proof (delete_costs comp fuel t bt k HT _ _ E). lia.
Qed.
Print Assumptions C72_rb_comparator_calls.

(** Only the recorded pairs are asked about *)
Theorem C72_rb_no_other_question :
  forall (K V : Type) (vzero : V) (comp comp' : K -> K -> Z) fuel (t : tree K V) k v calls,
  (forall x y, (x, y) ∈ calls -> comp' x y = comp x y) ->
  (forall r, has_n comp fuel t k = Ok (r, calls) -> has_n comp' fuel t k = Ok (r, calls) /\ has comp' fuel t k = Ok r) /\
  (forall r, get_n vzero comp fuel t k = Ok (r, calls) -> get_n vzero comp' fuel t k = Ok (r, calls) /\ get vzero comp' fuel t k = Ok r) /\
  (forall r, put_n comp fuel t k v = Ok (r, calls) -> put_n comp' fuel t k v = Ok (r, calls) /\ put comp' fuel t k v = Ok r) /\
  (forall r, delete_n comp fuel t k = Ok (r, calls) -> delete_n comp' fuel t k = Ok (r, calls) /\ delete comp' fuel t k = Ok r).
Proof.
  intros K V vzero comp comp' fuel t k v calls H. splits; intros r E.
  - pose proof (has_follows comp comp' fuel t k _ _ E H) as E'. split; [exact E'|]. by rewrite <-has_erase, E'.
  - pose proof (get_follows vzero comp comp' fuel t k _ _ E H) as E'. split; [exact E'|]. by rewrite <-get_erase, E'.
  - pose proof (put_follows comp comp' fuel t k v _ _ E H) as E'. split; [exact E'|]. by rewrite <-put_erase, E'.
  - pose proof (delete_follows comp comp' fuel t k _ _ E H) as E'. split; [exact E'|]. by rewrite <-delete_erase, E'.
Qed.
Print Assumptions C72_rb_no_other_question.

(** The loops too: every call of the modelled API (lookups, Put, Delete,
    neighbours, ...) returns although each of its loops may go round only
    2 log2 (n+1) + 2 times *)
Theorem C72_rb_loops :
  forall (K V : Type) (kzero : K) (vzero : V) (comp : K -> K -> Z) own (t : tree K V) bt o fuel,
  reach kzero vzero comp own t -> is_tree (hp t) bt -> legal own o -> 2 * Nat.log2 (length (locs bt) + 1) + 2 <= fuel ->
  step vzero comp fuel t o <> Fuel.
Proof.
  intros K V kzero vzero comp own t bt0 o fuel HR HT0 HL Hf. destruct (reach_inv kzero vzero comp own t HR) as [bt I].
  assert (Hl : length (locs bt) = length (locs bt0)).
  { pose proof (i_tree _ _ _ _ I) as HT2. pose proof (linked_locs _ _ HT0) as L1. pose proof (linked_locs _ _ HT2) as L2.
    destruct HT0 as (_ & _ & N1). destruct HT2 as (_ & _ & N2). apply NoDup_cons in N1 as [_ N1]. apply NoDup_cons in N2 as [_ N2].
    apply Permutation_length, NoDup_Permutation; [done|done|]. intros x. by rewrite <- L1, <- L2. }
  apply (step_log kzero vzero comp own t bt o fuel I HL). by rewrite Hl.
Qed.
Print Assumptions C72_rb_loops.

(** seven keys: the bound is 6; a lookup costs at most 4, deletions 4 to 5 *)
Example C72_rb_calls_ex :
  match run 0%Z Zcomp 20 (new_tree 0 0)%Z ((fun k => OPut k 0%Z) <$> [1; 2; 3; 4; 5; 6; 7]%Z) with
  | Ok (_, t) => match has_n Zcomp 20 t 7%Z, has_n Zcomp 20 t 2%Z, put_n Zcomp 20 t 8%Z 0%Z, delete_n Zcomp 20 t 7%Z with
    | Ok (true, a), Ok (true, b), Ok (_, c), Ok (_, d) => (a, b, length c, length d) = ([(7, 2); (7, 4); (7, 6); (7, 7)]%Z, [(2, 2)]%Z, 4, 5)
    | _, _, _, _ => False end
  | _ => False end.
Proof. by vm_compute. Qed.
