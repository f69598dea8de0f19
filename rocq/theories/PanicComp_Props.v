(** C74: a comparator that panics; the priority queue. *)
From Verif Require Import Base PQ_Model PQ_Spec PQ_Proofs PanicComp_Model PanicComp_Spec PanicComp_Proofs.

Local Lemma ok_ex {A B} (r : res (A * B)) (P : A -> B -> Prop) :
  match r with Ok (x, y) => P x y | _ => False end -> exists x y, r = Ok (x, y) /\ P x y.
Proof. destruct r as [[x y]| |]; [|done|done]. intros H. by exists x, y. Qed.

(** a comparator that answers often enough: the call is that of the model, for
    every state and every operation *)
Theorem C74_pq_recovers_the_model {T} (zero : T) (comp : T -> T -> Z) q o :
  recovers (q_step_c zero comp q o) (q_step zero comp q o).
Proof. apply rec_step. Qed.
Print Assumptions C74_pq_recovers_the_model.

(** every history with abandoned calls, every comparator: no later call panics by
    itself or runs forever, the queue stays a bag: an abandoned Push has
    added its element, an abandoned Pop has removed nothing *)
Theorem C74_pq_no_element_lost {T} (zero : T) (comp : T -> T -> Z) (z : Z) (sizes : list Z) (os : list (op * nat)) :
  exists q0 rs q b, q_new zero (z :: sizes) = Ok q0 /\ q_run_c zero comp q0 os = Ok (rs, q) /\
    cbag_run zero [] os.*1 rs b /\ q_len q = Z.of_nat (length b).
Proof.
  destruct (q_new_ok zero comp z sizes) as (q0 & E & [H1 _] & Hb).
  assert (H0 : holds q0 []) by (split; [done|by rewrite <- Hb]).
  destruct (run_c_ok zero comp os q0 [] H0) as (rs & q & b & ER & HR & [HL HB]).
  exists q0, rs, q, b. splits; try done. unfold q_len. f_equal.
  rewrite <- (Permutation_length HB), take_length. lia.
Qed.
Print Assumptions C74_pq_no_element_lost.

(** an abandoned Push leaves the front as it was; a Pop that returns gives the
    front, in every state that holds a bag *)
Theorem C74_pq_front {T} (zero : T) (comp : T -> T -> Z) (q : queue T) (b : list T) : holds q b ->
  (forall v n q', q_push_c comp q v n = Crash q' -> q_peek zero q' = q_peek zero q) /\
  (forall v ok n n' q', q_pop_c zero comp q n = Done (v, ok, q') n' -> q_peek zero q = Ok (v, ok)).
Proof.
  intros H. split.
  - intros v n q' E. pose proof (push_c_ok zero comp q v n b H) as HP. rewrite E in HP. by destruct HP as (_ & _ & ?).
  - intros v ok n n' q' E. pose proof (pop_c_ok zero comp q n b H) as HP. rewrite E in HP. by destruct HP as [? _].
Qed.
Print Assumptions C74_pq_front.

(** a queue that has run empty is a correct priority queue again, whatever was
    abandoned before *)
Theorem C74_pq_empty_is_as_new {T} (zero : T) (comp : T -> T -> Z) (z : Z) (sizes : list Z) (os : list (op * nat)) q0 rs q (os' : list op) :
  cmp_ok comp -> q_new zero (z :: sizes) = Ok q0 -> q_run_c zero comp q0 os = Ok (rs, q) -> q_len q = 0%Z ->
  exists rs' q' b, q_run zero comp q os' = Ok (rs', q') /\ bag_run zero comp [] os' rs' b.
Proof.
  intros Hc E0 ER HL. destruct (q_new_ok zero comp z sizes) as (q0' & E & [H1 _] & Hb).
  rewrite E0 in E. injection E as <-.
  assert (H0 : holds q0 []) by (split; [done|by rewrite <- Hb]).
  destruct (run_c_ok zero comp os q0 [] H0) as (rs1 & q1 & b & ER1 & HR & [HL1 HB]).
  rewrite ER in ER1. injection ER1 as <- <-. unfold q_len in HL.
  assert (HI : q_inv comp q). { split; [done|]. intros j. lia. }
  destruct (q_run_ok zero comp Hc os' q [] HI) as (rs' & q' & b' & HR' & _ & HB' & _).
  { unfold q_bag. by replace (qsize q) with 0 by lia. }
  by exists rs', q', b'.
Qed.
Print Assumptions C74_pq_empty_is_as_new.

(** but the order is lost: after an abandoned Push the least element need not be
    at the front, after an abandoned Pop neither; later Pops come out of order *)
Theorem C74_pq_order_after_abandoned_push_refuted :
  let q0 := Queue (replicate 8 0%Z) 0 in q_new 0%Z [4%Z] = Ok q0 /\
  exists rs q, q_run_c 0%Z Zcomp q0 [(Push 5%Z, 9); (Push 3%Z, 0); (Peek, 9); (Pop, 9); (Pop, 9)] = Ok (rs, q) /\
    rs = [Some (OBool true); None; Some (OVal 5%Z true); Some (OVal 5%Z true); Some (OVal 3%Z true)].
Proof. cbn zeta. split; [done|]. apply ok_ex. by vm_compute. Qed.
Print Assumptions C74_pq_order_after_abandoned_push_refuted.

Theorem C74_pq_order_after_abandoned_pop_refuted :
  let q0 := Queue (replicate 8 0%Z) 0 in q_new 0%Z [4%Z] = Ok q0 /\
  exists rs q, q_run_c 0%Z Zcomp q0 [(Push 1%Z, 9); (Push 2%Z, 9); (Push 3%Z, 9); (Pop, 0); (Len, 9); (Peek, 9); (Pop, 9); (Pop, 9); (Pop, 9)] = Ok (rs, q) /\
    rs = [Some (OBool true); Some (OBool true); Some (OBool true); None; Some (OLen 3); Some (OVal 3%Z true);
          Some (OVal 3%Z true); Some (OVal 1%Z true); Some (OVal 2%Z true)].
Proof. cbn zeta. split; [done|]. apply ok_ex. by vm_compute. Qed.
Print Assumptions C74_pq_order_after_abandoned_pop_refuted.

(** non-vacuity: an abandoned Push on a queue that holds a bag; a history with
    abandoned calls that ends empty *)
Example C74_pq_front_example : exists q', holds (Queue [2; 5]%Z 2) [5; 2]%Z /\
  q_push_c Zcomp (Queue [2; 5]%Z 2) 1%Z 0 = Crash q' /\ q_peek 0%Z q' = Ok (2%Z, true).
Proof.
  eexists. split; [|split; [by vm_compute|by vm_compute]]. split; [cbn; lia|]. cbn. apply perm_swap.
Qed.
Example C74_pq_empty_example :
  exists rs q, q_run_c 0%Z Zcomp (Queue (replicate 8 0%Z) 0) [(Push 5%Z, 0); (Push 3%Z, 0); (Pop, 0); (Pop, 0)] = Ok (rs, q) /\ q_len q = 0%Z /\
    rs = [Some (OBool true); None; Some (OVal 5%Z true); Some (OVal 3%Z true)].
Proof. apply ok_ex. by vm_compute. Qed.
