(** Property theorems for collections/priorityqueue (C01-C03). *)
From Verif Require Import Base PQ_Model PQ_Spec PQ_Proofs.

(** C01 *)
Theorem C01_priority_queue_is_a_bag :
  forall (T : Type) (zero : T) (comp : T -> T -> Z), cmp_ok comp ->
  forall (z : Z) (sizes : list Z) (os : list op),
  exists q0 rs q b,
    q_new zero (z :: sizes) = Ok q0 /\
    q_run zero comp q0 os = Ok (rs, q) /\
    bag_run zero comp [] os rs b /\
    q_len q = Z.of_nat (length b).
Proof. exact @q_history. Qed.
Print Assumptions C01_priority_queue_is_a_bag.

Theorem C01_peek_announces_pop :
  forall (T : Type) (zero : T) (comp : T -> T -> Z), cmp_ok comp ->
  forall (z : Z) (sizes : list Z) (os : list op) q0 rs q v,
    q_new zero (z :: sizes) = Ok q0 -> q_run zero comp q0 os = Ok (rs, q) ->
    q_peek zero q = Ok (v, true) -> exists q', q_pop zero comp q = Ok (v, true, q').
Proof. exact @q_peek_pop. Qed.
Print Assumptions C01_peek_announces_pop.

(** C02 *)
Theorem C02_drain_sorted :
  forall (T : Type) (zero : T) (comp : T -> T -> Z), cmp_ok comp ->
  forall (z : Z) (sizes : list Z) (vs : list T),
  exists q0 q q' ws,
    q_new zero (z :: sizes) = Ok q0 /\
    q_push_all comp q0 vs = Ok q /\
    q_run zero comp q (replicate (length vs) Pop) = Ok ((fun v => OVal v true) <$> ws, q') /\
    ws ≡ₚ vs /\
    StronglySorted (fun a b => (comp a b <= 0)%Z) ws /\
    q_pop zero comp q' = Ok (zero, false, q').
Proof. exact @q_heapsort. Qed.
Print Assumptions C02_drain_sorted.

(** C03 *)
Theorem C03_new_panics_iff_no_size :
  forall (T : Type) (zero : T) (sizes : list Z), q_new zero sizes = Panic <-> sizes = [].
Proof. exact @q_new_panics_iff. Qed.
Print Assumptions C03_new_panics_iff_no_size.

Theorem C03_ofwith_always_panics :
  forall (T : Type) (zero : T) (comp : T -> T -> Z) (vs : list T), q_of_with zero comp vs = Panic.
Proof. exact @q_of_with_panics. Qed.
Print Assumptions C03_ofwith_always_panics.

Theorem C03_size_hint_ignored :
  forall (T : Type) (zero : T) (z1 z2 : Z) (s1 s2 : list Z),
    q_new zero (z1 :: s1) = q_new zero (z2 :: s2).
Proof. intros T zero z1 z2 s1 s2. exact (q_new_size_irrelevant zero z1 s1 z2 s2). Qed.
Print Assumptions C03_size_hint_ignored.

(** Non-vacuity: the comparator contract is met by [fn.Comp] at integers, and a
    concrete history with ties and growth beyond 8 slots. *)
Example C01_comparator_exists : cmp_ok Zcomp.
Proof. exact Zcomp_ok. Qed.
Example C02_concrete :
  exists q0 q q',
    q_new 0%Z [3%Z] = Ok q0 /\
    q_push_all Zcomp q0 [5;3;9;3;1;8;7;2;6;4;0]%Z = Ok q /\
    q_run 0%Z Zcomp q (replicate 11 Pop) =
      Ok ((fun v => OVal v true) <$> [0;1;2;3;3;4;5;6;7;8;9]%Z, q').
Proof. eexists _, _, _. split; [|split]; vm_compute; reflexivity. Qed.
