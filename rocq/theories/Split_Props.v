(** Property theorems for Slice.SplitableIter (C12). *)
From Verif Require Import Base Iter_Model Iter_Spec Split_Model Split_Proofs.

(** 1 <= p <= n: a partition into ceil(n / floor(n/p)) segments *)
Theorem C12_split_partitions :
  forall (T : Type) (s : list T) (p : Z),
  (1 <= p)%Z -> (p <= Z.of_nat (length s))%Z ->
  let step := length s / Z.to_nat p in
  exists segs fin,
    drains (split_next s p) 0 segs fin /\ split_next s p fin = Ok (None, fin) /\
    concat segs = s /\
    length segs = (length s + step - 1) / step /\
    (forall i seg, segs !! i = Some seg -> i + 1 < length segs -> length seg = step) /\
    (forall seg, last segs = Some seg -> 1 <= length seg <= step) /\
    (length segs = Z.to_nat p <-> (p | Z.of_nat (length s))%Z) /\
    (Z.to_nat p <= length segs).
Proof. exact @split_partitions. Qed.
Print Assumptions C12_split_partitions.

(** p <= 0: one segment, the whole slice, then exhausted for good *)
Theorem C12_split_sequential :
  forall (T : Type) (s : list T) (p : Z), (p <= 0)%Z ->
  drains (split_next s p) 0 [s] 1 /\ forall i, 0 < i -> split_next s p i = Ok (None, i).
Proof. exact @split_seq. Qed.
Print Assumptions C12_split_sequential.

(** 0 < n < p: every call yields an empty segment and does not advance *)
Theorem C12_split_never_ends :
  forall (T : Type) (s : list T) (p : Z), (0 < Z.of_nat (length s) < p)%Z ->
  split_next s p 0 = Ok (Some [], 0).
Proof. exact @split_stuck. Qed.
Print Assumptions C12_split_never_ends.

(** n = 0 < p: no segments *)
Theorem C12_split_empty :
  forall (T : Type) (p : Z), (0 < p)%Z -> split_next (@nil T) p 0 = Ok (None, 0).
Proof. exact @split_empty. Qed.
Print Assumptions C12_split_empty.

(** Non-vacuity: 7 elements, parallelism 3 gives four segments, not three. *)
Example C12_seven_by_three :
  split_next [1;2;3;4;5;6;7] 3 0 = Ok (Some [1;2], 2) /\
  split_next [1;2;3;4;5;6;7] 3 2 = Ok (Some [3;4], 4) /\
  split_next [1;2;3;4;5;6;7] 3 4 = Ok (Some [5;6], 6) /\
  split_next [1;2;3;4;5;6;7] 3 6 = Ok (Some [7], 8) /\
  split_next [1;2;3;4;5;6;7] 3 8 = Ok (None, 8).
Proof. repeat split; reflexivity. Qed.
