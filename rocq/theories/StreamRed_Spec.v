(** Vocabulary of C65. *)
From Verif Require Import Base.

(** the parallelisms FoldWith handles properly: positive, not above the
    length, and dividing it *)
Definition fits {T} (s : list T) (p : Z) : Prop :=
  (0 < p)%Z /\ (p <= Z.of_nat (length s))%Z /\ (p | Z.of_nat (length s))%Z.
