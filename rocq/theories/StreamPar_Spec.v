(** Specification vocabulary for parallel streams. *)
From Verif Require Import Base StreamPar_Model.

Section spec.
  Context {T : Type}.
  (** the elements delivered to the consumer by goroutine [j], in order *)
  Definition delivered (j : nat) (log : list (nat * Z * T)) : list T :=
    (fun e => e.2) <$> filter (fun e => e.1.1 = j) log.
  (** the elements dropped by goroutine [j], in order *)
  Definition dropped (j : nat) (dr : list (nat * T)) : list T :=
    (fun e => e.2) <$> filter (fun e => e.1 = j) dr.
  (** the keys handed out by Enumerate *)
  Definition keys (log : list (nat * Z * T)) : list Z := (fun e => e.1.2) <$> log.
End spec.
