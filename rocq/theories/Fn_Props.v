(** Property theorems for fn and sortedset (C58, C60 and the fn part of C59). *)
From Verif Require Import Base Fn_Model Fn_Spec Fn_Proofs PQ_Model.

(** C58.  [logged name P] is a callback computing [P] whose only side effect is
    to append [name] to a log, so the log shows which callbacks ran, in order. *)
Theorem C58_predicate_combinators :
  forall (L T : Type) (n1 n2 : L) (P Q : T -> bool) (t : T) (log : list L),
    pred_and (logged n1 P) (logged n2 Q) t log =
      Ok (P t && Q t, log ++ n1 :: (if P t then [n2] else [])) /\
    pred_or (logged n1 P) (logged n2 Q) t log =
      Ok (P t || Q t, log ++ n1 :: (if P t then [] else [n2])) /\
    pred_negate (logged n1 P) t log = Ok (negb (P t), log ++ [n1]) /\
    pred_not (logged n1 P) t log = Ok (negb (P t), log ++ [n1]).
Proof.
  intros L T n1 n2 P Q t log.
  exact (conj (and_spec n1 n2 P Q t log) (conj (or_spec n1 n2 P Q t log)
    (conj (proj2 (not_spec n1 P t log)) (proj1 (not_spec n1 P t log))))).
Qed.
Print Assumptions C58_predicate_combinators.

Theorem C58_short_circuit_hides_panics :
  forall (L T : Type) (n : L) (P : T -> bool) (t : T) (log : list L),
    (pred_and (logged n P) panics t log = if P t then Panic else Ok (false, log ++ [n])) /\
    (pred_or (logged n P) panics t log = if P t then Ok (true, log ++ [n]) else Panic).
Proof. intros L T n P t log. exact (short_circuit_panics n P t log). Qed.
Print Assumptions C58_short_circuit_hides_panics.

Theorem C58_function_combinators :
  forall (L T V R : Type) (n1 n2 : L) (F : V -> T) (G : T -> R) (v : V) (log : list L),
    compose (logged n1 F) (logged n2 G) v log = Ok (G (F v), log ++ [n1; n2]) /\
    and_then (logged n1 F) (logged n2 G) v log = Ok (G (F v), log ++ [n1; n2]).
Proof. intros L T V R n1 n2 F G v log. exact (compose_spec n1 n2 F G v log). Qed.
Print Assumptions C58_function_combinators.

Theorem C58_consumer_combinators :
  forall (L T U : Type) (n1 n2 : L) (t : T) (u : U) (log : list L),
    consumer_and_then (logged n1 (fun _ : T => tt)) (logged n2 (fun _ : T => tt)) t log =
      Ok (tt, log ++ [n1; n2]) /\
    bin_consumer_and_then (fun _ : T => logged n1 (fun _ : U => tt))
      (fun _ : T => logged n2 (fun _ : U => tt)) t u log = Ok (tt, log ++ [n1; n2]).
Proof.
  intros L T U n1 n2 t u log.
  exact (conj (consumer_spec n1 n2 t log) (bin_consumer_spec n1 n2 t u log)).
Qed.
Print Assumptions C58_consumer_combinators.

Theorem C58_bin_and_is_conjunction :
  forall (L T U : Type) (n1 n2 : L) (P Q : T -> U -> bool) t u (log : list L),
    bin_and (fun t => logged n1 (P t)) (fun t => logged n2 (Q t)) t u log =
    Ok (P t u && Q t u, log ++ n1 :: (if P t u then [n2] else [])).
Proof. intros L T U n1 n2 P Q t u log. exact (bin_and_spec n1 n2 P Q t u log). Qed.
Print Assumptions C58_bin_and_is_conjunction.

(** BinPredicate.Or computes the conjunction ... *)
Theorem C58_bin_or_is_conjunction :
  forall (L T U : Type) (n1 n2 : L) (P Q : T -> U -> bool) t u (log : list L),
    bin_or (fun t => logged n1 (P t)) (fun t => logged n2 (Q t)) t u log =
    Ok (P t u && Q t u, log ++ n1 :: (if P t u then [n2] else [])).
Proof. intros L T U n1 n2 P Q t u log. exact (bin_or_spec n1 n2 P Q t u log). Qed.
Print Assumptions C58_bin_or_is_conjunction.

(** ... so it is not the disjunction. *)
Theorem C58_bin_or_is_disjunction_refuted :
  exists (P Q : nat -> nat -> bool) t u, P t u || Q t u = true /\
    bin_or (fun t => logged 1 (P t)) (fun t => logged 2 (Q t)) t u [] = Ok (false, [1]).
Proof. exact bin_or_not_disjunction. Qed.
Print Assumptions C58_bin_or_is_disjunction_refuted.

Theorem C58_bin_negate :
  forall (L T U : Type) (n : L) (P : T -> U -> bool) t u (log : list L),
    bin_negate (fun t => logged n (P t)) t u log = Ok (negb (P t u), log ++ [n]).
Proof. done. Qed.
Print Assumptions C58_bin_negate.

(** C59, fn part *)
Theorem C59_comp_is_a_total_order_on_integers_and_strings :
  (cmp_ok Zcomp /\ cmp_unit Zcomp /\ cmp_eq Zcomp) /\
  (cmp_ok str_comp /\ cmp_unit str_comp /\ cmp_eq str_comp).
Proof.
  exact (conj (conj Zcomp_ok (conj Zcomp_unit Zcomp_eq))
              (conj str_comp_ok (conj str_comp_unit str_comp_eq))).
Qed.
Print Assumptions C59_comp_is_a_total_order_on_integers_and_strings.

Theorem C59_string_order_is_lexicographic :
  forall a b : list N,
  str_comp a b = (-1)%Z <->
  (exists r, r <> [] /\ b = a ++ r) \/
  (exists p x y a' b', a = p ++ x :: a' /\ b = p ++ y :: b' /\ (x < y)%N).
Proof. exact str_comp_lt_spec. Qed.
Print Assumptions C59_string_order_is_lexicographic.

(** A type with a value incomparable to all others (floats with NaN) does not
    give a total preorder. *)
Theorem C59_comp_with_nan_is_not_an_order :
  forall (T : Type) (ltb : T -> T -> bool) (nan a b : T),
  (forall x, ltb nan x = false /\ ltb x nan = false) -> ltb a b = true ->
  ~ cmp_ok (comp_of ltb (fun x y => ltb y x)).
Proof. exact @comp_nan_not_ok. Qed.
Print Assumptions C59_comp_with_nan_is_not_an_order.

Theorem C59_priority_queue_depends_only_on_sign :
  forall (T : Type) (zero : T) (c1 c2 : T -> T -> Z),
  (forall a b, Z.sgn (c1 a b) = Z.sgn (c2 a b)) ->
  forall (os : list op) (q : queue T), q_run zero c1 q os = q_run zero c2 q os.
Proof. exact @q_run_sign. Qed.
Print Assumptions C59_priority_queue_depends_only_on_sign.

(** C60 *)
Theorem C60_sortedset_unusable :
  forall M K V : Type,
  (ss_new (M:=M) = None) /\
  (forall (body : M -> K -> V -> res M) k v, ss_set body ss_new k v = Panic) /\
  (forall (body : M -> K -> res (V * bool)) k, ss_get body ss_new k = Panic).
Proof. exact @ss_unusable. Qed.
Print Assumptions C60_sortedset_unusable.

(** Non-vacuity: an order with a NaN (None), and two different comparators of equal sign. *)
Definition opt_ltb (a b : option Z) : bool :=
  match a, b with Some x, Some y => (x <? y)%Z | _, _ => false end.
Example C59_nan_hypotheses_met :
  (forall x, opt_ltb None x = false /\ opt_ltb x None = false) /\
  opt_ltb (Some 1%Z) (Some 2%Z) = true.
Proof. split; [|done]. intros [?|]; done. Qed.
Example C59_sign_hypothesis_met :
  forall a b : Z, Z.sgn (a - b) = Z.sgn (Zcomp a b).
Proof. intros a b. unfold Zcomp. repeat case_match; lia. Qed.
