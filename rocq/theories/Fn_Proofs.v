From Verif Require Import Base Fn_Model Fn_Spec PQ_Model.

Section comb.
  Context {L : Type} (n1 n2 : L).
  Lemma and_spec {T} (P Q : T -> bool) t log :
    pred_and (logged n1 P) (logged n2 Q) t log =
    Ok (P t && Q t, log ++ n1 :: (if P t then [n2] else [])).
  Proof. unfold pred_and, go_and, logged; simpl. destruct (P t); simpl; by rewrite <- ?app_assoc. Qed.
  Lemma or_spec {T} (P Q : T -> bool) t log :
    pred_or (logged n1 P) (logged n2 Q) t log =
    Ok (P t || Q t, log ++ n1 :: (if P t then [] else [n2])).
  Proof. unfold pred_or, go_or, logged; simpl. destruct (P t); simpl; by rewrite <- ?app_assoc. Qed.
  Lemma not_spec {T} (P : T -> bool) t log :
    pred_not (logged n1 P) t log = Ok (negb (P t), log ++ [n1]) /\
    pred_negate (logged n1 P) t log = Ok (negb (P t), log ++ [n1]).
  Proof. done. Qed.
  Lemma compose_spec {T V R} (F : V -> T) (G : T -> R) v log :
    compose (logged n1 F) (logged n2 G) v log = Ok (G (F v), log ++ [n1; n2]) /\
    and_then (logged n1 F) (logged n2 G) v log = Ok (G (F v), log ++ [n1; n2]).
  Proof. unfold compose, and_then, logged; simpl. by rewrite <- app_assoc. Qed.
  Lemma consumer_spec {T} t log :
    consumer_and_then (T:=T) (logged n1 (fun _ => tt)) (logged n2 (fun _ => tt)) t log =
    Ok (tt, log ++ [n1; n2]).
  Proof. unfold consumer_and_then, logged; simpl. by rewrite <- app_assoc. Qed.
  Lemma bin_consumer_spec {T U} (t : T) (u : U) log :
    bin_consumer_and_then (fun _ => logged n1 (fun _ => tt)) (fun _ => logged n2 (fun _ => tt)) t u log =
    Ok (tt, log ++ [n1; n2]).
  Proof. unfold bin_consumer_and_then, logged; simpl. by rewrite <- app_assoc. Qed.
  Lemma bin_and_spec {T U} (P Q : T -> U -> bool) t u log :
    bin_and (fun t => logged n1 (P t)) (fun t => logged n2 (Q t)) t u log =
    Ok (P t u && Q t u, log ++ n1 :: (if P t u then [n2] else [])).
  Proof. unfold bin_and, go_and, logged; simpl. destruct (P t u); simpl; by rewrite <- ?app_assoc. Qed.
  Lemma bin_or_spec {T U} (P Q : T -> U -> bool) t u log :
    bin_or (fun t => logged n1 (P t)) (fun t => logged n2 (Q t)) t u log =
    Ok (P t u && Q t u, log ++ n1 :: (if P t u then [n2] else [])).
  Proof. unfold bin_or, go_and, logged; simpl. destruct (P t u); simpl; by rewrite <- ?app_assoc. Qed.
  (* a skipped operand's panic is not observed; a needed one's is *)
  Lemma short_circuit_panics {T} (P : T -> bool) t log :
    (pred_and (logged n1 P) panics t log = if P t then Panic else Ok (false, log ++ [n1])) /\
    (pred_or (logged n1 P) panics t log = if P t then Ok (true, log ++ [n1]) else Panic).
  Proof. unfold pred_and, pred_or, go_and, go_or, logged, panics; simpl. by destruct (P t). Qed.
End comb.

Lemma bin_or_not_disjunction :
  exists (P Q : nat -> nat -> bool) t u, P t u || Q t u = true /\
    bin_or (fun t => logged 1 (P t)) (fun t => logged 2 (Q t)) t u [] = Ok (false, [1]).
Proof. by exists (fun _ _ => false), (fun _ _ => true), 0, 0. Qed.

(* strings *)
Lemma str_ltb_irrefl a : str_ltb a a = false.
Proof. induction a as [|x a IH]; [done|]. cbn [str_ltb]. destruct (N.ltb_spec x x); [lia|done]. Qed.
Lemma str_ltb_trans a : forall b c, str_ltb a b = true -> str_ltb b c = true -> str_ltb a c = true.
Proof.
  induction a as [|x a IH]; intros [|y b] [|z c]; cbn [str_ltb]; try done.
  destruct (N.ltb_spec x y), (N.ltb_spec y x), (N.ltb_spec y z), (N.ltb_spec z y),
    (N.ltb_spec x z), (N.ltb_spec z x); try done; try lia. apply IH.
Qed.
Lemma str_ltb_total a : forall b, str_ltb a b = false -> str_ltb b a = false -> a = b.
Proof.
  induction a as [|x a IH]; intros [|y b]; cbn [str_ltb]; try done.
  destruct (N.ltb_spec x y), (N.ltb_spec y x); try done; try lia. intros ??.
  assert (x = y) as -> by lia. f_equal. by apply IH.
Qed.
Lemma str_ltb_asym a b : str_ltb a b = true -> str_ltb b a = false.
Proof.
  intros H1. destruct (str_ltb b a) eqn:H2; [|done].
  pose proof (str_ltb_trans _ _ _ H1 H2) as H. by rewrite str_ltb_irrefl in H.
Qed.
Lemma str_comp_ok : cmp_ok str_comp.
Proof.
  split; unfold str_comp, comp_of.
  - intros a b. destruct (str_ltb b a) eqn:E1, (str_ltb a b) eqn:E2; try done.
    apply str_ltb_asym in E1. congruence.
  - intros a b c H1 H2.
    destruct (str_ltb b a) eqn:E1; [lia|]. destruct (str_ltb c b) eqn:E2; [lia|].
    destruct (str_ltb c a) eqn:E3; [|repeat case_match; lia]. exfalso.
    destruct (str_ltb a b) eqn:E4.
    + pose proof (str_ltb_trans _ _ _ E3 E4). congruence.
    + pose proof (str_ltb_total _ _ E4 E1); subst. congruence.
Qed.
Lemma str_comp_unit : cmp_unit str_comp.
Proof. intros a b. unfold str_comp, comp_of. repeat case_match; auto. Qed.
Lemma str_comp_eq : cmp_eq str_comp.
Proof.
  intros a b. unfold str_comp, comp_of.
  destruct (str_ltb b a) eqn:E1; [done|]. destruct (str_ltb a b) eqn:E2; [done|].
  intros _. by apply str_ltb_total.
Qed.
Lemma str_comp_lt_spec a b :
  str_comp a b = (-1)%Z <->
  (exists r, r <> [] /\ b = a ++ r) \/
  (exists p x y a' b', a = p ++ x :: a' /\ b = p ++ y :: b' /\ (x < y)%N).
Proof.
  assert (str_comp a b = (-1)%Z <-> str_ltb a b = true) as ->.
  { unfold str_comp, comp_of. split.
    - repeat case_match; lia || done.
    - intros E. rewrite (str_ltb_asym _ _ E), E. done. }
  revert b. induction a as [|x a IH]; intros b.
  - destruct b as [|y b]; cbn [str_ltb]; split; try done.
    + intros [(r & Hr & E)|(p & x & y & a' & b' & E & _)]; [by subst|by destruct p].
    + intros _. left. by exists (y :: b).
  - destruct b as [|y b]; cbn [str_ltb].
    + split; [done|]. intros [(r & Hr & E)|(p & x' & y & a' & b' & _ & E & _)]; [done|by destruct p].
    + destruct (N.ltb_spec x y).
      { split; [|done]. intros _. right. by exists [], x, y, a, b. }
      destruct (N.ltb_spec y x).
      { split; [done|]. intros [(r & Hr & E)|(p & x' & y' & a' & b' & E1 & E2 & ?)].
        - simplify_list_eq. lia.
        - destruct p; simplify_list_eq; lia. }
      assert (x = y) as -> by lia. rewrite IH. split.
      * intros [(r & Hr & E)|(p & x' & y' & a' & b' & E1 & E2 & ?)].
        -- left. exists r. by subst.
        -- right. exists (y :: p), x', y', a', b'. by subst.
      * intros [(r & Hr & E)|(p & x' & y' & a' & b' & E1 & E2 & ?)].
        -- left. exists r. by simplify_list_eq.
        -- right. destruct p as [|z p]; simplify_list_eq; [lia|].
           by exists p, x', y', a', b'.
Qed.

(* a value incomparable with everything (NaN) breaks the contract *)
Lemma comp_nan_not_ok {T} (ltb : T -> T -> bool) (n a b : T) :
  (forall x, ltb n x = false /\ ltb x n = false) -> ltb a b = true ->
  ~ cmp_ok (comp_of ltb (fun x y => ltb y x)).
Proof.
  intros Hn Hab Hok.
  pose proof (cmp_trans _ Hok b n a) as H. unfold comp_of in H.
  rewrite (proj1 (Hn a)), (proj2 (Hn a)), (proj1 (Hn b)), (proj2 (Hn b)), Hab in H. lia.
Qed.

(* the priority queue looks only at the sign *)
Section sign.
  Context {T : Type} (zero : T) (c1 c2 : T -> T -> Z).
  Context (Hsgn : forall a b, Z.sgn (c1 a b) = Z.sgn (c2 a b)).
  Lemma up_sign n : forall els i, percolate_up c1 n els i = percolate_up c2 n els i.
  Proof.
    induction n as [|n IH]; intros els i; [done|]. cbn [percolate_up].
    case_decide; [done|]. destruct (els !! i) as [x|]; [|done].
    destruct (els !! ((i - 1) / 2)) as [y|]; [|done]. cbn [deref rbind].
    pose proof (Hsgn x y). replace (0 <=? c1 x y)%Z with (0 <=? c2 x y)%Z by lia.
    by rewrite IH.
  Qed.
  Lemma down_sign f : forall els i n, percolate_down c1 f els i n = percolate_down c2 f els i n.
  Proof.
    induction f as [|f IH]; intros els i n; [done|]. cbn [percolate_down].
    case_decide; [done|].
    assert (E : (if decide (2 * i + 1 + 1 < n)
            then let! a := deref (els !! (2 * i + 1 + 1)) in
                 let! b := deref (els !! (2 * i + 1)) in
                 Ok (if (c1 a b <? 0)%Z then 2 * i + 1 + 1 else 2 * i + 1)
            else Ok (2 * i + 1)) =
           (if decide (2 * i + 1 + 1 < n)
            then let! a := deref (els !! (2 * i + 1 + 1)) in
                 let! b := deref (els !! (2 * i + 1)) in
                 Ok (if (c2 a b <? 0)%Z then 2 * i + 1 + 1 else 2 * i + 1)
            else Ok (2 * i + 1))).
    { case_decide; [|done]. destruct (els !! (2 * i + 1 + 1)) as [a|]; [|reflexivity]. destruct (els !! (2 * i + 1)) as [b|]; [|reflexivity].
      cbn [deref rbind]. pose proof (Hsgn a b).
      by replace (c1 a b <? 0)%Z with (c2 a b <? 0)%Z by lia. }
    rewrite E. clear E. match goal with |- rbind ?m _ = _ => destruct m as [j| |] end; [|reflexivity|reflexivity]. cbn [rbind].
    destruct (els !! j) as [x|]; [|done]. destruct (els !! i) as [y|]; [|done]. cbn [deref rbind].
    pose proof (Hsgn x y). replace (0 <=? c1 x y)%Z with (0 <=? c2 x y)%Z by lia.
    by rewrite IH.
  Qed.
  Lemma q_run_sign os : forall q, q_run zero c1 q os = q_run zero c2 q os.
  Proof.
    induction os as [|o os IH]; intros q; [done|]. cbn [q_run].
    replace (q_step zero c1 q o) with (q_step zero c2 q o).
    - destruct (q_step zero c2 q o) as [[r q1]| |]; [|done|done]. cbn [rbind snd]. by rewrite IH.
    - destruct o; cbn [q_step]; try done.
      + unfold q_push. by rewrite up_sign.
      + unfold q_pop. case_decide; [done|]. destruct (elements q !! _); [|done].
        destruct (elements q !! _); [|done]. cbn [deref rbind]. by rewrite down_sign.
  Qed.
End sign.

Lemma ss_unusable {M K V : Type} :
  (ss_new (M:=M) = None) /\
  (forall (body : M -> K -> V -> res M) k v, ss_set body ss_new k v = Panic) /\
  (forall (body : M -> K -> res (V * bool)) k, ss_get body ss_new k = Panic).
Proof. done. Qed.
