(** Proofs for C75: every abandoned call leaves Size, the root and the degree
    alone; histories of insertions and lookups with abandoned calls. *)
From Verif Require Import Base BPlus_Model BPlus_Spec BPlus_Proofs BPlus_Proofs2 BPlus_Proofs3 BPlus_Proofs4 BPlus_Proofs5 BPlus_Proofs6 BPlus_Proofs12.
From Verif Require Import PanicComp_Model PanicComp_Spec PanicComp_Proofs PanicCompBP_Model PanicCompBP_Spec PanicCompBP_Proofs PanicCompBP_Proofs2 PanicCompBP_Proofs3.

Section keeps.
  Context {K V : Type} (kzero : K) (vzero : V).
  Implicit Types (t : @tree K V).
  Definition keeps t0 (r : res tree) : Prop := forall t', r = Ok t' -> same_meta t0 t'.
  Lemma keeps_ok t0 t : same_meta t0 t -> keeps t0 (Ok t).
  Proof. by intros H t' [= <-]. Qed.
  Lemma keeps_bind {A} t0 (r : res A) f : (forall x, keeps t0 (f x)) -> keeps t0 (rbind r f).
  Proof. intros H t' E. destruct r as [a| |]; [|discriminate|discriminate]. by apply (H a). Qed.
  Lemma keeps_bindt t0 (r : res tree) f : keeps t0 r -> (forall t, same_meta t0 t -> keeps t0 (f t)) -> keeps t0 (rbind r f).
  Proof. intros H1 H2 t' E. destruct r as [a| |]; [|discriminate|discriminate]. by apply (H2 a (H1 a eq_refl)). Qed.
  Lemma sm_refl t : same_meta t t.
  Proof. done. Qed.
  Lemma sm_upd t0 t l f : same_meta t0 t -> same_meta t0 (upd l f t).
  Proof. done. Qed.
  Lemma sm_prev t0 t l p : same_meta t0 t -> same_meta t0 (set_prev l p t).
  Proof. done. Qed.
  Lemma sm_new t0 t : same_meta t0 t -> same_meta t0 (new_node kzero vzero t).1.
  Proof. done. Qed.
  Lemma sm_trans t0 t t1 : same_meta t0 t -> same_meta t t1 -> same_meta t0 t1.
  Proof. intros (A&B&C) (D&E&F). unfold same_meta. splits; congruence. Qed.
  Lemma keeps_val t0 t l i x : same_meta t0 t -> keeps t0 (set_val l i x t).
  Proof. intros H. unfold set_val. apply keeps_bind. intros v. apply keeps_ok. by apply sm_upd. Qed.
  Lemma keeps_kid t0 t l i x : same_meta t0 t -> keeps t0 (set_kid l i x t).
  Proof. intros H. unfold set_kid. apply keeps_bind. intros v. apply keeps_ok. by apply sm_upd. Qed.
  Ltac ks :=
    repeat first
      [ assumption | apply sm_upd | apply sm_prev | apply keeps_ok
      | apply keeps_val | apply keeps_kid
      | match goal with
        | |- keeps _ (rbind _ _) => first [ apply keeps_bindt; [|intros ? ?] | apply keeps_bind; intros ? ]
        | |- keeps _ (if ?b then _ else _) => destruct b
        | |- keeps _ (let _ := _ in _) => cbv zeta
        end ].
  Lemma keeps_split t0 t par c pos : same_meta t0 t -> keeps t0 (split_child kzero vzero par c pos t).
  Proof. intros H. apply (sm_new _ t) in H. unfold split_child. destruct (new_node _ _ _) as [t1 nc]. cbn [fst] in H. ks. Qed.
  Lemma keeps_merge t0 t rt y z pos : same_meta t0 t -> keeps t0 (merge_child rt y z pos t).
  Proof. intros H. unfold merge_child. ks. Qed.
  Lemma keeps_right t0 t rt y z pos : same_meta t0 t -> keeps t0 (shift_to_right_child rt y z pos t).
  Proof. intros H. unfold shift_to_right_child. ks. Qed.
  Lemma keeps_left t0 t rt y z pos : same_meta t0 t -> keeps t0 (shift_to_left_child rt y z pos t).
  Proof. intros H. unfold shift_to_left_child. ks. Qed.
End keeps.

Section ab.
  Context {K V : Type} (kzero : K) (vzero : V) (comp : K -> K -> Z) (compV : V -> V -> Z).
  Implicit Types (t : @tree K V).
  Lemma ab_weaken {A} (m : cm (@tree K V) A) (P Q : tree -> Prop) : abandoned m P -> (forall s, P s -> Q s) -> abandoned m Q.
  Proof. intros H HI n s E. by apply HI, (H n). Qed.
  Lemma ab_eq {A} (m : cm (@tree K V) A) t0 t : same_meta t0 t -> abandoned m (eq t) -> abandoned m (same_meta t0).
  Proof. intros H HA. apply (ab_weaken m (eq t)); [done|]. by intros ? <-. Qed.
  Lemma ab_meta_insert_non_full fuel p : forall nd t0 t, same_meta t0 t ->
    abandoned (insert_non_full_c kzero vzero comp fuel nd p t) (same_meta t0).
  Proof.
    induction fuel as [|fuel IH]; intros nd t0 t H; [apply ab_fuel|]. cbn [insert_non_full_c].
    destruct (leaf _).
    - apply ab_bind; [|intros n [pos v] n' _; apply ab_cl_bind; intros v' _; apply ab_ret].
      intros n s. unfold seen_as. destruct (leaf_shift_c _ _ _ _ _); [discriminate| |discriminate|discriminate]. intros [= <-]. by apply sm_upd.
    - apply ab_bind; [by apply (ab_eq _ _ t), ab_down_pos|]. intros n pos n' _.
      apply ab_cl_bind. intros c _. apply ab_cl_bind. intros c1 _.
      apply ab_bind; [destruct (decide _); [|apply ab_ret]|].
      + apply ab_cl_bind. intros t1 E. apply (keeps_split _ _ t0) in E; [|done]. apply ab_cl_bind. intros x _. apply ab_ask; [done|apply ab_ret].
      + intros m [t1 pos1] m' E1. apply ab_cl_bind. intros c2 _. apply ab_cl_bind. intros c3 _. apply IH.
        destruct (decide _); [|by injection E1 as <- _ _].
        apply bind_done in E1 as (t2 & m1 & E2 & E1). apply bind_done in E1 as (x & m2 & E3 & E1). apply bind_done in E1 as (z & m3 & E4 & E1).
        injection E1 as <- _ _. unfold cl in E2. destruct (split_child _ _ _ _ _ _) as [t3| |] eqn:E5; [|discriminate|discriminate]. injection E2 as <- _.
        by apply (keeps_split _ _ t0) in E5.
  Qed.
  Lemma ab_meta_insert r p t0 t : same_meta t0 t -> abandoned (insert_c kzero vzero comp r p t) (same_meta t0).
  Proof.
    intros H. unfold insert_c. destruct r as [r|]; [|apply ab_ret]. destruct (decide _).
    - apply (sm_new kzero vzero _ t) in H. destruct (new_node _ _ _) as [t1 nd]. cbn [fst] in H.
      apply ab_cl_bind. intros t2 E2. apply (keeps_kid t0) in E2; [|by apply sm_upd].
      apply ab_cl_bind. intros t3 E3. apply (keeps_split _ _ t0) in E3; [|done].
      apply ab_bind; [by apply ab_meta_insert_non_full|]. intros. apply ab_ret.
    - apply ab_bind; [by apply ab_meta_insert_non_full|]. intros. apply ab_ret.
  Qed.
  Lemma ab_meta_delete_non_one fuel k : forall rt t0 t, same_meta t0 t ->
    abandoned (delete_non_one_c comp fuel rt k t) (same_meta t0).
  Proof.
    induction fuel as [|fuel IH]; intros rt t0 t H; [apply ab_fuel|]. cbn [delete_non_one_c].
    apply ab_bind; [by apply (ab_eq _ _ t), ab_up_pos|]. intros n i n' _. destruct (leaf _).
    { apply ab_cl_bind. intros x _. apply ab_ask; [done|]. destruct (_ =? _)%Z; [apply ab_cl|apply ab_ret]. }
    do 4 (apply ab_cl_bind; intros ? _).
    destruct (decide _); [|by apply IH].
    apply ab_cl_bind; intros b _. destruct b.
    { apply ab_cl_bind; intros ? _. apply ab_cl_bind; intros t1 E. apply (keeps_right t0) in E; [|done]. by apply IH. }
    apply ab_cl_bind; intros b _. destruct b.
    { apply ab_cl_bind; intros ? _. apply ab_cl_bind; intros t1 E. apply (keeps_left t0) in E; [|done]. by apply IH. }
    destruct (decide _); (apply ab_cl_bind; intros ? _; apply ab_cl_bind; intros t1 E; apply (keeps_merge t0) in E; [|done]; by apply IH).
  Qed.
  Lemma ab_meta_delete r k t0 t : same_meta t0 t -> abandoned (delete_c comp r k t) (same_meta t0).
  Proof.
    intros H. unfold delete_c. apply ab_cl_bind; intros l _.
    assert (G : abandoned (let^ t1 := delete_non_one_c comp (S (brk t)) l k t in cret (t1, Some l)) (same_meta t0)).
    { apply ab_bind; [by apply ab_meta_delete_non_one|]. intros. apply ab_ret. }
    destruct (decide _); [|done]. do 2 (apply ab_cl_bind; intros ? _).
    repeat match goal with |- abandoned (match ?x with Some _ => _ | None => _ end) _ => destruct x; [|done] end.
    destruct (decide _); [|done]. apply ab_cl_bind; intros t1 E. apply (keeps_merge t0) in E; [|done].
    apply ab_bind; [by apply ab_meta_delete_non_one|]. intros. apply ab_ret.
  Qed.
  Lemma ab_meta_delete_key k t : abandoned (delete_key_c comp k t) (same_meta t).
  Proof.
    unfold delete_key_c. apply ab_bind; [by apply (ab_eq _ _ t), ab_contains_key|]. intros n b n' _. destruct b; [|apply ab_ret].
    apply ab_bind; [by apply ab_meta_delete|]. intros m [t1 r1] m' _. apply ab_ret.
  Qed.
  Lemma ab_meta_op o t : abandoned (do_op_c kzero vzero comp compV o t) (same_meta t).
  Proof.
    destruct o as [k v|k v|k|k v|k]; cbn [do_op_c]; unfold bpair_c.
    - apply ab_bind; [|intros ? [? ?] ? _; apply ab_ret]. unfold insert_equal_c.
      apply ab_bind; [by apply ab_meta_insert|]. intros ? [? ?] ? _; apply ab_ret.
    - apply ab_bind; [|intros ? [? ?] ? _; apply ab_ret]. unfold insert_unique_c.
      apply ab_bind; [by apply (ab_eq _ _ t), ab_contains_key|]. intros n b n' _. destruct b; [apply ab_ret|].
      apply ab_bind; [by apply ab_meta_insert|]. intros ? [? ?] ? _; apply ab_ret.
    - apply ab_bind; [|intros ? [? ?] ? _; apply ab_ret]. apply ab_meta_delete_key.
    - apply ab_bind; [|intros ? [? ?] ? _; apply ab_ret]. unfold delete_by_whole_mapping_c.
      apply ab_bind; [by apply (ab_eq _ _ t), ab_found_entry|]. intros n e n' _. destruct e as [e|]; [|apply ab_ret].
      apply ab_ask; [done|]. destruct (_ <? _)%Z; [apply ab_meta_delete_key|apply ab_ret].
    - apply ab_bind; [|intros ? [? ?] ? _; apply ab_ret]. by apply (ab_eq _ _ t), ab_get_verify.
  Qed.

  (** ** histories of insertions and lookups *)
  Lemma doubled_in (es es' : list (K * V)) x : doubled es es' -> x ∈ es' -> x ∈ es.
  Proof.
    intros [->|(a & y & b & z & c & -> & ->)]; [done|]. repeat rewrite ?elem_of_app, ?elem_of_cons. tauto.
  Qed.
  Lemma insert_c_done t d w p n t1 r n' :
    2 <= degree t -> tree_stands t d w -> insert_c kzero vzero comp (root t) p t n = Done (t1, r) n' ->
    exists d' w', tree_stands (set_root r t1) d' w' /\ grows comp (degree t) p w w' /\ degree t1 = degree t
      /\ size t1 = (size t + 1)%Z.
  Proof.
    intros HM T E. apply (rec_done _ _ _ _ _ (rec_insert kzero vzero comp (root t) p t)) in E.
    destruct (insert_stands kzero vzero comp t d w p HM T) as (t' & r' & d' & w' & E' & A1 & A2 & A3 & A4).
    rewrite E in E'. injection E' as -> ->. exists d', w'. done.
  Qed.
  Lemma insert_c_runs t d w p n : 2 <= degree t -> tree_stands t d w ->
    (exists a n', insert_c kzero vzero comp (root t) p t n = Done a n') \/ (exists t', insert_c kzero vzero comp (root t) p t n = Crash t').
  Proof.
    intros HM T. destruct (insert_stands kzero vzero comp t d w p HM T) as (t' & r' & d' & w' & E' & _).
    destruct (rec_insert kzero vzero comp (root t) p t) as (k & H1 & H2). destruct (decide (n < k)) as [L|L]; [right; by apply H1|left].
    specialize (H2 (n - k)). replace (k + (n - k)) with n in H2 by lia. rewrite H2, E'. cbn [cl]. eauto.
  Qed.
  (** one call: it returns, or it is abandoned *)
  Definition call_ok (es : list (K * V)) t (o : @op K V) (w : list item) (c : cr (@tree K V) (@tree K V * @reply V)) : Prop :=
    match c with
    | Done (t', r) _ => exists d' w', tree_stands t' d' w' /\ degree t' = degree t
        /\ (cmp_ok comp -> in_order comp w -> in_order comp w')
        /\ size t' = (size t + Z.of_nat (length (stored [o] [r])))%Z
        /\ forall e, e ∈ entries w' -> e ∈ entries w \/ e ∈ stored [o] [r]
    | Crash t' => exists d' w', tree_stands t' d' w' /\ degree t' = degree t
        /\ (cmp_ok comp -> in_order comp w -> in_order comp w')
        /\ size t' = size t /\ forall e, e ∈ entries w' -> e ∈ entries w
    | _ => False
    end.
  Lemma rec_cases {A} (m : cm (@tree K V) A) a n : recovers m (Ok a) -> (exists n', m n = Done a n') \/ (exists s, m n = Crash s).
  Proof.
    intros (k & H1 & H2). destruct (decide (n < k)) as [L|L]; [right; by apply H1|left].
    specialize (H2 (n - k)). replace (k + (n - k)) with n in H2 by lia. rewrite H2. cbn [cl]. eauto.
  Qed.
  Lemma ins_call es t d w p n : 2 <= degree t -> tree_stands t d w ->
    forall o, (forall r, r = RBool true -> stored [o] [r] = [p]) ->
    call_ok es t o w ((let^ (t, b) := (let^ (t, r) := insert_c kzero vzero comp (root t) p t in cret (set_root r t, true)) in cret (t, RBool b)) n).
  Proof.
    intros HM T o Ho. destruct (insert_c_runs t d w p n HM T) as [([t1 r1] & n' & E)|(t' & E)].
    - unfold cbnd. rewrite E. cbn [cret call_ok]. destruct (insert_c_done t d w p n t1 r1 n' HM T E) as (d' & w' & A1 & A2 & A3 & A4).
      exists d', w'. rewrite Ho by done. destruct A2 as (A2 & _ & A2' & _). splits; try done. intros e. rewrite A2, elem_of_cons. intros [->|H]; [right; by left|by left].
    - unfold cbnd. rewrite E. cbn [call_ok]. destruct (insert_c_cut kzero vzero comp t d w p n t' HM T E) as (w' & es' & lost & (A1 & A2 & A3 & A4 & A5 & A6) & A7 & _ & _).
      exists d, w'. splits; try done. intros e He. rewrite A7. apply elem_of_app. left. by apply (doubled_in _ _ _ A2).
  Qed.
  Lemma op_call es t d w o n : 2 <= degree t -> tree_stands t d w -> no_delete o -> call_ok es t o w (do_op_c kzero vzero comp compV o t n).
  Proof.
    intros HM T HN. destruct o as [k v|k v|k|k v|k]; [..| |]; try done; cbn [do_op_c].
    - unfold bpair_c, insert_equal_c. eapply ins_call; [done|done|]. by intros ? ->.
    - destruct (found_entry_stands comp k t d w T) as (o & _ & E & _).
      pose proof (rec_contains_key comp k t) as RC. rewrite E in RC. apply (rec_cases _ _ n) in RC as [(n' & RC)|(s & RC)]; cycle 1.
      { unfold bpair_c, insert_unique_c, cbnd. rewrite RC. destruct (ab_contains_key comp k t n s RC). exists d, w. splits; done. }
      destruct (bool_decide (is_Some o)) eqn:B.
      + unfold bpair_c, insert_unique_c, cbnd. rewrite RC. cbn [cret]. exists d, w. cbn [stored length]. splits; try done; [lia|by left].
      + pose proof (ins_call es t d w (k, v) n' HM T (InsertUnique k v)) as G. unfold bpair_c, insert_unique_c. unfold cbnd at 1 2. rewrite RC.
        unfold cbnd at 1 in G. apply G. by intros ? ->.
    - destruct (found_entry_stands comp k t d w T) as (o & E & _ & _).
      assert (RC : recovers (get_verify_c vzero comp k t) (Ok (match o with Some e => (e.2, true) | None => (vzero, false) end))).
      { pose proof (rec_found_entry comp k t) as RC. rewrite E in RC. unfold get_verify_c.
        apply (rec_bind _ (Ok o) _ (fun e => Ok (match e with Some e => (e.2, true) | None => (vzero, false) end))); [done|]. intros a [= <-]. apply rec_ret. }
      apply (rec_cases _ _ n) in RC as [(n' & RC)|(s & RC)].
      + unfold cbnd. rewrite RC. destruct (match o with Some _ => _ | None => _ end). cbn [cret]. exists d, w. cbn [stored length]. splits; try done; [lia|by left].
      + unfold cbnd. rewrite RC. destruct (ab_get_verify vzero comp k t n s RC). exists d, w. splits; done.
  Qed.
  Lemma run_c_ok os : forall t d w, 2 <= degree t -> tree_stands t d w -> Forall (fun o => no_delete o.1) os ->
    exists t' rs d' w', bp_run_c kzero vzero comp compV os t = Ok (t', rs) /\ length rs = length os
      /\ tree_stands t' d' w' /\ degree t' = degree t
      /\ (cmp_ok comp -> in_order comp w -> in_order comp w')
      /\ size t' = (size t + Z.of_nat (length (stored_c os rs)))%Z
      /\ forall e, e ∈ entries w' -> e ∈ entries w \/ e ∈ stored_c os rs.
  Proof.
    induction os as [|[o n] os IH]; intros t d w HM T F.
    { exists t, [], d, w. cbn. splits; try done; [lia|by left]. }
    apply Forall_cons in F as [F1 F2]. cbn [fst] in F1. pose proof (op_call [] t d w o n HM T F1) as C. cbn [bp_run_c].
    destruct (do_op_c kzero vzero comp compV o t n) as [[t1 r1] n1|t1| |]; [| |done|done]; cbn [call_ok] in C; destruct C as (d1 & w1 & A1 & A2 & A3 & A4 & A5).
    - destruct (IH t1 d1 w1) as (t' & rs & d' & w' & B1 & B2 & B3 & B4 & B5 & B6 & B7); [lia|done|done|].
      cbn [fst snd]. rewrite B1. cbn [rbind]. exists t', (Some r1 :: rs), d', w'. splits; try done.
      + cbn. lia.
      + congruence.
      + auto.
      + rewrite B6, A4. destruct o, r1 as [[]|]; cbn [stored_c stored length]; lia.
      + intros e He. destruct (B7 e He) as [H|H]; [destruct (A5 e H) as [H'|H']; [by left|right]|right];
          destruct o, r1 as [[]|]; cbn [stored_c stored] in *; try done; try by apply elem_of_nil in H'.
        all: apply elem_of_cons; auto.
        all: apply elem_of_list_singleton in H'; by left.
    - destruct (IH t1 d1 w1) as (t' & rs & d' & w' & B1 & B2 & B3 & B4 & B5 & B6 & B7); [lia|done|done|].
      rewrite B1. cbn [rbind]. exists t', (None :: rs), d', w'. splits; try done.
      + cbn. lia.
      + congruence.
      + auto.
      + rewrite B6, A4. destruct o; cbn [stored_c]; lia.
      + intros e He. destruct (B7 e He) as [H|H]; [left; auto|right]. destruct o; done.
  Qed.
End ab.
