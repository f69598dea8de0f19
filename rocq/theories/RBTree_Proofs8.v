(** More fuel never changes an outcome. *)
From Verif Require Import Base RBTree_Model RBTree_Spec.

Definition stable {A} (F : nat -> res A) : Prop := forall n m, n <= m -> F n <> Fuel -> F m = F n.
Lemma stable_const {A} (r : res A) : stable (fun _ => r).
Proof. done. Qed.
Lemma stable_bind {A B} (F : nat -> res A) (G : A -> nat -> res B) :
  stable F -> (forall a, stable (G a)) -> stable (fun n => rbind (F n) (fun a => G a n)).
Proof.
  intros HF HG n m Hle Hne. destruct (F n) as [a| |] eqn:E; simpl in Hne; [| |done].
  - rewrite (HF n m Hle), E by (by rewrite E). simpl. by apply HG.
  - rewrite (HF n m Hle), E by (by rewrite E). done.
Qed.
Lemma stable_ok {A} (F : nat -> res A) n m a b : stable F -> F n = Ok a -> F m = Ok b -> a = b.
Proof.
  intros H E1 E2. destruct (Nat.le_gt_cases n m) as [L|L].
  - rewrite (H n m L), E1 in E2 by (by rewrite E1). by injection E2.
  - rewrite (H m n), E2 in E1 by (lia || by rewrite E2). by injection E1.
Qed.

Ltac stab_step :=
  match goal with
  | |- context [rbind ?x _] => lazymatch x with context [rbind _ _] => fail | context [match _ with _ => _ end] => fail | _ => destruct x eqn:?; cbn [rbind] end
  | |- context [match ?x with _ => _ end] => lazymatch x with context [match _ with _ => _ end] => fail | context[rbind _ _] => fail | _ => destruct x eqn:?; cbn [rbind] end
  end.
Ltac stab_fix IH := intros; repeat first [done | by (apply IH; [lia|]) | by apply IH; [lia|] | stab_step].

Section stable.
  Context {K V : Type} (vzero : V) (comp : K -> K -> Z).
  Notation heap := (heap K V).
  Implicit Types (h : heap) (t : tree K V).

  Lemma min_child_st h l : stable (fun n => min_child n h l).
  Proof. intros n. revert l. induction n as [|n IH]; intros l m Hle; [done|]. destruct m as [|m]; [lia|]. simpl. destruct (left (h l)); [apply IH; lia|done]. Qed.
  Lemma max_child_st h l : stable (fun n => max_child n h l).
  Proof. intros n. revert l. induction n as [|n IH]; intros l m Hle; [done|]. destruct m as [|m]; [lia|]. simpl. destruct (right (h l)); [apply IH; lia|done]. Qed.
  Lemma up_next_st h l y : stable (fun n => up_next n h l y).
  Proof. intros n. revert l y. induction n as [|n IH]; intros l y m Hle; [done|]. destruct m as [|m]; [lia|]. simpl. destruct y; [|done]. case_decide; [apply IH; lia|done]. Qed.
  Lemma up_prev_st h l y : stable (fun n => up_prev n h l y).
  Proof. intros n. revert l y. induction n as [|n IH]; intros l y m Hle; [done|]. destruct m as [|m]; [lia|]. simpl. destruct y; [|done]. case_decide; [apply IH; lia|done]. Qed.
  Lemma next_st h l : stable (fun n => next n h l).
  Proof. unfold next. destruct (right (h l)) as [n0|]; [|apply up_next_st]. apply (stable_bind (fun n => min_child n h n0) (fun m _ => Ok (Some m))); [apply min_child_st|done]. Qed.
  Lemma prev_st h l : stable (fun n => prev n h l).
  Proof. unfold prev. destruct (left (h l)) as [n0|]; [|apply up_prev_st]. apply (stable_bind (fun n => max_child n h n0) (fun m _ => Ok (Some m))); [apply max_child_st|done]. Qed.
  Lemma search_st h k p : stable (fun n => search comp n h k p).
  Proof. intros n. revert p. induction n as [|n IH]; intros p m Hle; [done|]. destruct m as [|m]; [lia|]. simpl. destruct p; [|done]. do 2 (case_decide; [apply IH; lia|]). done. Qed.
  Lemma descend_st h k par p : stable (fun n => descend comp n h k par p).
  Proof. intros n. revert par p. induction n as [|n IH]; intros par p m Hle; [done|]. destruct m as [|m]; [lia|]. simpl. destruct p; [|done]. do 2 (case_decide; [apply IH; lia|]). done. Qed.

  Lemma bind_ne {A B} (x : res A) (f g : A -> res B) :
    (forall a, x = Ok a -> f a <> Fuel -> g a = f a) -> rbind x f <> Fuel -> rbind x g = rbind x f.
  Proof. destruct x; simpl; auto. Qed.
  Lemma put_rebalanced_st h nd : stable (fun n => put_rebalanced n h nd).
  Proof.
    intros n. revert h nd. induction n as [|n IH]; intros h nd m Hle; [done|]. destruct m as [|m]; [lia|].
    assert (IH' : forall h nd, put_rebalanced n h nd <> Fuel -> put_rebalanced m h nd = put_rebalanced n h nd) by (intros; apply IH; [lia|done]).
    clear IH. cbn [put_rebalanced].
    repeat first [(apply bind_ne; intros ? _) | apply IH' | (intros _; reflexivity) | progress case_decide
                 | match goal with |- context [if is_red ?h ?u then _ else _] => destruct (is_red h u) end].
  Qed.
  Lemma del_left_st F G h par bro : (forall h a b, F h a b <> Fuel -> G h a b = F h a b) ->
    del_left F h par bro <> Fuel -> del_left (K := K) (V := V) G h par bro = del_left F h par bro.
  Proof.
    intros H. unfold del_left.
    repeat first [(apply bind_ne; intros ? _) | apply H | (intros _; reflexivity) | progress case_decide
                 | match goal with |- context [if ?u && ?v then _ else _] => destruct (u && v) end
                 | match goal with a : _ * _ |- _ => destruct a end].
  Qed.
  Lemma del_right_st F G h par bro : (forall h a b, F h a b <> Fuel -> G h a b = F h a b) ->
    del_right F h par bro <> Fuel -> del_right (K := K) (V := V) G h par bro = del_right F h par bro.
  Proof.
    intros H. unfold del_right.
    repeat first [(apply bind_ne; intros ? _) | apply H | (intros _; reflexivity) | progress case_decide
                 | match goal with |- context [if ?u && ?v then _ else _] => destruct (u && v) end
                 | match goal with a : _ * _ |- _ => destruct a end].
  Qed.
  Lemma delete_rebalanced_st h nd par : stable (fun n => delete_rebalanced n h nd par).
  Proof.
    intros n. revert h nd par. induction n as [|n IH]; intros h nd par m Hle; [done|]. destruct m as [|m]; [lia|].
    assert (IH' : forall h nd par, delete_rebalanced n h nd par <> Fuel -> delete_rebalanced m h nd par = delete_rebalanced n h nd par) by (intros; apply IH; [lia|done]).
    clear IH. cbn [delete_rebalanced].
    repeat first [match goal with |- del_left _ _ _ _ <> _ -> _ => apply del_left_st; exact IH' | |- del_right _ _ _ _ <> _ -> _ => apply del_right_st; exact IH' end | (apply bind_ne; intros ? _) | (intros _; reflexivity) | progress case_decide
                 | match goal with |- context [if ?u || ?v then _ else _] => destruct (u || v) end].
  Qed.

  Ltac stb := repeat first
    [ apply stable_const | apply min_child_st | apply next_st | apply prev_st | apply search_st | apply descend_st
    | apply put_rebalanced_st | apply delete_rebalanced_st | apply stable_bind; [|intros ?] | progress case_decide
    | match goal with a : _ * _ |- _ => destruct a end ].
  Lemma remove_st h l : stable (fun n => remove comp n h l).
  Proof.
    unfold remove. apply stable_bind.
    - stb.
    - intros h1. apply stable_bind.
      + destruct (left (h1 l)), (right (h1 l)); stb.
      + intros rm. stb.
  Qed.
  Lemma link_st h par n : stable (fun f => link f h par n).
  Proof. unfold link. stb. Qed.
  Lemma put_st t k v : stable (fun f => put comp f t k v).
  Proof. unfold put. stb. destruct a; stb; apply link_st. Qed.
  Lemma put_node_st t n : stable (fun f => put_node comp f t n).
  Proof. unfold put_node. stb. destruct a; stb; apply link_st. Qed.
  Lemma remove_node_st t l : stable (fun f => remove_node comp f t l).
  Proof. unfold remove_node. apply stable_bind; [apply remove_st|]. intros []; stb. Qed.
  Lemma delete_st t k : stable (fun f => delete comp f t k).
  Proof. unfold delete, find. apply stable_bind; [stb|]. intros [l|]; [|stb]. apply stable_bind; [apply remove_node_st|]. intros []; stb. Qed.
  Lemma delete_keys_st t ks : stable (fun f => delete_keys comp f t ks).
  Proof.
    revert t. induction ks as [|k ks IH]; intros t; cbn [delete_keys]; [apply stable_const|].
    apply stable_bind; [apply delete_st|]. intros [n t']. apply stable_bind; [apply IH|]. intros []; stb.
  Qed.
  Lemma delete_whole_st t k v vc : stable (fun f => delete_whole comp f t k v vc).
  Proof. unfold delete_whole, find. apply stable_bind; [stb|]. intros [l|]; [|stb]. case_decide; [|stb]. apply stable_bind; [apply remove_node_st|]. intros []; stb. Qed.
  Lemma step_st t o : stable (fun f => step vzero comp f t o).
  Proof.
    destruct o; cbn [step]; try apply stable_const; unfold get, has, find; (apply stable_bind; [|try (intros []; apply stable_const); intros ?; apply stable_const]).
    - apply put_st.
    - apply put_node_st.
    - apply search_st || stb.
    - apply search_st || stb.
    - apply delete_st.
    - apply delete_keys_st.
    - apply delete_whole_st.
  Qed.
End stable.
