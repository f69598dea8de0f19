(** Proofs for C74: the skip list. *)
From Verif Require Import Base Iter_Model Iter_Spec SkipList_Model SkipList_Spec SkipList_Proofs SkipList_Proofs2 SkipList_Proofs3 SkipList_Proofs4.
From Verif Require Import PanicComp_Model PanicCompSL_Model PanicComp_Spec PanicCompSL_Spec PanicComp_Proofs.

Section sl.
  Context {K V : Type} (kzero : K) (vzero : V) (comp : K -> K -> Z).
  Implicit Types s : slist K V.

  Lemma rec_eq {St A} (m : cm St A) (r r' : res A) : r = r' -> recovers m r -> recovers m r'.
  Proof. by intros ->. Qed.
  Lemma rec_walk fuel s ans b i : forall x r,
    recovers (walk_c comp fuel s ans b i x r) (walk fuel (hp s) (fun k' => ans (comp k' b)) i x r).
  Proof.
    induction fuel as [|fuel IH]; intros x r; [apply rec_fuel|]. cbn [walk_c walk].
    apply rec_cl_bind. intros [y|] _; [|apply rec_ret]. apply rec_ask. destruct (ans _); [|apply rec_ret].
    apply rec_cl_bind. intros d _. apply IH.
  Qed.
  Lemma rec_descend fuel s ans b n : forall x r a,
    recovers (descend_c comp fuel s ans b n x r a) (descend fuel (hp s) (fun k' => ans (comp k' b)) n x r a).
  Proof.
    induction n as [|n IH]; intros x r a; [apply rec_ret|]. cbn [descend_c descend].
    apply rec_bind; [apply rec_walk|]. intros [x' r'] _. apply IH.
  Qed.
  Lemma rec_search_from fuel s k n : forall x r,
    recovers (search_from_c comp fuel s k n x r) (search_from comp fuel (hp s) k n x r).
  Proof.
    induction n as [|n IH]; intros x r; [apply rec_ret|]. cbn [search_from_c search_from].
    apply rec_bind; [apply (rec_walk fuel s (fun c => bool_decide (c <> 1%Z)))|]. intros [x' r'] _. apply rec_ask.
    destruct (decide _); [apply rec_ret|apply IH].
  Qed.
  Lemma rec_sl_search fuel s k : recovers (sl_search_c comp fuel s k) (search comp fuel s k).
  Proof. apply rec_search_from. Qed.
  Lemma rec_sl_has fuel s k : recovers (sl_has_c comp fuel s k) (has comp fuel s k).
  Proof. apply rec_bind; [apply rec_sl_search|]. intros [n r] _. apply rec_ret. Qed.
  Lemma rec_sl_get fuel s k : recovers (sl_get_c vzero comp fuel s k) (get vzero comp fuel s k).
  Proof. apply rec_bind; [apply rec_sl_search|]. intros [n r] _. apply rec_ret. Qed.
  Lemma rec_sl_rank fuel s k : recovers (sl_rank_c comp fuel s k) (rank comp fuel s k).
  Proof. apply rec_bind; [apply rec_sl_search|]. intros [n r] _. apply rec_ret. Qed.
  Lemma rec_sl_insert fuel s k v unique draw :
    recovers (sl_insert_c comp fuel s k v unique draw) (insert comp fuel s k v unique draw).
  Proof.
    unfold sl_insert_c, insert. apply rec_bind; [apply (rec_descend fuel s (fun c => bool_decide (c = 0%Z)))|].
    intros [x a] _. apply rec_cl_bind. intros u0 _. apply rec_cl_bind. intros f0 _.
    destruct unique; cbn [andb].
    - destruct f0 as [y|].
      + apply rec_eq with (rbind (Ok (bool_decide (comp (key (hp s y)) k = 0%Z))) (fun dup : bool =>
          if dup then Ok (false, s) else sl_insert_rest s k v draw a)); [done|].
        apply rec_bind; [apply rec_ask, rec_ret|]. intros [|] _; [apply rec_ret|apply rec_cl].
      + apply rec_ret_bind. apply rec_cl.
    - apply rec_ret_bind. apply rec_cl.
  Qed.
  Lemma rec_sl_delete fuel s k : recovers (sl_delete_c comp fuel s k) (delete comp fuel s k).
  Proof.
    unfold sl_delete_c, delete. apply rec_bind; [apply (rec_descend fuel s (fun c => bool_decide (c = 0%Z)))|].
    intros [x a] _. apply rec_cl_bind. intros [y|] _; [|apply rec_ret]. apply rec_ask.
    destruct (decide _); [|apply rec_ret]. apply rec_cl_bind. intros s' _. apply rec_ret.
  Qed.
  Lemma rec_sl_delete_keys fuel ks : forall s, recovers (sl_delete_keys_c comp fuel s ks) (delete_keys comp fuel s ks).
  Proof.
    induction ks as [|k ks IH]; intros s; [apply rec_ret|]. cbn [sl_delete_keys_c delete_keys].
    apply rec_bind; [apply rec_sl_delete|]. intros [b s1] _. apply rec_bind; [apply IH|]. intros [c s2] _. apply rec_ret.
  Qed.
  Lemma rec_sl_range_loop fuel max a : forall s x c,
    recovers (sl_delete_range_loop_c comp fuel s max a x c) (delete_range_loop comp fuel s max a x c).
  Proof.
    induction fuel as [|fuel IH]; intros s x c; [apply rec_fuel|]. cbn [sl_delete_range_loop_c delete_range_loop].
    destruct x as [y|]; [|apply rec_ret]. apply rec_ask. destruct (decide _); [|apply rec_ret].
    apply rec_cl_bind. intros nxt _. apply rec_cl_bind. intros s' _. apply IH.
  Qed.
  Lemma rec_sl_step fuel s o : recovers (sl_step_c vzero comp kzero fuel s o) (step kzero vzero comp fuel s o).
  Proof.
    destruct o as [k v u|k v u|k|ks|k v vc|mi ma| |i v]; cbn [sl_step_c step]; try apply rec_cl.
    - apply rec_bind; [apply rec_sl_insert|]. intros [b s'] _. apply rec_ret.
    - apply rec_bind; [apply rec_sl_insert|]. intros [b s'] _. apply rec_ret.
    - apply rec_bind; [apply rec_sl_delete|]. intros [b s'] _. apply rec_ret.
    - apply rec_bind; [apply rec_sl_delete_keys|]. intros [b s'] _. apply rec_ret.
    - apply rec_bind.
      { unfold sl_delete_whole_c, delete_whole. apply rec_bind; [apply rec_sl_search|]. intros [[x|] r] _; [|apply rec_ret].
        apply rec_ask. destruct (decide _); [|apply rec_ret]. apply rec_bind; [apply rec_sl_delete|]. intros [b s'] _. apply rec_ret. }
      intros [b s'] _. apply rec_ret.
    - apply rec_bind.
      { unfold sl_delete_range_c, delete_range. apply rec_bind; [apply (rec_descend fuel s (fun c => bool_decide (c = (-1)%Z)))|].
        intros [x a] _. apply rec_cl_bind. intros y _. apply rec_sl_range_loop. }
      intros [z s'] _. apply rec_ret.
  Qed.

  (** ** abandoned calls *)
  Lemma ab_walk fuel s ans b i : forall x r, abandoned (walk_c comp fuel s ans b i x r) (eq s).
  Proof.
    induction fuel as [|fuel IH]; intros x r; [apply ab_fuel|]. cbn [walk_c].
    apply ab_cl_bind. intros [y|] _; [|apply ab_ret]. apply ab_ask; [done|]. destruct (ans _); [|apply ab_ret].
    apply ab_cl_bind. intros d _. apply IH.
  Qed.
  Lemma ab_descend fuel s ans b n : forall x r a, abandoned (descend_c comp fuel s ans b n x r a) (eq s).
  Proof.
    induction n as [|n IH]; intros x r a; [apply ab_ret|]. cbn [descend_c].
    apply ab_bind; [apply ab_walk|]. intros _ [x' r'] _ _. apply IH.
  Qed.
  Lemma ab_search_from fuel s k n : forall x r, abandoned (search_from_c comp fuel s k n x r) (eq s).
  Proof.
    induction n as [|n IH]; intros x r; [apply ab_ret|]. cbn [search_from_c].
    apply ab_bind; [apply ab_walk|]. intros _ [x' r'] _ _. apply ab_ask; [done|].
    destruct (decide _); [apply ab_ret|apply IH].
  Qed.
  Lemma ab_sl_search fuel s k : abandoned (sl_search_c comp fuel s k) (eq s).
  Proof. apply ab_search_from. Qed.
  Lemma ab_sl_insert fuel s k v unique draw : abandoned (sl_insert_c comp fuel s k v unique draw) (eq s).
  Proof.
    unfold sl_insert_c. apply ab_bind; [apply ab_descend|]. intros _ [x a] _ _.
    apply ab_cl_bind. intros u0 _. apply ab_cl_bind. intros f0 _. apply ab_bind.
    - destruct unique; [|apply ab_ret]. destruct f0; [|apply ab_ret]. apply ab_ask; [done|apply ab_ret].
    - intros _ [|] _ _; [apply ab_ret|apply ab_cl].
  Qed.
  Lemma ab_sl_delete fuel s k : abandoned (sl_delete_c comp fuel s k) (eq s).
  Proof.
    unfold sl_delete_c. apply ab_bind; [apply ab_descend|]. intros _ [x a] _ _.
    apply ab_cl_bind. intros [y|] _; [|apply ab_ret]. apply ab_ask; [done|].
    destruct (decide _); [|apply ab_ret]. apply ab_cl_bind. intros s' _. apply ab_ret.
  Qed.
  (** a call that returns has done what the model says *)
  Lemma done_model {St A} (m : cm St A) r n a n' : recovers m r -> m n = Done a n' -> r = Ok a.
  Proof.
    intros (k & H1 & H2) H.
    destruct (decide (n < k)) as [Hn|Hn]; [destruct (H1 n Hn) as [s E]; congruence|].
    specialize (H2 (n - k)). replace (k + (n - k)) with n in H2 by lia. rewrite H in H2.
    destruct r; cbn [cl] in H2; congruence.
  Qed.
  Lemma ab_sl_delete_keys fuel ks : forall s, abandoned (sl_delete_keys_c comp fuel s ks)
    (fun s' => exists j z, j < length ks /\ delete_keys comp fuel s (take j ks) = Ok (z, s')).
  Proof.
    induction ks as [|k ks IH]; intros s; [apply ab_ret|]. cbn [sl_delete_keys_c].
    intros n s' H. apply bind_crash in H as [H|([m t1] & n1 & H & H')].
    - apply ab_sl_delete in H as <-. exists 0, 0%Z. split; [simpl; lia|done].
    - apply bind_crash in H' as [H'|([m' t2] & n2 & _ & H')]; [|discriminate].
      apply IH in H' as (j & z & Hj & E). apply (done_model _ _ _ _ _ (rec_sl_delete fuel s k)) in H.
      exists (S j), (if m : bool then z + 1 else z)%Z. split; [simpl; lia|].
      cbn [take delete_keys]. rewrite H. cbn [rbind]. by rewrite E.
  Qed.

  Lemma ab_range_loop fuel max : forall s A B a c n s', repr s (A ++ B) -> (forall i, i < level s -> arr_at (hp s) a (hdr s :: A) i) ->
    sl_delete_range_loop_c comp fuel s max a (head B) c n = Crash s' ->
    exists M R, B = M ++ R /\ repr s' (A ++ R) /\ hdr s' = hdr s /\
      (forall l, key (hp s' l) = key (hp s l) /\ val (hp s' l) = val (hp s l)) /\
      Forall (fun l => comp (key (hp s l)) max = (-1)%Z) M.
  Proof.
    induction fuel as [|f IH]; intros s A B a c n s' HR HArr; [discriminate|].
    cbn [sl_delete_range_loop_c]. destruct B as [|x B]; cbn [head]; [discriminate|].
    unfold cbnd at 1, ask. destruct n as [|n].
    { intros [= <-]. exists [], (x :: B). splits; done. }
    destruct (decide (comp (key (hp s x)) max = (-1)%Z)) as [Hx|Hx]; [|discriminate].
    assert (Hnx : rd_fwd (hp s) x 0 = Ok (head B)).
    { destruct (fwd0_of s (A ++ x :: B) HR (A ++ [x]) B x (hdr s :: A)) as [E _]; [by rewrite <- app_assoc|done|done]. }
    unfold cbnd at 1. rewrite Hnx. cbn [cl].
    destruct (delete_node_ok s A x B a HR HArr) as (s1 & Ed & HR1 & Hd1 & _ & Hl1 & HK1).
    unfold cbnd at 1. rewrite Ed. cbn [cl]. intros HC.
    destruct (IH s1 A B a (c + 1)%Z n s' HR1) as (M & R & -> & HR2 & Hd2 & HK2 & HM); [|done|].
    { intros i Hi. destruct (HArr i ltac:(lia)) as (C & u & D & E1 & E2 & E3 & E4 & E5). exists C, u, D.
      rewrite Hd1. splits; try done; [destruct (HK1 u) as (_ & _ & ->); done|].
      eapply low_ext; [|exact E5]. intros l _. by destruct (HK1 l) as (_ & _ & ->). }
    exists (x :: M), R. splits; try done.
    - by rewrite Hd2.
    - intros l. destruct (HK2 l) as (-> & ->). destruct (HK1 l) as (-> & -> & _). done.
    - constructor; [done|]. eapply Forall_impl; [exact HM|]. cbn. intros l. by destruct (HK1 l) as (-> & _ & _).
  Qed.
  Lemma ab_range fuel s ns min max n s' : repr s ns -> length ns < fuel ->
    sl_delete_range_c comp fuel s min max n = Crash s' ->
    s' = s \/ exists A M R, ns = A ++ M ++ R /\ repr s' (A ++ R) /\ hdr s' = hdr s /\
      (forall l, key (hp s' l) = key (hp s l) /\ val (hp s' l) = val (hp s l)) /\
      Forall (fun l => comp (key (hp s l)) max = (-1)%Z) M /\
      match last A with Some z => comp (key (hp s z)) min = (-1)%Z | None => True end /\
      match head (M ++ R) with Some z => comp (key (hp s z)) min <> (-1)%Z | None => True end.
  Proof.
    intros HR Hf H. destruct (descend_full s ns HR (fun k' => bool_decide (comp k' min = (-1)%Z)) fuel Hf)
      as (A & B & x0 & a & E & ED & EN & EE & HA & HB & HArr & _).
    unfold sl_delete_range_c in H. apply bind_crash in H as [H|([x a'] & n1 & H & H')].
    { left. symmetry. exact (ab_descend _ _ _ _ _ _ _ _ _ _ H). }
    right. apply (done_model _ _ _ _ _ (rec_descend fuel s (fun c => bool_decide (c = (-1)%Z)) min (level s) (hdr s) 0 no_arrays)) in H.
    rewrite ED in H. injection H as <- <-.
    destruct (fwd0_of s ns HR A B x0 E EN EE) as [Ef _]. unfold cbnd in H'. rewrite Ef in H'. cbn [cl] in H'. subst ns.
    apply (ab_range_loop _ _ s A B) in H' as (M & R & -> & HR' & Hh & HK & HM); [|done|done].
    exists A, M, R. splits; try done.
    - destruct HA as [->|HA]; [done|]. apply last_cons_snoc in EE. destruct (last A) as [z|] eqn:El; [|done]. cbn in EE. subst z.
      by apply bool_decide_eq_true in HA.
    - destruct (M ++ R) as [|z L]; [done|]. cbn. by apply bool_decide_eq_false in HB.
  Qed.
End sl.
