(** Proofs for C75: the panicking twins of the B+ tree functions are the model
    when there are answers enough, and Size after an abandoned call. *)
From Verif Require Import Base BPlus_Model BPlus_Spec PanicComp_Model PanicComp_Spec PanicComp_Proofs PanicCompBP_Model.

Section bp.
  Context {K V : Type} (kzero : K) (vzero : V) (comp : K -> K -> Z) (compV : V -> V -> Z).
  Implicit Types (t : @tree K V).

  Lemma rec_bsearch t fuel k v : forall l hi mid, recovers (bsearch_c comp t fuel k v l hi mid) (bsearch comp fuel k v l hi mid).
  Proof.
    induction fuel as [|fuel IH]; intros l hi mid; [apply rec_fuel|]. cbn [bsearch_c bsearch].
    destruct (decide _); [|apply rec_ret]. apply rec_cl_bind. intros p _. apply rec_ask.
    destruct (_ <? _)%Z; [apply IH|]. destruct (_ <? _)%Z; [apply IH|apply rec_ret].
  Qed.
  Lemma rec_search_loop t fuel k : forall nd, recovers (search_loop_c comp t fuel nd k) (search_loop comp fuel nd k (hp t)).
  Proof.
    induction fuel as [|fuel IH]; intros nd; [apply rec_fuel|]. cbn [search_loop_c search_loop].
    apply rec_cl_bind. intros x _. apply rec_bind; [apply rec_bsearch|]. intros [[l mid] ex] _.
    destruct (leaf _); [destruct ex; apply rec_ret|]. apply rec_cl_bind. intros c _. apply IH.
  Qed.
  Lemma rec_search k t : recovers (search_c comp k t) (search comp k t).
  Proof. unfold search_c, search. destruct (_ =? _)%Z; [apply rec_ret|apply rec_search_loop]. Qed.
  Lemma rec_contains_key k t : recovers (contains_key_c comp k t) (contains_key comp k t).
  Proof. apply rec_bind; [apply rec_search|]. intros [[nd i] ex] _. apply rec_ret. Qed.
  Lemma rec_found_entry k t : recovers (found_entry_c comp k t) (found_entry comp k t).
  Proof.
    apply rec_bind; [apply rec_search|]. intros [[nd i] ex] _. destruct ex; [|apply rec_ret].
    apply rec_cl_bind. intros x _. apply rec_cl_bind. intros e _. apply rec_ret.
  Qed.
  Lemma rec_get_verify k t : recovers (get_verify_c vzero comp k t) (get_verify vzero comp k t).
  Proof. apply rec_bind; [apply rec_found_entry|]. intros e _. apply rec_ret. Qed.

  Lemma rec_leaf_shift k pos : forall v : list (K * V), recovers (leaf_shift_c comp k pos v) (leaf_shift comp k pos v).
  Proof.
    induction pos as [|q IH]; intros v; [apply rec_ret|]. cbn [leaf_shift_c leaf_shift].
    apply rec_cl_bind. intros x _. apply rec_ask. destruct (_ <? _)%Z; [|apply rec_ret].
    apply rec_cl_bind. intros v' _. apply IH.
  Qed.
  Lemma rec_down_pos t k pos : forall v : list (K * V), recovers (down_pos_c comp t k pos v) (down_pos comp k pos v).
  Proof.
    induction pos as [|q IH]; intros v; [apply rec_ret|]. cbn [down_pos_c down_pos].
    apply rec_cl_bind. intros x _. apply rec_ask. destruct (_ <? _)%Z; [apply IH|apply rec_ret].
  Qed.
  Lemma rec_insert_non_full fuel p : forall nd t,
    recovers (insert_non_full_c kzero vzero comp fuel nd p t) (insert_non_full kzero vzero comp fuel nd p t).
  Proof.
    induction fuel as [|fuel IH]; intros nd t; [apply rec_fuel|]. cbn [insert_non_full_c insert_non_full].
    destruct (leaf _).
    - apply rec_bind; [apply rec_seen, rec_leaf_shift|]. intros [pos v] _. apply rec_cl_bind. intros v' _. apply rec_ret.
    - apply rec_bind; [apply rec_down_pos|]. intros pos _. apply rec_cl_bind. intros c _. apply rec_cl_bind. intros c' _.
      apply rec_bind.
      + destruct (decide _); [|apply rec_ret]. apply rec_cl_bind. intros t' _. apply rec_cl_bind. intros x _. apply rec_ask, rec_ret.
      + intros [t' pos'] _. apply rec_cl_bind. intros c2 _. apply rec_cl_bind. intros c3 _. apply IH.
  Qed.
  Lemma rec_insert r p t : recovers (insert_c kzero vzero comp r p t) (insert kzero vzero comp r p t).
  Proof.
    unfold insert_c, insert. destruct r as [r|]; [|apply rec_ret]. destruct (decide _).
    - destruct (new_node _ _ _) as [t1 nd]. apply rec_cl_bind. intros t2 _. apply rec_cl_bind. intros t3 _.
      apply rec_bind; [apply rec_insert_non_full|]. intros t4 _. apply rec_ret.
    - apply rec_bind; [apply rec_insert_non_full|]. intros t4 _. apply rec_ret.
  Qed.

  Lemma rec_up_pos t n k v : forall i, recovers (up_pos_c comp t n k i v) (up_pos comp n k i v).
  Proof.
    induction n as [|n IH]; intros i; [apply rec_ret|]. cbn [up_pos_c up_pos].
    apply rec_cl_bind. intros x _. apply rec_ask. destruct (_ <? _)%Z; [apply IH|apply rec_ret].
  Qed.
  Lemma rec_delete_non_one fuel k : forall rt t,
    recovers (delete_non_one_c comp fuel rt k t) (delete_non_one comp fuel rt k t).
  Proof.
    induction fuel as [|fuel IH]; intros rt t; [apply rec_fuel|]. cbn [delete_non_one_c delete_non_one].
    apply rec_bind; [apply rec_up_pos|]. intros i _. destruct (leaf _).
    - apply rec_cl_bind. intros x _. apply rec_ask. destruct (_ =? _)%Z; [apply rec_cl|apply rec_ret].
    - apply rec_cl_bind. intros y _. apply rec_cl_bind. intros z _. apply rec_cl_bind. intros tl _. apply rec_cl_bind. intros y' _.
      destruct (decide _); [|apply IH]. apply rec_cl_bind. intros [] _.
      + apply rec_cl_bind. intros l _. apply rec_cl_bind. intros t' _. apply IH.
      + apply rec_cl_bind. intros [] _.
        * apply rec_cl_bind. intros l _. apply rec_cl_bind. intros t' _. apply IH.
        * destruct (decide _); apply rec_cl_bind; intros ? _; apply rec_cl_bind; intros ? _; apply IH.
  Qed.
  Lemma rec_delete r k t : recovers (delete_c comp r k t) (delete comp r k t).
  Proof.
    unfold delete_c, delete. apply rec_cl_bind. intros l _.
    assert (H : forall l t, recovers (let^ t' := delete_non_one_c comp (S (brk t)) l k t in cret (t', Some l))
       (let! t' := delete_non_one comp (S (brk t)) l k t in Ok (t', Some l))).
    { intros l' t0. apply rec_bind; [apply rec_delete_non_one|]. intros t' _. apply rec_ret. }
    destruct (decide _); [|apply H].
    apply rec_cl_bind. intros y _. apply rec_cl_bind. intros z _. destruct y as [y|]; [|apply H]. destruct z as [z|]; [|apply H].
    destruct (decide _); [|apply H]. apply rec_cl_bind. intros t1 _. apply H.
  Qed.
  Lemma rec_delete_key k t : recovers (delete_key_c comp k t) (delete_key comp k t).
  Proof.
    apply rec_bind; [apply rec_contains_key|]. intros [] _; [|apply rec_ret].
    apply rec_bind; [apply rec_delete|]. intros [t' r] _. apply rec_ret.
  Qed.
  Lemma rec_bpair m r : recovers m r -> recovers (bpair_c m) (bpair (V := V) (A := @tree K V) r).
  Proof. intros H. apply rec_bind; [done|]. intros [t' b] _. apply rec_ret. Qed.
  Lemma rec_do_op o t : recovers (do_op_c kzero vzero comp compV o t) (do_op kzero vzero comp compV o t).
  Proof.
    destruct o as [k v|k v|k|k v|k]; cbn [do_op_c do_op].
    - apply rec_bpair, rec_bind; [apply rec_insert|]. intros [t' r] _. apply rec_ret.
    - apply rec_bpair, rec_bind; [apply rec_contains_key|]. intros [] _; [apply rec_ret|].
      apply rec_bind; [apply rec_insert|]. intros [t' r] _. apply rec_ret.
    - apply rec_bpair, rec_delete_key.
    - apply rec_bpair, rec_bind; [apply rec_found_entry|]. intros [e|] _; [|apply rec_ret].
      apply rec_ask. destruct (_ <? _)%Z; [apply rec_delete_key|apply rec_ret].
    - apply rec_bind; [apply rec_get_verify|]. intros [v b] _. apply rec_ret.
  Qed.

  (** *** lookups leave the tree alone *)
  Lemma ab_bsearch t fuel k v : forall l hi mid, abandoned (bsearch_c comp t fuel k v l hi mid) (eq t).
  Proof.
    induction fuel as [|fuel IH]; intros l hi mid; [apply ab_fuel|]. cbn [bsearch_c].
    destruct (decide _); [|apply ab_ret]. apply ab_cl_bind. intros p _. apply ab_ask; [done|].
    destruct (_ <? _)%Z; [apply IH|]. destruct (_ <? _)%Z; [apply IH|apply ab_ret].
  Qed.
  Lemma ab_search_loop t fuel k : forall nd, abandoned (search_loop_c comp t fuel nd k) (eq t).
  Proof.
    induction fuel as [|fuel IH]; intros nd; [apply ab_fuel|]. cbn [search_loop_c].
    apply ab_cl_bind. intros x _. apply ab_bind; [apply ab_bsearch|]. intros _ [[l mid] ex] _ _.
    destruct (leaf _); [destruct ex; apply ab_ret|]. apply ab_cl_bind. intros c _. apply IH.
  Qed.
  Lemma ab_search k t : abandoned (search_c comp k t) (eq t).
  Proof. unfold search_c. destruct (_ =? _)%Z; [apply ab_ret|apply ab_search_loop]. Qed.
  Lemma ab_contains_key k t : abandoned (contains_key_c comp k t) (eq t).
  Proof. apply ab_bind; [apply ab_search|]. intros _ [[nd i] ex] _ _. apply ab_ret. Qed.
  Lemma ab_found_entry k t : abandoned (found_entry_c comp k t) (eq t).
  Proof.
    apply ab_bind; [apply ab_search|]. intros _ [[nd i] ex] _ _. destruct ex; [|apply ab_ret].
    apply ab_cl_bind. intros x _. apply ab_cl_bind. intros e _. apply ab_ret.
  Qed.
  Lemma ab_get_verify k t : abandoned (get_verify_c vzero comp k t) (eq t).
  Proof. apply ab_bind; [apply ab_found_entry|]. intros _ e _ _. apply ab_ret. Qed.
  Lemma ab_down_pos t k pos : forall v : list (K * V), abandoned (down_pos_c comp t k pos v) (eq t).
  Proof.
    induction pos as [|q IH]; intros v; [apply ab_ret|]. cbn [down_pos_c].
    apply ab_cl_bind. intros x _. apply ab_ask; [done|]. destruct (_ <? _)%Z; [apply IH|apply ab_ret].
  Qed.
  Lemma ab_up_pos t n k v : forall i, abandoned (up_pos_c comp t n k i v) (eq t).
  Proof.
    induction n as [|n IH]; intros i; [apply ab_ret|]. cbn [up_pos_c].
    apply ab_cl_bind. intros x _. apply ab_ask; [done|]. destruct (_ <? _)%Z; [apply IH|apply ab_ret].
  Qed.
End bp.
