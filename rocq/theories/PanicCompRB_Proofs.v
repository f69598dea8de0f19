(** Proofs for C74: the red-black tree. *)
From Verif Require Import Base RBTree_Model PanicComp_Model PanicCompRB_Model PanicComp_Spec PanicCompRB_Spec PanicComp_Proofs.

Section rb.
  Context {K V : Type} (vzero : V) (comp : K -> K -> Z).
  Implicit Types t : tree K V.

  Lemma rec_rb_search fuel t k : forall p, recovers (rb_search_c comp fuel t k p) (search comp fuel (hp t) k p).
  Proof.
    induction fuel as [|fuel IH]; intros p; [apply rec_fuel|]. cbn [rb_search_c search].
    destruct p as [l|]; [|apply rec_ret]. apply rec_ask.
    destruct (decide _); [apply IH|]. destruct (decide _); [apply IH|apply rec_ret].
  Qed.
  Lemma rec_rb_descend fuel t k : forall par p, recovers (rb_descend_c comp fuel t k par p) (descend comp fuel (hp t) k par p).
  Proof.
    induction fuel as [|fuel IH]; intros par p; [apply rec_fuel|]. cbn [rb_descend_c descend].
    destruct p as [l|]; [|apply rec_ret]. apply rec_ask.
    destruct (decide _); [apply IH|]. destruct (decide _); [apply IH|apply rec_ret].
  Qed.
  Lemma rec_eq {St A} (m : cm St A) (r r' : res A) : r = r' -> recovers m r -> recovers m r'.
  Proof. by intros ->. Qed.
  Lemma rbind_assoc {A B C} (m : res A) (f : A -> res B) (g : B -> res C) :
    rbind (rbind m f) g = rbind m (fun a => rbind (f a) g).
  Proof. by destruct m. Qed.

  (** remove, split after its last comparison *)
  Definition head_of fuel t nl : res (tree K V) :=
    let c := comp (key (hp t nl)) (key (hp t 0)) in
    if decide (c > -1)%Z then
      let! h := (let! p := prev fuel (hp t) nl in wr hdr (set_right p) (hp t)) in Ok (with_hp h t)
    else
      let! hl := rd (hp t) (left (hp t 0)) in
      let c := comp (key hl) (key (hp t nl)) in
      if decide (c > -1)%Z then
        let! h := (let! p := next fuel (hp t) nl in wr hdr (set_left p) (hp t)) in Ok (with_hp h t)
      else Ok t.
  Lemma rec_rb_head fuel t nl : recovers (rb_remove_head_c comp fuel t nl) (head_of fuel t nl).
  Proof.
    unfold rb_remove_head_c, head_of. apply rec_ask. destruct (decide _).
    - apply rec_cl_bind. intros h _. apply rec_ret.
    - apply rec_cl_bind. intros hl _. apply rec_ask. destruct (decide _); [|apply rec_ret].
      apply rec_cl_bind. intros h _. apply rec_ret.
  Qed.
  Lemma head_of_same fuel t nl t1 : head_of fuel t nl = Ok t1 -> size t1 = size t /\ buf t1 = buf t /\ brk t1 = brk t.
  Proof.
    unfold head_of. intros H. destruct (decide _).
    - destruct (prev _ _ _) as [p| |]; cbn [rbind wr hdr] in H; simplify_eq. done.
    - destruct (rd _ _) as [hl| |]; cbn [rbind] in H; [|discriminate..]. destruct (decide _).
      + destruct (next _ _ _) as [p| |]; cbn [rbind wr hdr] in H; simplify_eq. done.
      + by injection H as <-.
  Qed.
  Lemma remove_split fuel t nl :
    remove comp fuel (hp t) nl = (let! t1 := head_of fuel t nl in rb_remove_tail fuel (hp t1) nl).
  Proof.
    unfold remove, head_of. destruct (decide _).
    - destruct (prev _ _ _) as [p| |]; [|done..]. done.
    - destruct (rd (hp t) (left (hp t 0))) as [hl| |]; [|done..]. cbn [rbind]. destruct (decide _); [|done].
      destruct (next _ _ _) as [p| |]; [|done..]. done.
  Qed.
  Lemma rec_rb_remove_node fuel t l : recovers (rb_remove_node_c comp fuel t l) (remove_node comp fuel t l).
  Proof.
    unfold rb_remove_node_c, remove_node. rewrite remove_split, rbind_assoc.
    apply rec_bind; [apply rec_rb_head|]. intros t1 E1. apply head_of_same in E1 as (E1 & E2 & E3).
    apply rec_cl_bind. intros [r h] _. rewrite E1. eapply rec_eq, rec_ret.
    f_equal. f_equal. unfold with_size, with_hp. cbn. by rewrite E2, E3.
  Qed.

  Lemma rec_rb_delete fuel t k : recovers (rb_delete_c comp fuel t k) (delete comp fuel t k).
  Proof.
    unfold rb_delete_c, delete. apply rec_bind; [apply rec_rb_search|]. intros [l|] _; [|apply rec_ret].
    apply rec_bind; [apply rec_rb_remove_node|]. intros [r t'] _. apply rec_ret.
  Qed.
  Lemma rec_rb_delete_keys fuel ks : forall t, recovers (rb_delete_keys_c comp fuel t ks) (delete_keys comp fuel t ks).
  Proof.
    induction ks as [|k ks IH]; intros t; [apply rec_ret|]. cbn [rb_delete_keys_c delete_keys].
    apply rec_bind; [apply rec_rb_delete|]. intros [n t'] _.
    apply rec_bind; [apply IH|]. intros [c t''] _. apply rec_ret.
  Qed.
  Lemma rec_rb_step fuel t o : recovers (rb_step_c vzero comp fuel t o) (step vzero comp fuel t o).
  Proof.
    destruct o as [k v|n|k v|n k v|k|k| |k|ks|k v vc|]; cbn [rb_step_c step]; try apply rec_cl.
    - apply rec_bind.
      { unfold rb_put_c, put. apply rec_bind; [apply rec_rb_descend|]. intros [l|par] _; [apply rec_ret|apply rec_cl]. }
      intros [b t'] _. apply rec_ret.
    - apply rec_bind.
      { unfold rb_put_node_c, put_node. apply rec_bind; [apply rec_rb_descend|]. intros [l|par] _; [apply rec_ret|apply rec_cl]. }
      intros [b t'] _. apply rec_ret.
    - apply rec_bind.
      { unfold rb_get_c, get. apply rec_bind; [apply rec_rb_search|]. intros n _. apply rec_ret. }
      intros v _. apply rec_ret.
    - apply rec_bind.
      { unfold rb_has_c, has. apply rec_bind; [apply rec_rb_search|]. intros n _. apply rec_ret. }
      intros v _. apply rec_ret.
    - apply rec_bind; [apply rec_rb_delete|]. intros [n t'] _. apply rec_ret.
    - apply rec_bind; [apply rec_rb_delete_keys|]. intros [n t'] _. apply rec_ret.
    - apply rec_bind.
      { unfold rb_delete_whole_c, delete_whole. apply rec_bind; [apply rec_rb_search|]. intros [l|] _; [|apply rec_ret].
        apply rec_ask. destruct (decide _); [|apply rec_ret]. apply rec_bind; [apply rec_rb_remove_node|]. intros [r t'] _. apply rec_ret. }
      intros [b t'] _. apply rec_ret.
  Qed.

  (** ** what an abandoned call leaves behind *)
  Lemma ab_search fuel t k : forall p, abandoned (rb_search_c comp fuel t k p) (eq t).
  Proof.
    induction fuel as [|fuel IH]; intros p; [apply ab_fuel|]. cbn [rb_search_c].
    destruct p as [l|]; [|apply ab_ret]. apply ab_ask; [done|].
    destruct (decide _); [apply IH|]. destruct (decide _); [apply IH|apply ab_ret].
  Qed.
  Lemma ab_descend fuel t k : forall par p, abandoned (rb_descend_c comp fuel t k par p) (eq t).
  Proof.
    induction fuel as [|fuel IH]; intros par p; [apply ab_fuel|]. cbn [rb_descend_c].
    destruct p as [l|]; [|apply ab_ret]. apply ab_ask; [done|].
    destruct (decide _); [apply IH|]. destruct (decide _); [apply IH|apply ab_ret].
  Qed.
  Lemma ab_remove_node fuel t l : abandoned (rb_remove_node_c comp fuel t l) (eq t).
  Proof.
    unfold rb_remove_node_c. apply ab_bind.
    - unfold rb_remove_head_c. apply ab_ask; [done|]. destruct (decide _).
      + apply ab_cl_bind. intros h _. apply ab_ret.
      + apply ab_cl_bind. intros hl _. apply ab_ask; [done|]. destruct (decide _); [|apply ab_ret].
        apply ab_cl_bind. intros h _. apply ab_ret.
    - intros n t1 n' _. apply ab_cl_bind. intros [r h] _. apply ab_ret.
  Qed.
  Lemma ab_delete fuel t k : abandoned (rb_delete_c comp fuel t k) (eq t).
  Proof.
    unfold rb_delete_c. apply ab_bind; [apply ab_search|]. intros _ [l|] _ _; [|apply ab_ret].
    apply ab_bind; [apply ab_remove_node|]. intros _ [r t'] _ _. apply ab_ret.
  Qed.
  Lemma done_delete fuel t k n r n' : rb_delete_c comp fuel t k n = Done r n' -> delete comp fuel t k = Ok r.
  Proof.
    intros H. destruct (rec_rb_delete fuel t k) as (m & H1 & H2).
    destruct (decide (n < m)) as [Hn|Hn]; [destruct (H1 n Hn) as [s E]; congruence|].
    specialize (H2 (n - m)). replace (m + (n - m)) with n in H2 by lia. rewrite H in H2.
    destruct (delete _ _ _ _); cbn [cl] in H2; congruence.
  Qed.
  Lemma ab_delete_keys fuel ks : forall t, abandoned (rb_delete_keys_c comp fuel t ks)
    (fun t' => exists j z, j < length ks /\ delete_keys comp fuel t (take j ks) = Ok (z, t')).
  Proof.
    induction ks as [|k ks IH]; intros t; [apply ab_ret|]. cbn [rb_delete_keys_c].
    intros n s H. apply bind_crash in H as [H|([m t1] & n1 & H & H')].
    - apply ab_delete in H as <-. exists 0, 0%Z. split; [simpl; lia|done].
    - apply bind_crash in H' as [H'|([m' t2] & n2 & _ & H')]; [|discriminate].
      apply IH in H' as (j & z & Hj & E). apply done_delete in H.
      exists (S j), (match m with Some _ => z + 1 | None => z end)%Z. split; [simpl; lia|].
      cbn [take delete_keys]. rewrite H. cbn [rbind]. by rewrite E.
  Qed.

  Lemma rb_step_lost fuel t o n t' : rb_step_c vzero comp fuel t o n = Crash t' ->
    ((forall ks, o <> ODeleteKeys ks) /\ t' = t) \/
    exists ks j z, o = ODeleteKeys ks /\ j < length ks /\ delete_keys comp fuel t (take j ks) = Ok (z, t').
  Proof.
    intros H.
    destruct o as [k v|nd|k v|nd k v|k|k| |k|ks|k v vc|]; cbn [rb_step_c] in H; try (cbn in H; discriminate).
    - left. split; [done|]. apply bind_crash in H as [H|([b t1] & n1 & _ & H)]; [|discriminate].
      unfold rb_put_c in H. apply bind_crash in H as [H|([l|par] & n1 & _ & H)]; [by apply ab_descend in H|discriminate|].
      by apply (ab_cl (fun _ => False)) in H.
    - left. split; [done|]. apply bind_crash in H as [H|([b t1] & n1 & _ & H)]; [|discriminate].
      unfold rb_put_node_c in H. apply bind_crash in H as [H|([l|par] & n1 & _ & H)]; [by apply ab_descend in H|discriminate|].
      by apply (ab_cl (fun _ => False)) in H.
    - left. split; [done|]. apply bind_crash in H as [H|(b & n1 & _ & H)]; [|discriminate].
      unfold rb_get_c in H. apply bind_crash in H as [H|(b & n1 & _ & H)]; [by apply ab_search in H|discriminate].
    - left. split; [done|]. apply bind_crash in H as [H|(b & n1 & _ & H)]; [|discriminate].
      unfold rb_has_c in H. apply bind_crash in H as [H|(b & n1 & _ & H)]; [by apply ab_search in H|discriminate].
    - left. split; [done|]. apply bind_crash in H as [H|([b t1] & n1 & _ & H)]; [|discriminate]. by apply ab_delete in H.
    - right. apply bind_crash in H as [H|([b t1] & n1 & _ & H)]; [|discriminate].
      destruct (ab_delete_keys fuel ks t _ _ H) as (j & z & Hj & E). by exists ks, j, z.
    - left. split; [done|]. apply bind_crash in H as [H|([b t1] & n1 & _ & H)]; [|discriminate].
      unfold rb_delete_whole_c in H. apply bind_crash in H as [H|([l|] & n1 & _ & H)]; [by apply ab_search in H| |discriminate].
      apply bind_crash in H as [H|(c & n3 & _ & H)]; [by destruct n1; inversion H|]. destruct (decide _); [|discriminate].
      apply bind_crash in H as [H|([b t1] & n2 & _ & H)]; [|discriminate]. by apply ab_remove_node in H.
  Qed.
  Lemma rb_step_done fuel t o n r n' : rb_step_c vzero comp fuel t o n = Done r n' -> step vzero comp fuel t o = Ok r.
  Proof.
    intros H. destruct (rec_rb_step fuel t o) as (m & H1 & H2).
    destruct (decide (n < m)) as [Hn|Hn]; [destruct (H1 n Hn) as [s E]; congruence|].
    specialize (H2 (n - m)). replace (m + (n - m)) with n in H2 by lia. rewrite H in H2.
    destruct (step _ _ _ _ _); cbn [cl] in H2; congruence.
  Qed.
  Lemma rb_run_cut fuel os : forall t rs t', rb_run_c vzero comp fuel t os = Ok (rs, t') ->
    exists os' rs', cut os.*1 rs os' rs' /\ run vzero comp fuel t os' = Ok (rs', t').
  Proof.
    induction os as [|[o n] os IH]; intros t rs t' H; cbn [rb_run_c] in H.
    { injection H as <- <-. exists [], []. split; [constructor|done]. }
    destruct (rb_step_c vzero comp fuel t o n) as [[r t1] n1|t1| |] eqn:E; [..|discriminate|discriminate]; cbn [fst snd] in H.
    - destruct (rb_run_c vzero comp fuel t1 os) as [[rs1 t2]| |] eqn:E1; [|discriminate..]. cbn [rbind fst snd] in H. injection H as <- <-.
      apply IH in E1 as (os' & rs' & HC & HE). apply rb_step_done in E.
      exists (o :: os'), (r :: rs'). split; [by constructor|]. cbn [run]. rewrite E. cbn [rbind]. by rewrite HE.
    - destruct (rb_run_c vzero comp fuel t1 os) as [[rs1 t2]| |] eqn:E1; [|discriminate..]. cbn [rbind fst snd] in H. injection H as <- <-.
      apply IH in E1 as (os' & rs' & HC & HE).
      apply rb_step_lost in E as [[Ho ->]|(ks & j & z & -> & Hj & E)].
      + exists os', rs'. split; [by constructor|done].
      + exists (ODeleteKeys (take j ks) :: os'), (RInt z :: rs'). split; [by constructor|].
        cbn [run step]. rewrite E. cbn [rbind]. by rewrite HE.
  Qed.
End rb.
