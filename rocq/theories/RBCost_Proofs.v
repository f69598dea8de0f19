(** Comparator calls of the red-black tree. *)
From Verif Require Import Base RBTree_Model RBTree_Spec RBTree_Proofs RBTree_Proofs7 RBTree_Proofs8 RBTree_Proofs9 Cost_Model Cost_Proofs.

Section rb.
  Context {K V : Type} (kzero : K) (vzero : V) (comp : K -> K -> Z).
  Notation heap := (nat -> RBTree_Model.node K V).
  Notation btree := (RBTree_Spec.btree K V).
  Lemma search_erase fuel : forall (h : heap) k p, erase (search_n comp fuel h k p) = search comp fuel h k p.
  Proof.
    induction fuel as [|fuel IH]; intros h k p; [done|]. cbn [search_n search]. destruct p as [l|]; [|done].
    rewrite erase_cbind. cbn. repeat case_decide; [apply IH|apply IH|done].
  Qed.
  Lemma descend_erase fuel : forall (h : heap) k par p, erase (descend_n comp fuel h k par p) = descend comp fuel h k par p.
  Proof.
    induction fuel as [|fuel IH]; intros h k par p; [done|]. cbn [descend_n descend]. destruct p as [l|]; [|done].
    rewrite erase_cbind. cbn. repeat case_decide; [apply IH|apply IH|done].
  Qed.
  Lemma has_erase fuel t k : erase (has_n comp fuel t k) = has comp fuel (t : tree K V) k.
  Proof. unfold has_n, has, find. rewrite erase_cbind, search_erase. done. Qed.
  Lemma get_erase fuel t k : erase (get_n vzero comp fuel t k) = get vzero comp fuel (t : tree K V) k.
  Proof. unfold get_n, get, find. rewrite erase_cbind, search_erase. done. Qed.
  Lemma put_erase fuel t k v : erase (put_n comp fuel t k v) = put comp fuel (t : tree K V) k v.
  Proof. unfold put_n, put. rewrite erase_cbind, descend_erase. apply rbind_ext. intros [l|par]; [done|]. apply erase_lift. Qed.
  Lemma remove_node_erase fuel (t : tree K V) l : erase (remove_node_n comp fuel t l) = remove_node comp fuel t l.
  Proof.
    unfold remove_node_n, remove_node, remove. rewrite erase_cbind, rbind_assoc.
    match goal with |- rbind ?a _ = rbind ?b _ => assert (E : a = b) end.
    { unfold remove_head_n. rewrite erase_cbind. cbn [ask erase rbind fst]. case_decide; [apply erase_lift|]. rewrite erase_cbind, erase_lift. apply rbind_ext.
      intros hl. rewrite erase_cbind. cbn [ask erase rbind fst]. case_decide; [apply erase_lift|done]. }
    rewrite E. apply rbind_ext. intros h. apply erase_lift.
  Qed.
  Lemma delete_erase fuel t k : erase (delete_n comp fuel t k) = delete comp fuel (t : tree K V) k.
  Proof.
    unfold delete_n, delete, find. rewrite erase_cbind, search_erase. apply rbind_ext. intros [l|]; [|done].
    rewrite erase_cbind, remove_node_erase. by destruct (remove_node comp fuel t l) as [[r t']| |].
  Qed.

  Lemma search_costs (h : heap) k : forall (t : btree) par fuel, holds h par t -> costs (search_n comp fuel h k (root_of t)) (height t).
  Proof.
    induction t as [|c l k' v a IHa b IHb]; intros par fuel H; (destruct fuel as [|fuel]; [done|]); [apply costs_ok|].
    destruct H as (Hl & Ha & Hb). cbn [root_of search_n height]. apply costs_ask. rewrite Hl. cbn [key left right].
    case_decide; [eapply costs_le; [by eapply IHa|lia]|]. case_decide; [eapply costs_le; [by eapply IHb|lia]|apply costs_ok].
  Qed.
  Lemma descend_costs (h : heap) k : forall (t : btree) par fuel q, holds h par t -> costs (descend_n comp fuel h k q (root_of t)) (height t).
  Proof.
    induction t as [|c l k' v a IHa b IHb]; intros par fuel q H; (destruct fuel as [|fuel]; [done|]); [apply costs_ok|].
    destruct H as (Hl & Ha & Hb). cbn [root_of descend_n height]. apply costs_ask. rewrite Hl. cbn [key left right].
    case_decide; [eapply costs_le; [by eapply IHa|lia]|]. case_decide; [eapply costs_le; [by eapply IHb|lia]|apply costs_ok].
  Qed.
  Lemma has_costs fuel (t : tree K V) bt k : is_tree (hp t) bt -> costs (has_n comp fuel t k) (height bt).
  Proof.
    intros (E & H & _). unfold has_n. rewrite E, <-(Nat.add_0_r (height bt)). apply costs_cbind; [by eapply search_costs|intros; apply costs_ok].
  Qed.
  Lemma get_costs fuel (t : tree K V) bt k : is_tree (hp t) bt -> costs (get_n vzero comp fuel t k) (height bt).
  Proof.
    intros (E & H & _). unfold get_n. rewrite E, <-(Nat.add_0_r (height bt)). apply costs_cbind; [by eapply search_costs|intros; apply costs_ok].
  Qed.
  Lemma put_costs fuel (t : tree K V) bt k v : is_tree (hp t) bt -> costs (put_n comp fuel t k v) (height bt).
  Proof.
    intros (E & H & _). unfold put_n. rewrite E, <-(Nat.add_0_r (height bt)). apply costs_cbind; [by eapply descend_costs|].
    intros [l|par] n _; [apply costs_ok|apply costs_lift].
  Qed.
  Lemma delete_costs fuel (t : tree K V) bt k : is_tree (hp t) bt -> costs (delete_n comp fuel t k) (height bt + 2).
  Proof.
    intros (E & H & _). unfold delete_n. rewrite E. apply costs_cbind; [by eapply search_costs|].
    intros [l|] n _; [|apply costs_ok]. rewrite <-(Nat.add_0_r 2). apply costs_cbind; [|intros []; intros; apply costs_ok].
    unfold remove_node_n. rewrite <-(Nat.add_0_r 2). apply costs_cbind; [|intros; apply costs_lift].
    unfold remove_head_n. apply costs_ask. case_decide; [apply costs_lift|]. apply costs_lift_bind. intros hl _. apply costs_ask.
    case_decide; [apply costs_lift|apply costs_ok].
  Qed.
End rb.

Section loops.
  Context {K V : Type} (kzero : K) (vzero : V) (comp : K -> K -> Z).
  Notation log_fuel bt fuel := (2 * Nat.log2 (length (locs bt) + 1) + 2 <= fuel).
  Lemma log_height own (t : tree K V) bt fuel : inv kzero own t bt -> log_fuel bt fuel -> height bt + 2 <= fuel.
  Proof. intros I H. pose proof (height_log bt (i_rb _ _ _ _ I)). lia. Qed.
  Lemma delete_keys_log own ks : forall (t : tree K V) bt fuel, inv kzero own t bt -> log_fuel bt fuel -> delete_keys comp fuel t ks <> Fuel.
  Proof.
    induction ks as [|k ks IH]; intros t bt fuel I Hf; simpl; [done|].
    destruct (delete_ok kzero comp own t bt k fuel I (log_height _ _ _ _ I Hf)) as [(C & E & H2 & H3)|(C & c & l & k' & v & a & b & E & H2 & H3 & H4 & H5 & H6 & [[_ G]|(_ & r & t' & G & HR)])].
    - rewrite H3. cbn [rbind]. pose proof (IH t bt fuel I Hf) as N. by destruct (delete_keys comp fuel t ks) as [[]| |].
    - by rewrite G.
    - rewrite G. cbn [rbind]. subst bt. destruct (removed_len kzero comp _ _ _ _ c _ k' v _ _ _ HR) as (bt' & I' & Hl).
      destruct (inv_free kzero comp own t' bt' r I') as (I2 & _).
      assert (Hf' : log_fuel bt' fuel).
      { pose proof (Nat.log2_le_mono (length (locs bt') + 1) (length (locs (plug C (T c l k' v a b))) + 1) ltac:(lia)). lia. }
      pose proof (IH _ bt' fuel I2 Hf') as N. by destruct (delete_keys comp fuel (free t' r) ks) as [[]| |].
  Qed.
  Lemma step_log own (t : tree K V) bt o fuel : inv kzero own t bt -> legal own o -> log_fuel bt fuel -> step vzero comp fuel t o <> Fuel.
  Proof.
    intros I HL Hf. pose proof (log_height _ _ _ _ I Hf) as Hh. destruct o as [k v|n|k v|n k v|k|k| |k|ks|k v vc|]; cbn [step legal] in *; try done.
    - destruct (put_ok kzero comp own t bt k v fuel I Hh) as [(C & c & l & k' & v' & a & b & t' & E & _ & _ & _ & Ep & I' & _)|(C & n & t' & bt' & E & _ & Ep & I' & _ & Eio & _)]; by rewrite Ep.
    - destruct (put_node_ok kzero comp own t bt n fuel I HL Hh) as [(C & c & l & k' & v' & a & b & t' & E & _ & _ & _ & Ep & I' & _)|(C & t' & bt' & E & _ & Ep & I' & _ & Eio & _)]; by rewrite Ep.
    - unfold get. destruct (find_ok kzero comp own t bt k fuel I ltac:(lia)) as [(C & c & l & k' & v & a & b & E & H2 & H3 & H4 & H5 & H6)|(C & E & H2 & H3)]; [by rewrite H5|by rewrite H3].
    - unfold has. destruct (find_ok kzero comp own t bt k fuel I ltac:(lia)) as [(C & c & l & k' & v & a & b & E & H2 & H3 & H4 & H5 & H6)|(C & E & H2 & H3)]; [by rewrite H5|by rewrite H3].
    - destruct (delete_ok kzero comp own t bt k fuel I Hh) as [(C & E & H2 & H3)|(C & c & l & k' & v & a & b & E & H2 & H3 & H4 & H5 & H6 & [[_ G]|(_ & r & t' & G & HR)])]; [by rewrite H3|by rewrite G|by rewrite G].
    - pose proof (delete_keys_log own ks t bt fuel I Hf) as N. by destruct (delete_keys comp fuel t ks) as [[]| |].
    - unfold delete_whole. destruct (find_ok kzero comp own t bt k fuel I ltac:(lia)) as [(C & c & l & k' & v' & a & b & E & H2 & H3 & H4 & H5 & H6 & H7)|(C & E & H2 & H3)]; [|by rewrite H3].
      rewrite H5. cbn [rbind]. case_decide as Hv; [|done].
      subst bt. destruct (remove_found kzero comp own t C c l k' v' a b fuel I Hh) as [[G1 G2]|(G1 & r & t' & G2 & G3)]; by rewrite G2.
  Qed.
End loops.

Section rb_follows.
  Context {K V : Type} (vzero : V) (comp comp' : K -> K -> Z).
  Lemma search_follows fuel : forall (h : nat -> RBTree_Model.node K V) k p, follows comp comp' (search_n comp fuel h k p) (search_n comp' fuel h k p).
  Proof. induction fuel as [|fuel IH]; intros h k p; [done|]. cbn [search_n]. follow IH. Qed.
  Lemma descend_follows fuel : forall (h : nat -> RBTree_Model.node K V) k par p, follows comp comp' (descend_n comp fuel h k par p) (descend_n comp' fuel h k par p).
  Proof. induction fuel as [|fuel IH]; intros h k par p; [done|]. cbn [descend_n]. follow IH. Qed.
  Lemma has_follows fuel (t : tree K V) k : follows comp comp' (has_n comp fuel t k) (has_n comp' fuel t k).
  Proof. unfold has_n. follow search_follows. Qed.
  Lemma get_follows fuel (t : tree K V) k : follows comp comp' (get_n vzero comp fuel t k) (get_n vzero comp' fuel t k).
  Proof. unfold get_n. follow search_follows. Qed.
  Lemma put_follows fuel (t : tree K V) k v : follows comp comp' (put_n comp fuel t k v) (put_n comp' fuel t k v).
  Proof. unfold put_n. follow descend_follows. Qed.
  Lemma delete_follows fuel (t : tree K V) k : follows comp comp' (delete_n comp fuel t k) (delete_n comp' fuel t k).
  Proof. unfold delete_n, remove_node_n, remove_head_n. follow search_follows. Qed.
End rb_follows.
