(** Counting comparator calls: erasure, and bounds. *)
From Verif Require Import Base PQ_Model Cost_Model.

Lemma erase_lift {K A} (m : res A) : erase (lift (K:=K) m) = m.
Proof. by destruct m. Qed.
Lemma erase_cbind {K A B} (m : cres K A) (f : A -> cres K B) : erase (cbind m f) = rbind (erase m) (fun a => erase (f a)).
Proof. destruct m as [[a n]| |]; cbn; [|done|done]. by destruct (f a) as [[b k]| |]. Qed.
Lemma rbind_ext {A B} (m : res A) (f g : A -> res B) : (forall a, f a = g a) -> rbind m f = rbind m g.
Proof. intros H. destruct m; cbn; [apply H|done|done]. Qed.
Lemma rbind_assoc {A B C} (m : res A) (f : A -> res B) (g : B -> res C) : rbind (rbind m f) g = rbind m (fun a => rbind (f a) g).
Proof. by destruct m. Qed.

Definition costs {K A} (m : cres K A) (c : nat) : Prop := forall a n, m = Ok (a, n) -> length n <= c.
Lemma costs_le {K A} (m : cres K A) c c' : costs m c -> c <= c' -> costs m c'.
Proof. intros H L a n E. specialize (H a n E). lia. Qed.
Lemma costs_ok {K A} (a : A) c : costs (K:=K) (Ok (a, [])) c.
Proof. intros a' n E. simplify_eq. cbn. lia. Qed.
Lemma costs_lift {K A} (m : res A) c : costs (lift (K:=K) m) c.
Proof. intros a n E. destruct m; cbn in E; simplify_eq. cbn. lia. Qed.
Lemma costs_cbind {K A B} (m : cres K A) (f : A -> cres K B) c d :
  costs m c -> (forall a n, m = Ok (a, n) -> costs (f a) d) -> costs (cbind m f) (c + d).
Proof.
  intros Hm Hf b k E. destruct m as [[a n]| |]; cbn in E; [|done|done]. destruct (f a) as [[b' k']| |] eqn:Ef; cbn in E; [|done|done].
  simplify_eq. rewrite app_length. specialize (Hm a n eq_refl). specialize (Hf a n eq_refl b k' Ef). lia.
Qed.
Lemma costs_lift_bind {K A B} (m : res A) (f : A -> cres K B) c :
  (forall a, m = Ok a -> costs (f a) c) -> costs (cbind (lift m) f) c.
Proof.
  intros H. apply (costs_cbind (lift m) f 0 c); [apply costs_lift|]. intros a n E. apply H. destruct m; cbn in E; by simplify_eq.
Qed.
Lemma costs_ask {A B} (comp : A -> A -> Z) x y (f : Z -> cres A B) c : costs (f (comp x y)) c -> costs (cbind (ask comp x y) f) (S c).
Proof.
  intros H. apply (costs_cbind (ask comp x y) f 1 c); [intros a n E; unfold ask in E; simplify_eq; cbn; lia|]. intros a n E. unfold ask in E. by simplify_eq.
Qed.

(** a run with another comparator that answers the recorded questions alike *)
Definition follows {K A} (comp comp' : K -> K -> Z) (m m' : cres K A) : Prop :=
  forall a tr, m = Ok (a, tr) -> (forall x y, (x, y) ∈ tr -> comp' x y = comp x y) -> m' = Ok (a, tr).
Lemma follows_refl {K A} (comp comp' : K -> K -> Z) (m : cres K A) : follows comp comp' m m.
Proof. intros a tr E _. exact E. Qed.
Lemma follows_cbind {K A B} (comp comp' : K -> K -> Z) (m m' : cres K A) (f f' : A -> cres K B) :
  follows comp comp' m m' -> (forall a, follows comp comp' (f a) (f' a)) -> follows comp comp' (cbind m f) (cbind m' f').
Proof.
  intros Hm Hf b tr E H. destruct m as [[a n]| |] eqn:Em; cbn in E; [|done|done]. destruct (f a) as [[b' k']| |] eqn:Ef; cbn in E; [|done|done].
  simplify_eq. rewrite (Hm a n eq_refl) by (intros; apply H; rewrite elem_of_app; by left). cbn.
  rewrite (Hf a b k' Ef) by (intros; apply H; rewrite elem_of_app; by right). done.
Qed.
Lemma follows_ask {K B} (comp comp' : K -> K -> Z) x y (f f' : Z -> cres K B) :
  (forall c, follows comp comp' (f c) (f' c)) -> follows comp comp' (cbind (ask comp x y) f) (cbind (ask comp' x y) f').
Proof.
  intros Hf. apply follows_cbind; [|done]. intros a tr E H. unfold ask in *. injection E as <- <-. rewrite H; [done|]. by left.
Qed.
Ltac follow IH :=
  repeat first [ apply follows_refl | apply IH | apply follows_ask; intros ? | apply follows_cbind; [|intros ?]
               | case_decide | match goal with |- follows _ _ (if ?b then _ else _) _ => destruct b end
               | match goal with |- follows _ _ (match ?x with _ => _ end) _ => destruct x end ].

Section pq.
  Context {T : Type} (zero : T) (comp : T -> T -> Z).
  Lemma up_erase fuel : forall els pos, erase (percolate_up_n comp fuel els pos) = percolate_up comp fuel els pos.
  Proof.
    induction fuel as [|fuel IH]; intros els pos; [done|]. cbn [percolate_up_n percolate_up].
    case_decide; [done|]. rewrite erase_cbind, erase_lift. apply rbind_ext. intros x. rewrite erase_cbind, erase_lift. apply rbind_ext. intros y.
    rewrite erase_cbind. cbn. destruct (0 <=? comp x y)%Z; [done|apply IH].
  Qed.
  Lemma down_erase fuel : forall els i n, erase (percolate_down_n comp fuel els i n) = percolate_down comp fuel els i n.
  Proof.
    induction fuel as [|fuel IH]; intros els i n; [done|]. cbn [percolate_down_n percolate_down].
    case_decide; [done|]. rewrite erase_cbind.
    match goal with |- rbind ?a _ = rbind ?b _ => assert (E : a = b) end.
    { case_decide; [|done]. rewrite erase_cbind, erase_lift. apply rbind_ext. intros x. rewrite erase_cbind, erase_lift. apply rbind_ext. intros y. done. }
    rewrite E. apply rbind_ext. intros j. rewrite erase_cbind, erase_lift. apply rbind_ext. intros x. rewrite erase_cbind, erase_lift. apply rbind_ext. intros y.
    rewrite erase_cbind. cbn. destruct (0 <=? comp x y)%Z; [done|apply IH].
  Qed.
  Lemma push_erase q v : erase (q_push_n comp q v) = q_push comp q v.
  Proof. unfold q_push_n, q_push. rewrite erase_cbind, up_erase. done. Qed.
  Lemma pop_erase q : erase (q_pop_n zero comp q) = q_pop zero comp q.
  Proof.
    unfold q_pop_n, q_pop. case_decide; [done|]. rewrite erase_cbind, erase_lift. apply rbind_ext. intros x. rewrite erase_cbind, erase_lift. apply rbind_ext. intros y.
    rewrite erase_cbind, down_erase. apply rbind_ext. intros r. rewrite erase_cbind, erase_lift. done.
  Qed.

  (** the depth of a position *)
  Lemma depth_parent pos : 0 < pos -> Nat.log2 (pos + 1) = S (Nat.log2 ((pos - 1) / 2 + 1)).
  Proof.
    intros H. assert (E : pos + 1 = 2 * ((pos - 1) / 2 + 1) \/ pos + 1 = 2 * ((pos - 1) / 2 + 1) + 1).
    { pose proof (Nat.div_mod (pos - 1) 2 ltac:(lia)). pose proof (Nat.mod_upper_bound (pos - 1) 2 ltac:(lia)). lia. }
    destruct E as [E|E]; rewrite E.
    - by rewrite Nat.log2_double by lia.
    - by rewrite Nat.log2_succ_double by lia.
  Qed.
  Lemma up_costs fuel : forall els pos, costs (percolate_up_n comp fuel els pos) (Nat.log2 (pos + 1)).
  Proof.
    induction fuel as [|fuel IH]; intros els pos; [done|]. cbn [percolate_up_n]. case_decide as D; [apply costs_ok|].
    assert (Hp : 0 < pos). { destruct pos; [|lia]. by destruct D. }
    rewrite (depth_parent pos Hp). apply costs_lift_bind. intros x _. apply costs_lift_bind. intros y _. apply costs_ask.
    destruct (0 <=? comp x y)%Z; [apply costs_ok|apply IH].
  Qed.
  Lemma down_costs fuel : forall els i n k, Nat.log2 (i + 1) + k = Nat.log2 n -> costs (percolate_down_n comp fuel els i n) (2 * k).
  Proof.
    induction fuel as [|fuel IH]; intros els i n k Hk; [done|]. cbn [percolate_down_n]. case_decide as D; [apply costs_ok|].
    assert (C : forall j, j = 2 * i + 1 \/ j = 2 * i + 1 + 1 -> Nat.log2 (j + 1) = S (Nat.log2 (i + 1))).
    { intros j Hj. rewrite depth_parent by lia. do 3 f_equal. destruct Hj as [-> | ->].
      - replace (2 * i + 1 - 1) with (i * 2) by lia. by apply Nat.div_mul.
      - replace (2 * i + 1 + 1 - 1) with (1 + i * 2) by lia. rewrite Nat.div_add by lia. cbn. lia. }
    assert (L : S (Nat.log2 (i + 1)) <= Nat.log2 n).
    { rewrite <-(C (2 * i + 1)) by by left. apply Nat.log2_le_mono. lia. }
    destruct k as [|k]; [lia|]. replace (2 * S k) with (1 + S (2 * k)) by lia. apply costs_cbind.
    - case_decide; [|apply costs_ok]. apply costs_lift_bind. intros x _. apply costs_lift_bind. intros y _. apply costs_ask. apply costs_ok.
    - intros j m E. assert (Hj : j = 2 * i + 1 \/ j = 2 * i + 1 + 1).
      { unfold cbind, lift, ask, rbind, deref in E. clear -E. repeat case_match; simplify_eq/=; auto. }
      apply costs_lift_bind. intros x _. apply costs_lift_bind. intros y _. apply costs_ask.
      destruct (0 <=? comp x y)%Z; [apply costs_ok|]. apply IH. rewrite (C j Hj). lia.
  Qed.
  Lemma push_costs q v : costs (q_push_n comp q v) (Nat.log2 (qsize q + 1)).
  Proof.
    unfold q_push_n. rewrite <-(Nat.add_0_r (Nat.log2 _)). apply costs_cbind; [|intros; apply costs_ok].
    replace (qsize q + 1 - 1) with (qsize q) by lia. apply up_costs.
  Qed.
  Lemma pop_costs q : costs (q_pop_n zero comp q) (2 * Nat.log2 (qsize q - 1)).
  Proof.
    unfold q_pop_n. case_decide; [apply costs_ok|]. apply costs_lift_bind. intros x _. apply costs_lift_bind. intros y _.
    rewrite <-(Nat.add_0_r (2 * _)). apply costs_cbind; [by apply down_costs|]. intros r n _. apply costs_lift_bind. intros; apply costs_ok.
  Qed.
End pq.

Section pq_follows.
  Context {T : Type} (zero : T) (comp comp' : T -> T -> Z).
  Lemma up_follows fuel : forall els pos, follows comp comp' (percolate_up_n comp fuel els pos) (percolate_up_n comp' fuel els pos).
  Proof. induction fuel as [|fuel IH]; intros els pos; [done|]. cbn [percolate_up_n]. follow IH. Qed.
  Lemma down_follows fuel : forall els i n, follows comp comp' (percolate_down_n comp fuel els i n) (percolate_down_n comp' fuel els i n).
  Proof. induction fuel as [|fuel IH]; intros els i n; [done|]. cbn [percolate_down_n]. follow IH. Qed.
  Lemma push_follows q v : follows comp comp' (q_push_n comp q v) (q_push_n comp' q v).
  Proof. unfold q_push_n. follow up_follows. Qed.
  Lemma pop_follows q : follows comp comp' (q_pop_n zero comp q) (q_pop_n zero comp' q).
  Proof. unfold q_pop_n. follow down_follows. Qed.
End pq_follows.
