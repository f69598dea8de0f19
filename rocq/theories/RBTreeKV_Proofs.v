(** Which calls write keys and values of which nodes of a red-black tree. *)
From Verif Require Import Base RBTree_Model RBTree_Spec RBTree_Proofs7 RBTree_Proofs8 RBTree_Proofs9 RBTree_Proofs10 RBTree_Proofs11 RBTree_Props.

Section kv.
  Context {K V : Type} (kzero : K) (vzero : V) (comp : K -> K -> Z).
  Notation heap := (nat -> node K V).
  Implicit Types (h : heap) (t : tree K V).

  (** key and value of all nodes but [x] are those of before *)
  Definition same_kv (x : option nat) h h' : Prop := forall l, Some l <> x -> key (h' l) = key (h l) /\ val (h' l) = val (h l).
  Definition keeps {A} (pr : A -> heap) x h0 (m : res A) : Prop := forall y, m = Ok y -> same_kv x h0 (pr y).

  Lemma same_refl x h : same_kv x h h.
  Proof. by intros l. Qed.
  Lemma same_trans x h1 h2 h3 : same_kv x h1 h2 -> same_kv x h2 h3 -> same_kv x h1 h3.
  Proof. intros A B l Hl. destruct (A l Hl) as [<- <-]. by apply B. Qed.
  Lemma same_upd x h0 h (l : nat) n : same_kv x h0 h -> Some l = x \/ (key n = key (h l) /\ val n = val (h l)) -> same_kv x h0 (<[l := n]> h).
  Proof.
    intros A B j Hj. destruct (decide (l = j)) as [<-|N]; [|rewrite fn_lookup_insert_ne by done; by apply A].
    rewrite fn_lookup_insert. destruct B as [E|[-> ->]]; [by destruct Hj|by apply A].
  Qed.
  Lemma keeps_ok {A} (pr : A -> heap) x h0 y : same_kv x h0 (pr y) -> keeps pr x h0 (Ok y).
  Proof. by intros S z [= <-]. Qed.
  Lemma keeps_bind {A B} (pr : A -> heap) (pr' : B -> heap) x h0 (m : res A) k :
    keeps pr x h0 m -> (forall a, same_kv x h0 (pr a) -> keeps pr' x h0 (k a)) -> keeps pr' x h0 (rbind m k).
  Proof. intros M G z E. destruct m as [a| |]; [|done|done]. cbn in E. by apply (G a (M a eq_refl)). Qed.
  Lemma keeps_read {A B} (pr' : B -> heap) x h0 (m : res A) k : (forall a, keeps pr' x h0 (k a)) -> keeps pr' x h0 (rbind m k).
  Proof. intros G z E. destruct m as [a| |]; [|done|done]. by apply (G a). Qed.
  Lemma keeps_wr x h0 p f h : same_kv x h0 h -> (forall n, key (f n) = key n /\ val (f n) = val n) -> keeps id x h0 (wr p f h).
  Proof. intros S F y. destruct p as [l|]; [|done]. intros [= <-]. apply same_upd; [done|]. right. apply F. Qed.
  Lemma keeps_wr_x x h0 f h : same_kv (Some x) h0 h -> keeps id (Some x) h0 (wr (Some x) f h).
  Proof. intros S y [= <-]. apply same_upd; [done|by left]. Qed.
  Lemma keeps_trans {A} (pr : A -> heap) x h0 h (m : res A) : same_kv x h0 h -> keeps pr x h m -> keeps pr x h0 m.
  Proof. intros S M y E. eapply same_trans; [done|by apply M]. Qed.
End kv.
Ltac kv1 :=
  match goal with
  | |- keeps _ _ _ (Ok _) => apply keeps_ok; cbn; solve [eassumption | done]
  | |- keeps _ _ _ Panic => by intros ?
  | |- keeps _ _ _ Fuel => by intros ?
  | |- keeps _ _ _ (wr _ _ _) => apply keeps_wr; [eassumption|by intros ?]
  | |- keeps _ _ _ (rbind (rd _ _) _) => apply keeps_read; intros ?
  | |- keeps _ _ _ (rbind (deref _) _) => apply keeps_read; intros ?
  | |- keeps _ _ _ (rbind (next _ _ _) _) => apply keeps_read; intros ?
  | |- keeps _ _ _ (rbind (prev _ _ _) _) => apply keeps_read; intros ?
  | |- keeps _ _ _ (@rbind (nat -> node _ _) _ _ _) => apply (keeps_bind id); [|intros ? ?; cbn [id] in *]
  | |- keeps _ _ _ (@rbind ((nat -> node _ _) * _) _ _ _) => apply (keeps_bind fst); [|intros [? ?] ?; cbn [fst] in *]
  | |- keeps _ _ _ (if ?b then _ else _) => destruct b
  | |- keeps _ _ _ (match ?b with Some _ => _ | None => _ end) => destruct b
  end.
Section kv2.
  Context {K V : Type} (kzero : K) (vzero : V) (comp : K -> K -> Z).
  Notation heap := (nat -> node K V).
  Implicit Types (h : heap) (t : tree K V).
  Lemma left_rotate_kv x h0 h p : same_kv x h0 h -> keeps id x h0 (left_rotate h p).
  Proof. intros S. unfold left_rotate. repeat kv1. Qed.
  Lemma right_rotate_kv x h0 h p : same_kv x h0 h -> keeps id x h0 (right_rotate h p).
  Proof. intros S. unfold right_rotate. repeat kv1. Qed.
  Ltac kv := repeat first [kv1 | apply left_rotate_kv; eassumption | apply right_rotate_kv; eassumption].
  Lemma put_rebalanced_kv x h0 fuel : forall h nd, same_kv x h0 h -> keeps id x h0 (put_rebalanced fuel h nd).
  Proof.
    induction fuel as [|f IH]; intros h nd S; [by intros ?|]. cbn [put_rebalanced]. unfold put_done.
    repeat first [kv1 | apply left_rotate_kv; eassumption | apply right_rotate_kv; eassumption | apply IH; eassumption].
  Qed.
  Lemma del_left_kv x h0 loop h par bro : (forall h n q, same_kv x h0 h -> keeps id x h0 (loop h n q)) -> same_kv x h0 h -> keeps id x h0 (del_left loop h par bro).
  Proof.
    intros L S. unfold del_left.
    repeat first [kv1 | apply left_rotate_kv; eassumption | apply right_rotate_kv; eassumption | apply L; eassumption].
  Qed.
  Lemma del_right_kv x h0 loop h par bro : (forall h n q, same_kv x h0 h -> keeps id x h0 (loop h n q)) -> same_kv x h0 h -> keeps id x h0 (del_right loop h par bro).
  Proof.
    intros L S. unfold del_right.
    repeat first [kv1 | apply left_rotate_kv; eassumption | apply right_rotate_kv; eassumption | apply L; eassumption].
  Qed.
  Lemma delete_rebalanced_kv x h0 fuel : forall h nd par, same_kv x h0 h -> keeps id x h0 (delete_rebalanced fuel h nd par).
  Proof.
    induction fuel as [|f IH]; intros h nd par S; [by intros ?|]. cbn [delete_rebalanced].
    repeat first [kv1 | apply left_rotate_kv; eassumption | apply right_rotate_kv; eassumption | apply del_left_kv; [exact IH|eassumption] | apply del_right_kv; [exact IH|eassumption]].
  Qed.
  Lemma remove_kv fuel h nl : keeps snd (Some nl) h (remove comp fuel h nl).
  Proof.
    unfold remove. pose proof (same_refl (Some nl) h) as S0.
    repeat first [apply keeps_wr_x; eassumption | kv1 | apply delete_rebalanced_kv; eassumption | apply (keeps_read (A := option nat)); intros ?].
  Qed.
End kv2.
