(** Nodes the caller owns keep their contents. *)
From Verif Require Import Base RBTree_Model RBTree_Spec RBTree_Proofs7 RBTree_Proofs8 RBTree_Proofs9 RBTree_Proofs10 RBTree_Proofs11 RBTree_Props RBTreeKV_Proofs.

Section owned.
  Context {K V : Type} (kzero : K) (vzero : V) (comp : K -> K -> Z).
  Notation heap := (nat -> node K V).
  Implicit Types (h : heap) (t : tree K V).
  Notation inv := (inv kzero comp).
  Notation reach := (reach kzero vzero comp).

  Lemma link_kv x h0 fuel h par n : same_kv x h0 h -> keeps id x h0 (link fuel h par n).
  Proof.
    intros S. unfold link. repeat first [kv1 | apply put_rebalanced_kv; eassumption].
  Qed.
  Lemma remove_node_kv fuel t l r t' : remove_node comp fuel t l = Ok (r, t') -> same_kv (Some l) (hp t) (hp t').
  Proof.
    unfold remove_node. pose proof (remove_kv comp fuel (hp t) l) as R. destruct (remove comp fuel (hp t) l) as [[r0 h]| |]; [|done|done].
    specialize (R _ eq_refl). cbn [snd rbind] in *. intros [= <- <-]. cbn. case_decide; [|done].
    apply same_upd; [done|right; done].
  Qed.
  Lemma search_linked fuel h k : forall p l, search comp fuel h k p = Ok (Some l) -> (forall q, p = Some q -> linked h q) -> linked h l.
  Proof.
    induction fuel as [|f IH]; intros [q|] l E L; try done. cbn [search] in E. specialize (L q eq_refl).
    case_decide; [eapply IH; [exact E|intros q' Hq'; by eapply linked_left]|]. case_decide; [eapply IH; [exact E|intros q' Hq'; by eapply linked_right]|].
    by injection E as <-.
  Qed.
  Lemma find_linked fuel t k l : find comp fuel t k = Ok (Some l) -> linked (hp t) l.
  Proof. intros E. eapply search_linked; [exact E|]. intros q Hq. by constructor. Qed.
  Lemma descend_linked fuel h k : forall par p l, descend comp fuel h k par p = Ok (inl l) -> (forall q, p = Some q -> linked h q) -> linked h l.
  Proof.
    induction fuel as [|f IH]; intros par [q|] l E L; try done. cbn [descend] in E. specialize (L q eq_refl).
    case_decide; [eapply IH; [exact E|intros q' Hq'; by eapply linked_left]|]. case_decide; [eapply IH; [exact E|intros q' Hq'; by eapply linked_right]|].
    by injection E as <-.
  Qed.
  Lemma not_linked own t n : reach own t -> n ∈ own -> ~ linked (hp t) n.
  Proof. intros R Hn L. destruct (C39_pool_disjoint _ _ _ _ _ _ _ R) as (ls & _ & _ & _ & G). by destruct (G n L) as (_ & G' & _). Qed.
  Lemma same_entry x t t' n : same_kv x (hp t) (hp t') -> Some n <> x -> entry t' n = entry t n.
  Proof. intros S N. unfold entry. by destruct (S n N) as [-> ->]. Qed.
  Lemma free_kv t l : same_kv None (hp t) (hp (free t l)).
  Proof. unfold free. case_decide; [apply same_refl|]. apply same_upd; [apply same_refl|by right]. Qed.
  Lemma alloc_hp t n t1 : alloc t = Ok (n, t1) -> hp t1 = hp t.
  Proof. unfold alloc, alloc_slice, fill. repeat case_decide; try done; [by intros [= <- <-]..|]. destruct (flist (buf t)); [|done]. by intros [= <- <-]. Qed.

  Lemma delete_entry own t n fuel k o t' : reach own t -> n ∈ own -> delete comp fuel t k = Ok (o, t') -> entry t' n = entry t n.
  Proof.
    intros R Hn E. unfold delete in E. destruct (find comp fuel t k) as [[l|]| |] eqn:EF; [|by injection E as <- <-|done|done]. cbn [rbind] in E.
    destruct (remove_node comp fuel t l) as [[r t2]| |] eqn:ER; [|done|done]. cbn [rbind] in E. injection E as <- <-.
    apply remove_node_kv in ER. eapply same_entry; [exact ER|]. intros [= ->]. by apply (not_linked own t l R), (find_linked fuel t k).
  Qed.
  Lemma delete_keys_entry own n fuel : forall ks t z t', reach own t -> n ∈ own -> delete_keys comp fuel t ks = Ok (z, t') -> entry t' n = entry t n.
  Proof.
    induction ks as [|k ks IH]; intros t z t' R Hn E; cbn [delete_keys] in E; [by injection E as <- <-|].
    destruct (delete comp fuel t k) as [[o t1]| |] eqn:ED; [|done|done]. cbn [rbind] in E.
    pose proof (delete_entry own t n fuel k o t1 R Hn ED) as E1.
    set (t2 := match o with Some l => free t1 l | None => t1 end) in *.
    assert (E2 : entry t2 n = entry t1 n). { unfold t2. destruct o as [l|]; [|done]. eapply same_entry; [apply free_kv|done]. }
    assert (R2 : reach own t2).
    { assert (Es : step vzero comp fuel t (ODeleteKeys [k]) = Ok (RInt (match o with Some _ => 0 + 1 | None => 0 end)%Z, t2)).
      { cbn [step delete_keys]. rewrite ED. cbn [rbind]. unfold t2. by destruct o. }
      exact (reach_step kzero vzero comp own t fuel (ODeleteKeys [k]) _ t2 R Logic.I Es). }
    destruct (delete_keys comp fuel t2 ks) as [[c t3]| |] eqn:EK; [|done|done]. cbn [rbind] in E. injection E as _ <-.
    by rewrite (IH t2 c t3 R2 Hn EK), E2.
  Qed.

  Lemma owned_entry own t n fuel o r t' : reach own t -> n ∈ own -> (forall k v, o <> OSetNode n k v) -> step vzero comp fuel t o = Ok (r, t') -> entry t' n = entry t n.
  Proof.
    intros R Hn No E. pose proof (not_linked own t n R Hn) as NL. destruct (reach_inv kzero vzero comp own t R) as [bt I]. pose proof (i_pool _ _ _ _ I) as P.
    destruct o as [k v|m|k v|m k v|k|k| |k|ks|k v vc|]; cbn [step] in E.
    - destruct (put comp fuel t k v) as [[b t1]| |] eqn:Ep; [|done|done]. cbn [rbind] in E. injection E as _ <-. unfold put in Ep.
      destruct (descend comp fuel (hp t) k None (parent (hp t 0))) as [[l|par]| |] eqn:Ed; [| |done|done]; cbn [rbind] in Ep.
      + injection Ep as _ <-. apply (same_entry (Some l)); [cbn; apply same_upd; [apply same_refl|by left]|]. intros [= ->].
        apply NL. eapply descend_linked; [exact Ed|]. intros q Hq. by constructor.
      + destruct (alloc_ok kzero comp _ _ P) as (a & t2 & Ea & Eh & _ & P2). rewrite Ea in Ep. cbn [rbind wr] in Ep.
        destruct (link fuel _ par a) as [h| |] eqn:El; [|done|done]. cbn [rbind] in Ep. injection Ep as _ <-.
        apply (same_entry (Some a)).
        * cbn. eapply link_kv; [|exact El]. rewrite Eh. apply same_upd; [apply same_upd; [apply same_refl|by left]|by left].
        * intros [= ->]. apply (pool_nodup kzero comp) in P2. apply NoDup_cons in P2 as [_ P2]. apply NoDup_cons in P2 as [P2 _]. set_solver.
    - destruct (put_node comp fuel t m) as [[b t1]| |] eqn:Ep; [|done|done]. cbn [rbind] in E. injection E as _ <-. unfold put_node in Ep.
      destruct (descend comp fuel (hp t) _ None (parent (hp t 0))) as [[l|par]| |] eqn:Ed; [| |done|done]; cbn [rbind] in Ep.
      + injection Ep as _ <-. apply (same_entry (Some l)); [cbn; apply same_upd; [apply same_refl|by left]|]. intros [= ->].
        apply NL. eapply descend_linked; [exact Ed|]. intros q Hq. by constructor.
      + destruct (link fuel _ par m) as [h| |] eqn:El; [|done|done]. cbn [rbind] in Ep. injection Ep as _ <-.
        apply (same_entry None); [|done]. cbn. eapply link_kv; [apply same_refl|exact El].
    - injection E as _ <-. apply (same_entry (Some (brk t))); [cbn; apply same_upd; [apply same_refl|by left]|]. intros [= ->].
      destruct P as (fl & _ & _ & _ & _ & _ & F). apply Forall_cons in F as [_ F]. rewrite Forall_app in F. destruct F as [F _].
      rewrite Forall_forall in F. specialize (F (brk t) ltac:(apply elem_of_app; by right)). lia.
    - injection E as _ <-. apply (same_entry (Some m)); [cbn; apply same_upd; [apply same_refl|by left]|]. intros [= ->]. by destruct (No k v).
    - destruct (get vzero comp fuel t k); [|done|done]. by injection E as _ <-.
    - destruct (has comp fuel t k); [|done|done]. by injection E as _ <-.
    - by injection E as _ <-.
    - destruct (delete comp fuel t k) as [[o t1]| |] eqn:ED; [|done|done]. injection E as _ <-. by eapply delete_entry.
    - destruct (delete_keys comp fuel t ks) as [[z t1]| |] eqn:ED; [|done|done]. injection E as _ <-. by eapply delete_keys_entry.
    - unfold delete_whole in E. destruct (find comp fuel t k) as [[l|]| |] eqn:EF; [|by injection E as _ <-|done|done]. cbn [rbind] in E.
      case_decide; [|by injection E as _ <-]. destruct (remove_node comp fuel t l) as [[r0 t2]| |] eqn:ER; [|done|done]. cbn [rbind] in E. injection E as _ <-.
      apply remove_node_kv in ER. apply (same_entry (Some l)); [eapply same_trans; [exact ER|]|].
      { intros j _. apply (free_kv t2 r0). done. }
      intros [= ->]. by apply NL, (find_linked fuel t k).
    - injection E as _ <-. apply (same_entry None); [|done]. cbn. apply same_upd; [apply same_refl|by right].
  Qed.
End owned.
