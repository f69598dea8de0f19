(** Lock-free skip list: reachable states, linearizability. *)
From stdpp Require Import functions.
From stdpp Require Import list.
From Verif Require Import Base Lin_Spec Lin_Proofs Lin_Hindsight LockFree_Model LockFree_Spec LockFree_Proofs LockFree_Proofs2 LockFree_Proofs3 LockFree_Proofs4 LockFree_Proofs5.

Section lf.
  Context {T : Type} (zero : T) (comp : T -> T -> Z) (H : cmp_ok comp).
  Notation HI := (HI comp).
  Notation RI := (RI zero comp).
  Notation R := (R zero comp).
  Notation legal := (set_legal zero comp).
  Notation step := (step comp).

  Lemma new_lk i l x : lk (heap (new_list zero)) i l = Some x -> l < max_level /\ ((i = 0 /\ x = (Some 1, false)) \/ (i = 1 /\ x = (None, false))).
  Proof.
    unfold lk. destruct i as [|[|i]]; [| |done]; change (heap (new_list zero) !! _) with (Some (Node (T := T) max_level (replicate max_level (Some 1, false)) zero)) ||
      change (heap (new_list zero) !! _) with (Some (Node (T := T) max_level (replicate max_level (None, false)) zero)); cbn [mbind option_bind nexts]; intros E;
      apply lookup_replicate in E as [-> ?]; tauto.
  Qed.
  Lemma new_HI : HI (heap (new_list zero)) (fun i => i < 2) [1].
  Proof.
    constructor; try done; try lia.
    - intros [|[|i]] n E; [| |done]; injection E as <-; (split; [done|]); cbn [level]; unfold max_level; lia.
    - intros l x E. apply new_lk in E. naive_solver.
    - intros l x E. apply new_lk in E. naive_solver.
    - intros i l x P N E. apply new_lk in E as [L [[-> ->]|[-> _]]]; [|done]. exists 1. splits; try done; [lia|]. by left.
    - intros i l l' x y P E. apply new_lk in E as [_ [[_ [=]]|[_ [=]]]].
    - split; [|done]. by exists false.
    - intros i Hi. apply elem_of_list_singleton in Hi as ->. lia.
    - intros i Hi _. destruct i as [|[|i]]; [left|right; left|lia].
  Qed.
  Lemma init_R n : R (sys_init zero n) [] (fun _ => Idle) (fun _ => []).
  Proof.
    exists (fun i => i < 2), [1]. constructor; try done.
    - apply new_HI.
    - intros t p E. apply lookup_replicate in E as [-> _]. done.
    - intros t1 t2 v1 v2 k a1 b1 a2 b2 E. apply lookup_replicate in E as [[=] _].
    - cbn [shared sys_init pcs size new_list length]. assert (total (replicate n (Quiet (T := T))) = 0%Z) as -> by (induction n; [done|]; done). done.
  Qed.
  Lemma start_TI h pub ch past o : HI h pub ch -> TI comp h pub past (Pending o) (start o).
  Proof.
    intros I. destruct o; cbn [start]; try done; (eapply find_start_ok; [done|done|apply no_nodes_arrays]).
  Qed.
  Lemma start_owed (o : op T) : owed (start o) = 0%Z.
  Proof. by destruct o. Qed.

  Lemma sim_step x e x' s ph past : R x s ph past -> step x e x' -> exists s' ph' past', haction legal s ph past e s' ph' past' /\ R x' s' ph' past'.
  Proof.
    intros (pub & ch & Rr) St. inversion St as [m ps t o Ep|m ps t p top m' p' Ep Hr Ht Es|m ps t r Ep]; subst; clear St; cbn [shared pcs] in Rr.
    - pose proof (r_pcs _ _ _ _ _ _ _ _ _ Rr _ _ Ep) as Hf. cbn in Hf. exists s, (<[t := Pending o]> ph), (<[t := [s]]> past). split; [by apply HCall|].
      exists pub, ch. eapply (R_step zero comp H _ _ _ _ _ _ _ t Quiet None); try done; try apply Rr.
      + intros u N. rewrite fn_lookup_insert_ne by done. eapply ext_refl, Rr.
      + intros u N. by rewrite fn_lookup_insert_ne.
      + rewrite !fn_lookup_insert. eapply start_TI, Rr.
      + intros v k a b E. by destruct o.
      + cbn [size shared pcs]. rewrite start_owed. cbn [owed]. rewrite (r_size _ _ _ _ _ _ _ _ _ Rr). f_equal. lia.
      + intros u o'. destruct (decide (u = t)) as [->|N]; [rewrite !fn_lookup_insert; left|]. rewrite !fn_lookup_insert_ne by done. apply Rr.
    - destruct (tstep_ok zero comp H _ _ _ _ _ _ _ t p top Rr Ep Hr Ht) as (m1 & p1 & s' & ph' & past' & E & Ha & Hr' & _). rewrite Es in E. injection E as <- <-. eauto.
    - destruct (r_pcs _ _ _ _ _ _ _ _ _ Rr _ _ Ep) as [o Hf]. exists s, (<[t := Idle]> ph), past. split; [by eapply HRet|].
      exists pub, ch. eapply (R_step zero comp H _ _ _ _ _ _ _ t (Ready r) None); try done; try apply Rr.
      + intros u N. eapply ext_refl, Rr.
      + intros u N. by rewrite fn_lookup_insert_ne.
      + rewrite fn_lookup_insert. done.
      + cbn [size shared pcs owed]. rewrite (r_size _ _ _ _ _ _ _ _ _ Rr). f_equal. lia.
      + intros u o'. destruct (decide (u = t)) as [->|N]; [by rewrite !fn_lookup_insert|]. rewrite !fn_lookup_insert_ne by done. apply Rr.
  Qed.
  Lemma reach n h x : exec step (sys_init zero n) h x -> exists ms s ph past, linearizes legal [] h ms s /\ R x s ph past.
  Proof. apply (hindsight_simulation legal step R _ [] _ (init_R n)). intros c e c' s ph past. apply sim_step. Qed.
  Lemma reach_no_panic n h x : exec step (sys_init zero n) h x -> ~ panics comp x.
  Proof.
    intros E. destruct (reach _ _ _ E) as (ms & s & ph & past & _ & (pub & ch & Rr)). intros (t & p & top & Ep & Hr & Ht & Es).
    destruct (tstep_ok zero comp H _ _ _ _ _ _ _ t p top Rr Ep Hr Ht) as (m1 & p1 & s' & ph' & past' & E' & _). rewrite Es in E'. done.
  Qed.
End lf.
