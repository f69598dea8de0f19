(** Proofs for C81, the priority queue. *)
From Verif Require Import Base PQ_Model PanicComp_Model Nil_Spec.

Section pq.
  Context {T : Type} (zero : T) (comp : T -> T -> Z).
  Implicit Types (q : queue T) (l : list T).

  (** the queue holds exactly [l], in this order *)
  Definition lists q l : Prop := exists r, PQ_Model.elements q = l ++ r /\ qsize q = length l.

  Lemma push_nil q l v : lists q l ->
    exists q', lists q' (l ++ [v]) /\
      q_push_c comp q v 0 = match l with [] => Done (true, q') 0 | _ => Crash q' end.
  Proof.
    intros (r & E & Es). unfold q_push_c. rewrite E, Es. set (els := if decide _ then _ else _).
    assert (Hels : exists r', els = l ++ v :: r').
    { unfold els. destruct r as [|x r].
      - rewrite decide_True by (rewrite app_length; cbn; lia). exists []. by rewrite app_nil_r.
      - rewrite decide_False by (rewrite app_length; cbn; lia). exists r. rewrite insert_app_r_alt by lia. by rewrite Nat.sub_diag. }
    destruct Hels as [r' ->]. destruct l as [|x l].
    - exists (Queue (v :: r') 1). split; [by exists r'|]. done.
    - exists (Queue ((x :: l) ++ v :: r') (length (x :: l) + 1)). split.
      { exists r'. cbn. split; [by rewrite <- app_assoc|]. rewrite app_length. cbn. lia. }
      unfold cbnd at 1, seen_as. replace (length (x :: l) + 1 - 1) with (length (x :: l)) by lia.
      cbn [percolate_up_c]. rewrite decide_False.
      2:{ cbn [length]. pose proof (Nat.div_le_upper_bound (S (length l) - 1) 2 (length l) ltac:(lia) ltac:(lia)). lia. }
      assert (H1 : ((x :: l) ++ v :: r') !! length (x :: l) = Some v) by (rewrite lookup_app_r by lia; by rewrite Nat.sub_diag).
      assert (H2 : is_Some (((x :: l) ++ v :: r') !! ((length (x :: l) - 1) / 2))).
      { apply lookup_lt_is_Some. rewrite app_length. cbn [length].
        pose proof (Nat.div_le_upper_bound (S (length l) - 1) 2 (length l) ltac:(lia) ltac:(lia)). lia. }
      destruct H2 as [y H2]. rewrite H1, H2. done.
  Qed.
  Lemma pop_nil q l : lists q l ->
    exists q', lists q' (nil_queue zero l Pop).2 /\
      q_pop_c zero comp q 0 = match (nil_queue zero l Pop).1 with Some (OVal v b) => Done (v, b, q') 0 | _ => Crash q' end.
  Proof.
    intros (r & E & Es). unfold q_pop_c. rewrite E, Es. destruct l as [|x l]; [exists q; split; [by exists r|done]|].
    destruct l as [|y l]; [exists (Queue (x :: r) 0); split; [by exists (x :: r)|done]|].
    destruct l as [|z l]; [exists (Queue (y :: x :: r) 1); split; [by exists (x :: r)|done]|].
    destruct (exists_last (l := z :: l) ltac:(done)) as (l' & w & El). rewrite El.
    exists (Queue (w :: y :: l' ++ [x] ++ r) (length (x :: y :: l' ++ [w]))).
    assert (En : nil_queue zero (x :: y :: l' ++ [w]) Pop = (None, w :: y :: l' ++ [x])).
    { assert (E1 : nil_queue zero (x :: y :: l' ++ [w]) Pop = (None, ends_exchanged (x :: y :: l' ++ [w]))).
      { destruct (l' ++ [w]) eqn:Ea; [by apply app_nil in Ea as [_ ?]|done]. }
      rewrite E1. unfold ends_exchanged. change (y :: l' ++ [w]) with ((y :: l') ++ [w]).
      rewrite last_snoc. rewrite (removelast_app (y :: l') (l' := [w])) by done. cbn [removelast]. by rewrite app_nil_r. }
    rewrite En. cbn [fst snd]. split.
    { exists r. cbn. split; [by rewrite <- app_assoc|]. by rewrite !app_length. }
    rewrite decide_False by done. set (n := length (x :: y :: l' ++ [w]) - 1).
    assert (Hn : n = S (S (length l'))) by (unfold n; cbn; rewrite app_length; cbn; lia).
    assert (L0 : ((x :: y :: l' ++ [w]) ++ r) !! n = Some w).
    { rewrite Hn. change (((l' ++ [w]) ++ r) !! length l' = Some w). rewrite <- app_assoc, lookup_app_r by lia. by rewrite Nat.sub_diag. }
    rewrite L0. unfold cbnd at 1. cbn [cl deref]. unfold cbnd at 1. cbn [lookup list_lookup app cl deref].
    assert (Hels : <[n:=x]> (<[0:=w]> (x :: y :: (l' ++ [w]) ++ r)) = w :: y :: l' ++ [x] ++ r).
    { rewrite Hn. change (w :: y :: <[length l' := x]> ((l' ++ [w]) ++ r) = w :: y :: l' ++ [x] ++ r). f_equal. f_equal. rewrite <- app_assoc. rewrite insert_app_r_alt by lia. by rewrite Nat.sub_diag. }
    rewrite Hels. unfold cbnd at 1, seen_as. cbn [percolate_down_c]. rewrite decide_False by lia. unfold cbnd at 1.
    clearbody n.
    destruct l' as [|a l'].
    - cbn in Hn. rewrite decide_False by lia. cbn. done.
    - cbn in Hn. rewrite decide_True by lia. done.
  Qed.
  Lemma run_nil os : forall q l, lists q l ->
    exists q', q_run_c zero comp q (unanswered os) = Ok ((nil_run (nil_queue zero) l os).1, q') /\
      lists q' (nil_run (nil_queue zero) l os).2.
  Proof.
    induction os as [|o os IH]; intros q l H; [by exists q|]. cbn [nil_run]. unfold unanswered. cbn [fmap list_fmap q_run_c].
    assert (HS : exists q', lists q' (nil_queue zero l o).2 /\
      q_step_c zero comp q o 0 = match (nil_queue zero l o).1 with Some r => Done (r, q') 0 | None => Crash q' end).
    { destruct o as [v| | |]; cbn [q_step_c].
      - destruct (push_nil q l v H) as (q' & H' & E). exists q'. unfold cbnd. rewrite E. split; [by destruct l|]. by destruct l.
      - destruct (pop_nil q l H) as (q' & H' & E). exists q'. split; [done|]. unfold cbnd. rewrite E.
        destruct l as [|x [|y [|z l]]]; done.
      - exists q. destruct H as (r & E & Es). unfold q_peek. unfold cbnd, cl. rewrite E, Es.
        destruct l as [|x l]; split; try done; exists r; done.
      - exists q. destruct H as (r & E & Es). split; [exists r; by destruct l|]. unfold q_len. rewrite Es. by destruct l. }
    destruct HS as (q1 & H1 & ES). destruct (nil_queue zero l o) as [r l1] eqn:EN. cbn [fst snd] in *.
    destruct (IH q1 l1 H1) as (q2 & E & H2). exists q2. destruct (nil_run (nil_queue zero) l1 os). cbn [fst snd] in *.
    split; [|done]. rewrite ES. unfold unanswered in E. destruct r; cbn [fst snd]; rewrite E; done.
  Qed.
End pq.
