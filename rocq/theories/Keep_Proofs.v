From stdpp Require Import functions.
From Verif Require Import Base PQ_Model Keep_Spec.

(** * The priority queue, for any comparator *)
Section pq.
  Context {T : Type} (zero : T) (comp : T -> T -> Z).
  Implicit Types (els : list T) (q : queue T).

  Lemma up_any n fuel : forall els pos, pos < fuel -> pos < n -> n <= length els ->
    exists els', percolate_up comp fuel els pos = Ok els' /\ length els' = length els /\ drop n els' = drop n els.
  Proof.
    induction fuel as [|fuel IH]; intros els pos Hf Hp Hl; [lia|]. cbn [percolate_up].
    destruct (decide _) as [E|E]; [by exists els|].
    assert (Hi : (pos - 1) / 2 <= pos) by (apply Nat.div_le_upper_bound; lia).
    destruct (lookup_lt_is_Some_2 els pos) as [x Hx]; [lia|].
    destruct (lookup_lt_is_Some_2 els ((pos - 1) / 2)) as [y Hy]; [lia|].
    rewrite Hx, Hy. cbn [deref rbind]. destruct (_ <=? _)%Z; [by exists els|].
    destruct (IH (<[pos:=y]> (<[(pos - 1) / 2:=x]> els)) ((pos - 1) / 2)) as (els' & R & L & D); [lia|lia|by rewrite !insert_length|].
    exists els'. rewrite R, L, D, !insert_length, !drop_insert_gt by lia. done.
  Qed.
  Lemma down_any n fuel : forall els i, n < fuel + i -> (i < n \/ i = 0) -> n <= length els ->
    exists r, percolate_down comp fuel els i n = Ok r /\ length r.1 = length els /\ drop n r.1 = drop n els.
  Proof.
    induction fuel as [|fuel IH]; intros els i Hf Hi Hl; [lia|]. cbn [percolate_down].
    destruct (decide _) as [E|E]; [by eexists|].
    destruct (lookup_lt_is_Some_2 els (2 * i + 1)) as [b Hb]; [lia|].
    destruct (lookup_lt_is_Some_2 els i) as [y Hy]; [lia|].
    assert (exists j, (if decide (2 * i + 1 + 1 < n)
        then let! a := deref (els !! (2 * i + 1 + 1)) in let! b := deref (els !! (2 * i + 1)) in
             Ok (if (comp a b <? 0)%Z then 2 * i + 1 + 1 else 2 * i + 1)
        else Ok (2 * i + 1)) = Ok j /\ i < j < n) as (j & Ej & Hj).
    { case_decide; [|eexists; split; [done|lia]].
      destruct (lookup_lt_is_Some_2 els (2 * i + 1 + 1)) as [a Ha]; [lia|]. rewrite Ha, Hb. cbn [deref rbind].
      eexists. split; [done|]. destruct (_ <? _)%Z; lia. }
    cbv zeta. rewrite Ej. cbn [rbind]. destruct (lookup_lt_is_Some_2 els j) as [x Hx]; [lia|].
    rewrite Hx, Hy. cbn [deref rbind]. destruct (_ <=? _)%Z; [by eexists|].
    destruct (IH (<[j:=y]> (<[i:=x]> els)) j) as (r & R & L & D); [lia|lia|by rewrite !insert_length|].
    exists r. rewrite R, L, D, !insert_length, !drop_insert_gt by lia. done.
  Qed.

  (** the slice never gets shorter than the number of elements *)
  Definition roomy q : Prop := qsize q <= length (elements q).
  Lemma push_any q v : roomy q -> exists q', q_push comp q v = Ok (true, q') /\ roomy q' /\
    drop (qsize q') (elements q') = tail (drop (qsize q) (elements q)).
  Proof.
    intros Hr. unfold q_push, roomy in *.
    set (els := if decide _ then _ else _).
    assert (Hl : qsize q + 1 <= length els).
    { unfold els. case_decide; rewrite ?app_length, ?insert_length; cbn; lia. }
    destruct (up_any (qsize q + 1) (S (qsize q + 1)) els (qsize q + 1 - 1)) as (els' & -> & L & D); [lia..|].
    cbn [rbind]. eexists. split; [done|]. cbn. split; [lia|]. rewrite D. unfold els. case_decide.
    - rewrite !drop_ge by (rewrite ?app_length; cbn; lia). done.
    - rewrite drop_insert_gt by lia. destruct (drop (qsize q) (elements q)) as [|x s] eqn:E.
      + apply (f_equal length) in E. rewrite drop_length in E. cbn in E. lia.
      + rewrite <- drop_drop, E. done.
  Qed.
  Lemma pop_any q : roomy q -> 0 < qsize q -> exists v q', q_pop zero comp q = Ok (v, true, q') /\ roomy q' /\
    drop (qsize q') (elements q') = v :: drop (qsize q) (elements q).
  Proof.
    intros Hr Hn. unfold q_pop, roomy in *. rewrite decide_False by lia.
    destruct (lookup_lt_is_Some_2 (elements q) (qsize q - 1)) as [a Ha]; [lia|].
    destruct (lookup_lt_is_Some_2 (elements q) 0) as [b Hb]; [lia|].
    cbv zeta. rewrite Ha, Hb. cbn [deref rbind].
    set (els := <[_:=b]> _).
    assert (Le : length els = length (elements q)) by (unfold els; by rewrite !insert_length).
    destruct (down_any (qsize q - 1) (S (qsize q - 1)) els 0) as (r & -> & L & D); [lia|lia|lia|].
    assert (E : els !! (qsize q - 1) = Some b) by (unfold els; apply list_lookup_insert; rewrite insert_length; lia).
    assert (Er : r.1 !! (qsize q - 1) = Some b).
    { rewrite <- E. rewrite <- (Nat.add_0_r (qsize q - 1)), <- !lookup_drop. by rewrite D. }
    cbn [rbind]. rewrite Er. cbn [deref rbind]. eexists _, _. split; [done|]. cbn. split; [lia|]. rewrite D.
    rewrite (drop_S _ _ _ E). f_equal. unfold els. rewrite !drop_insert_gt by lia. f_equal. lia.
  Qed.
  Lemma pop_none q : qsize q = 0 -> q_pop zero comp q = Ok (zero, false, q).
  Proof. intros E. unfold q_pop. by rewrite decide_True. Qed.

  Lemma run_left os : forall q, roomy q -> exists rs q', q_run zero comp q os = Ok (rs, q') /\ roomy q' /\
    drop (qsize q') (elements q') = left_behind (drop (qsize q) (elements q)) os rs.
  Proof.
    induction os as [|o os IH]; intros q Hr; [by exists [], q|]. cbn [q_run].
    destruct o as [v| | |]; cbn [q_step].
    - destruct (push_any q v Hr) as (q1 & -> & R1 & D1). cbn [rbind fst snd].
      destruct (IH q1 R1) as (rs & q' & -> & R' & D'). cbn [rbind]. eexists _, _. split; [done|]. split; [done|].
      cbn. by rewrite D', D1.
    - destruct (decide (qsize q = 0)) as [Z|Z].
      + rewrite pop_none by done. cbn [rbind fst snd].
        destruct (IH q Hr) as (rs & q' & -> & R' & D'). cbn [rbind]. eexists _, _. by split.
      + destruct (pop_any q Hr) as (v & q1 & -> & R1 & D1); [lia|]. cbn [rbind fst snd].
        destruct (IH q1 R1) as (rs & q' & -> & R' & D'). cbn [rbind]. eexists _, _. split; [done|]. split; [done|].
        cbn. by rewrite D', D1.
    - assert (exists v b, q_peek zero q = Ok (v, b)) as (v & b & ->).
      { unfold q_peek. unfold roomy in Hr. case_decide; [|by eexists _, _].
        destruct (lookup_lt_is_Some_2 (elements q) 0) as [x ->]; [lia|]. by eexists _, _. }
      cbn [rbind fst snd]. destruct (IH q Hr) as (rs & q' & -> & R' & D'). cbn [rbind]. eexists _, _. split; [done|]. split; [done|].
      done.
    - cbn [rbind fst snd]. destruct (IH q Hr) as (rs & q' & -> & R' & D'). cbn [rbind]. eexists _, _. by split.
  Qed.
End pq.
