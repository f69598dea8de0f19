From Verif Require Import Base Iter_Model Iter_Spec Split_Model.

Section split.
  Context {T : Type}.
  Implicit Types (s : list T).

  Lemma split_seq s p : (p <= 0)%Z ->
    drains (split_next s p) 0 [s] 1 /\ forall i, 0 < i -> split_next s p i = Ok (None, i).
  Proof.
    intros Hp. split.
    - exists 1. split.
      + econstructor; [|constructor]. unfold split_next. by rewrite !decide_True by done.
      + unfold split_next. rewrite decide_True by done. by rewrite decide_False.
    - intros i Hi. unfold split_next. rewrite decide_True by done. rewrite decide_False by lia. done.
  Qed.

  Lemma split_empty p : (0 < p)%Z -> split_next (@nil T) p 0 = Ok (None, 0).
  Proof. intros. unfold split_next. rewrite decide_False by lia. by rewrite decide_True by (simpl; lia). Qed.

  Lemma split_stuck s p : (0 < Z.of_nat (length s) < p)%Z -> split_next s p 0 = Ok (Some [], 0).
  Proof.
    intros Hp. unfold split_next, split_step. rewrite (decide_False (P:=(p <= 0)%Z)) by lia.
    rewrite (decide_False (P:=p = 0%Z)) by lia. rewrite Z.quot_small by lia. change (Z.to_nat 0) with 0.
    rewrite decide_False by lia. rewrite decide_False by lia. done.
  Qed.

  Definition nseg (n step : nat) : nat := (n + step - 1) / step.

  Lemma nseg_spec n step : 0 < step -> 
    nseg n step * step < n + step /\ n <= nseg n step * step.
  Proof.
    intros Hs. unfold nseg. pose proof (Nat.div_mod (n + step - 1) step ltac:(lia)) as E.
    pose proof (Nat.mod_upper_bound (n + step - 1) step ltac:(lia)). nia.
  Qed.

  Definition chunk s step i := take step (drop (i * step) s).

  Lemma concat_chunks s step k : concat ((chunk s step) <$> seq 0 k) = take (k * step) s.
  Proof.
    induction k as [|k IH]; [done|].
    rewrite seq_S, fmap_app, concat_app, IH. simpl. rewrite app_nil_r. unfold chunk.
    rewrite take_drop_commute. rewrite <- (take_drop (k * step) (take (step + k * step) s)).
    rewrite take_take. f_equal; f_equal; try lia. f_equal. lia.
  Qed.

  Lemma step_bounds n p : (1 <= p)%Z -> (p <= Z.of_nat n)%Z ->
    Z.to_nat (split_step n p) = n / Z.to_nat p /\ 0 < n / Z.to_nat p.
  Proof.
    intros Hp Hn. unfold split_step. rewrite decide_False by lia.
    rewrite Z.quot_div_nonneg by lia.
    rewrite Z2Nat.inj_div by lia. rewrite Nat2Z.id. split; [done|].
    apply Nat.div_str_pos. lia.
  Qed.

  Lemma split_pull s p i : (1 <= p)%Z -> (p <= Z.of_nat (length s))%Z ->
    let step := length s / Z.to_nat p in
    i < nseg (length s) step ->
    split_next s p (i * step) = Ok (Some (chunk s step i), S i * step).
  Proof.
    intros Hp Hn step Hi. destruct (step_bounds (length s) p Hp Hn) as [Es Hs].
    fold step in Es, Hs. pose proof (nseg_spec (length s) step Hs) as Hk.
    unfold split_next. rewrite Es. rewrite decide_False by lia.
    rewrite decide_False by nia. case_decide as Hlast.
    - f_equal. f_equal; [|lia]. f_equal. unfold chunk. rewrite take_ge; [done|]. rewrite drop_length. lia.
    - f_equal. f_equal. lia.
  Qed.

  Lemma split_drains s p : (1 <= p)%Z -> (p <= Z.of_nat (length s))%Z ->
    let step := length s / Z.to_nat p in
    let k := nseg (length s) step in
    drains (split_next s p) 0 (chunk s step <$> seq 0 k) (k * step) /\
    split_next s p (k * step) = Ok (None, k * step).
  Proof.
    intros Hp Hn step k. destruct (step_bounds (length s) p Hp Hn) as [Es Hs]. fold step in Es, Hs.
    pose proof (nseg_spec (length s) step Hs) as Hk. fold k in Hk.
    assert (Hend : split_next s p (k * step) = Ok (None, k * step)).
    { unfold split_next. rewrite decide_False by lia. rewrite decide_True by lia. done. }
    split; [|done]. exists (k * step). split; [|done].
    assert (G : forall j i, i + j = k -> pulls (split_next s p) (i * step) (chunk s step <$> seq i j) (k * step)).
    { induction j as [|j IH]; intros i E.
      - replace i with k by lia. constructor.
      - cbn [seq fmap list_fmap]. econstructor; [by apply split_pull; fold step; lia|]. apply IH. lia. }
    apply (G k 0). lia.
  Qed.

  (* the property, in one statement *)
  Lemma split_partitions s p : (1 <= p)%Z -> (p <= Z.of_nat (length s))%Z ->
    let step := length s / Z.to_nat p in
    exists segs fin,
      drains (split_next s p) 0 segs fin /\ split_next s p fin = Ok (None, fin) /\
      concat segs = s /\
      length segs = (length s + step - 1) / step /\
      (forall i seg, segs !! i = Some seg -> i + 1 < length segs -> length seg = step) /\
      (forall seg, last segs = Some seg -> 1 <= length seg <= step) /\
      (length segs = Z.to_nat p <-> (p | Z.of_nat (length s))%Z) /\
      (Z.to_nat p <= length segs).
  Proof.
    intros Hp Hn step. destruct (step_bounds (length s) p Hp Hn) as [Es Hs]. fold step in Es, Hs.
    destruct (split_drains s p Hp Hn) as [Hd He]. fold step in Hd, He.
    set (k := nseg (length s) step) in *.
    pose proof (nseg_spec (length s) step Hs) as Hk. fold k in Hk.
    exists (chunk s step <$> seq 0 k), (k * step).
    assert (Hlen : length (chunk s step <$> seq 0 k) = k) by (by rewrite fmap_length, seq_length).
    assert (Hdm : length s = step * Z.to_nat p + length s mod Z.to_nat p).
    { unfold step. rewrite (Nat.mul_comm). apply Nat.div_mod. lia. }
    assert (Hmb : length s mod Z.to_nat p < Z.to_nat p) by (apply Nat.mod_upper_bound; lia).
    splits.
    - done.
    - done.
    - rewrite concat_chunks. rewrite take_ge; [done|]. lia.
    - by rewrite Hlen.
    - intros i seg Hi Hlt. rewrite Hlen in Hlt.
      rewrite list_lookup_fmap, lookup_seq_lt in Hi by lia. simpl in Hi. injection Hi as <-.
      unfold chunk. rewrite take_length, drop_length. nia.
    - intros seg Hlast. destruct k as [|k'] eqn:Ek; [done|].
      rewrite seq_S, fmap_app in Hlast. simpl in Hlast. rewrite last_snoc in Hlast. injection Hlast as <-.
      unfold chunk. rewrite take_length, drop_length. nia.
    - rewrite Hlen. split.
      + intros E. exists (Z.of_nat step). nia.
      + intros [q Hq]. assert (length s mod Z.to_nat p = 0) as Hm0.
        { apply Nat.mod_divide; [lia|]. exists (Z.to_nat q). nia. }
        rewrite Hm0 in Hdm. nia.
    - rewrite Hlen. nia.
  Qed.
End split.
