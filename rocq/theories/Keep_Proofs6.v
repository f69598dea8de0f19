(** C80: what Delete on slices leaves behind. *)
From Verif Require Import Base Slice_Model Slice_Spec Slice_Proofs.

Section d.
  Context {T : Type} (zero : T) (growcap : nat -> nat -> nat).
  Lemma delete_tail (m : mem T) (s : slice) (i j : Z) : wf m s -> (0 <= i <= j /\ j <= Z.of_nat (len s))%Z ->
    exists s' m', delete zero growcap m s i j = Ok (s', m') /\ arr s' = arr s /\ off s' = off s /\ cap s' = cap s /\
      len s' + Z.to_nat (j - i) = len s /\ wf m' s /\
      contents m' s = (take (Z.to_nat i) (contents m s) ++ drop (Z.to_nat j) (contents m s)) ++ drop (len s') (contents m s).
  Proof.
    intros Hs Hi. pose proof (proj1 Hs) as Hlc. unfold delete, sub_to, sub_from.
    rewrite (sub_ok s i j) by lia. cbn [rbind].
    rewrite (sub_ok s 0 i) by lia. cbn [rbind].
    rewrite (sub_ok s j) by lia. cbn [rbind].
    set (b := Sl _ _ (Z.to_nat (Z.of_nat (len s) - j)) _).
    assert (Hb : wf m b).
    { destruct Hs as [_ Hx]. split; [simpl; lia|]. simpl. destruct (arr s); [|lia].
      destruct Hx as (c & ? & ?). exists c. split; [done|lia]. }
    assert (Eb : contents m b = drop (Z.to_nat j) (contents m s)).
    { rewrite (contents_sub m s b (Z.to_nat j)) by (simpl; done || lia). simpl.
      rewrite (contents_win m s) by done. rewrite skipn_firstn_comm. f_equal. lia. }
    pose proof (contents_length m s Hs) as Hls.
    unfold append. cbn [len cap arr off]. rewrite decide_True by (simpl; lia).
    replace (off s + Z.to_nat 0 + Z.to_nat (i - 0)) with (off s + Z.to_nat i) by lia.
    rewrite Eb. rewrite write_at_upd by (done || (rewrite drop_length; lia)).
    set (w' := _ ++ _). assert (Hw : length w' = cap s).
    { unfold w'. rewrite !app_length, take_length, !drop_length, win_length by done. lia. }
    eexists _, _. split; [done|]. cbn [len cap arr off b]. split; [done|]. split; [lia|]. split; [lia|]. split; [lia|].
    split; [by apply upd_wf|]. rewrite contents_win by (by apply upd_wf). rewrite win_upd by done. unfold w'.
    rewrite drop_length, Hls. replace (Z.to_nat (i - 0) + Z.to_nat (Z.of_nat (len s) - j)) with (Z.to_nat i + (len s - Z.to_nat j)) by lia.
    assert (Hwl := win_length m s Hs). rewrite !(contents_win m s) by done.
    rewrite !firstn_app, take_take, ?take_length, !drop_length, !take_length, Hwl. 
    rewrite <- (app_assoc (take (Z.to_nat i) _)), take_take. f_equal; [f_equal; lia|]. f_equal.
    - apply take_ge. rewrite drop_length, take_length. lia.
    - rewrite skipn_firstn_comm. f_equal. lia.
  Qed.
End d.
