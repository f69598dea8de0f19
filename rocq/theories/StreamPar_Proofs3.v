From Verif Require Import Base Iter_Model Iter_Spec Split_Model Split_Proofs StreamPar_Model StreamPar_Spec StreamPar_Proofs StreamPar_Proofs2.

(** * what parallel collection has delivered when it returns *)
Section returned.
  Context {T : Type} (segs : list (list T)) (c0 : Z).
  Notation N := (length (concat segs)).

  Lemma seg_sum (g : nat -> nat) : (forall j seg, segs !! j = Some seg -> g j = length seg) ->
    sum_list_with g (seq 0 (length segs)) = N.
  Proof. intros H. rewrite <- sum_concat. apply sum_seq. intros i x Hi. by apply H. Qed.

  Lemma plain_returned x : rtc (cstep Plain) (cinit segs c0) x -> cm x = CReturned ->
    (forall j seg, segs !! j = Some seg -> delivered j (clog x) = seg) /\
    Forall (fun e => e.1.1 < length segs) (clog x) /\ length (clog x) = N.
  Proof.
    intros Hr Hm. destruct (returned_facts _ _ _ _ Hr Hm) as (H1 & H2 & H3 & H4 & H5 & _).
    assert (Hd : forall j seg, segs !! j = Some seg -> delivered j (clog x) = seg).
    { intros j seg Hj. destruct (H3 _ _ Hj) as [_ H]. simpl in H. by rewrite app_nil_r in H. }
    splits; [done|done|]. rewrite (log_length segs _ H4). apply seg_sum. intros j seg Hj. by rewrite Hd with (seg := seg).
  Qed.
  Lemma enum_returned x : rtc (cstep Enum) (cinit segs c0) x -> cm x = CReturned ->
    (forall j seg, segs !! j = Some seg -> delivered j (clog x) = seg) /\
    Forall (fun e => e.1.1 < length segs) (clog x) /\
    keys (clog x) ≡ₚ seqZ (c0 + 1) (Z.of_nat N).
  Proof.
    intros Hr Hm. destruct (returned_facts _ _ _ _ Hr Hm) as (H1 & H2 & H3 & H4 & H5 & H6 & H7 & H8 & H9).
    assert (Hd : forall j seg, segs !! j = Some seg -> delivered j (clog x) = seg).
    { intros j seg Hj. destruct (H3 _ _ Hj) as [_ H]. simpl in H. by rewrite app_nil_r in H. }
    assert (HN : length (clog x) = N).
    { rewrite (log_length segs _ H4). apply seg_sum. intros j seg Hj. by rewrite Hd with (seg := seg). }
    splits; [done|done|]. destruct H6 as [Hk Hc]. rewrite H9, app_nil_r, H7 in *.
    replace (counter x - c0)%Z with (Z.of_nat N) in Hk by lia. done.
  Qed.
  Lemma skip_returned n x : rtc (cstep (SkipN n)) (cinit segs c0) x -> cm x = CReturned ->
    (forall j seg, segs !! j = Some seg ->
       delivered j (clog x) ++ dropped j (cdrop x) ≡ₚ seg /\ sublist (delivered j (clog x)) seg) /\
    Forall (fun e => e.1.1 < length segs) (clog x) /\
    Forall (fun e => e.1 < length segs) (cdrop x) /\
    Z.of_nat (length (cdrop x)) = Z.min (Z.of_nat N) (Z.max (n - 1 - c0) 0) /\
    length (clog x) + length (cdrop x) = N.
  Proof.
    intros Hr Hm. destruct (returned_facts _ _ _ _ Hr Hm) as (H1 & H2 & H3 & H4 & H5 & H6 & H7 & H8 & H9).
    assert (Hd : forall j seg, segs !! j = Some seg ->
       delivered j (clog x) ++ dropped j (cdrop x) ≡ₚ seg /\ sublist (delivered j (clog x)) seg).
    { intros j seg Hj. destruct (H3 _ _ Hj) as [H Hs]. simpl in *. by rewrite !app_nil_r in *. }
    assert (HN : length (clog x) + length (cdrop x) = N).
    { rewrite (log_length segs _ H4), (drop_length' segs _ H5). rewrite <- sum_plus. apply seg_sum.
      intros j seg Hj. destruct (Hd _ _ Hj) as [H _]. apply Permutation_length in H. by rewrite app_length in H. }
    splits; try done. destruct H6 as [Hc Hl]. rewrite H7 in Hc. lia.
  Qed.
  Lemma take_returned n x : rtc (cstep (TakeN n)) (cinit segs c0) x -> cm x = CReturned ->
    (forall j seg, segs !! j = Some seg -> delivered j (clog x) `prefix_of` seg) /\
    Forall (fun e => e.1.1 < length segs) (clog x) /\
    (Z.min (Z.max (n - c0) 0) (Z.of_nat N) <= Z.of_nat (length (clog x)))%Z /\
    ((n <= c0)%Z -> clog x = []) /\
    ((c0 < n)%Z -> Z.of_nat (length (clog x)) <= Z.min (Z.of_nat N) (n - c0 + Z.of_nat (length segs) - 1))%Z.
  Proof.
    intros Hr Hm. destruct (returned_facts _ _ _ _ Hr Hm) as (H1 & H2 & H3 & H4 & H5 & H6 & H7 & H8 & H9).
    assert (Hd : forall j seg, segs !! j = Some seg -> delivered j (clog x) `prefix_of` seg).
    { intros j seg Hj. destruct (H3 _ _ Hj) as (_ & lost & H & _). simpl in *. by exists lost. }
    destruct H6 as (Hc & Hhi & Hlo). rewrite H7, H8, H1 in *.
    assert (HN : length (clog x) <= N).
    { rewrite (log_length segs _ H4), <- sum_concat.
      rewrite <- (sum_seq (fun j => length (default [] (segs !! j))) length segs 0) by (intros i y Hi; simpl; by rewrite Hi).
      apply sum_le. intros j. destruct (segs !! j) as [seg|] eqn:Hj.
      - simpl. by apply prefix_length, Hd.
      - unfold delivered. rewrite fmap_length. simpl. apply lookup_ge_None in Hj.
        enough (filter (fun e : nat * Z * T => e.1.1 = j) (clog x) = []) as -> by done.
        clear -H4 Hj. induction H4 as [|e l He _ IH]; [done|]. rewrite filter_cons, decide_False by lia. done. }
    assert (HE : (c0 < n)%Z -> (counter x < n)%Z -> length (clog x) = N).
    { intros _ Hlt. rewrite (log_length segs _ H4). apply seg_sum. intros j seg Hj.
      destruct (H3 _ _ Hj) as (_ & lost & H & Hl). simpl in *. destruct lost; [by rewrite app_nil_r in H; subst|].
      specialize (Hl ltac:(done)). lia. }
    splits; [done|done| | |].
    - destruct (decide (c0 < n)%Z) as [Hn|Hn]; [|lia]. destruct (decide (counter x < n)%Z) as [Hlt|Hge]; [rewrite (HE Hn Hlt); lia|lia].
    - intros Hn. destruct (Hlo Hn) as [Hz _]. destruct (clog x); [done|]. simpl in *. lia.
    - intros Hn. specialize (Hhi Hn). lia.
  Qed.
End returned.

(** * schedules of Take *)
Section sched.
  Context {T : Type} (l : Z).
  Notation step := (cstep (T:=T) (TakeN l)).
  Notation S' := (CState (T:=T)).

  Lemma mid {A} (ws1 : list A) w ws2 w' : <[length ws1 := w']> (ws1 ++ w :: ws2) = ws1 ++ w' :: ws2.
  Proof. rewrite insert_app_r_alt by lia. by rewrite Nat.sub_diag. Qed.
  Lemma mid_lookup {A} (ws1 : list A) w ws2 : (ws1 ++ w :: ws2) !! length ws1 = Some w.
  Proof. by rewrite list_lookup_middle. Qed.

  Lemma w_one m td ws1 ws2 n c lg dr x r : 
    exists lg', length lg' = S (length lg) /\
    rtc step (S' m td (ws1 ++ CPull (x :: r) :: ws2) n c lg dr) (S' m td (ws1 ++ CLoop r :: ws2) n (c + 1) lg' dr).
  Proof.
    exists (lg ++ [(length ws1, 0%Z, x)]). rewrite app_length. simpl. split; [lia|].
    eapply rtc_l. { eapply cs_pull with (i := length ws1). apply mid_lookup. } rewrite mid.
    eapply rtc_l. { eapply cs_take with (i := length ws1); [done|apply mid_lookup]. } rewrite mid.
    eapply rtc_l. { eapply cs_emit with (i := length ws1). apply mid_lookup. } rewrite mid. constructor.
  Qed.
  Lemma w_pass m td ws1 ws2 n c lg dr r : (c < l)%Z ->
    rtc step (S' m td (ws1 ++ CLoop r :: ws2) n c lg dr) (S' m td (ws1 ++ CPull r :: ws2) n c lg dr).
  Proof.
    intros. eapply rtc_l. { eapply cs_check_pass with (i := length ws1); [done|apply mid_lookup|done]. } rewrite mid. constructor.
  Qed.
  Lemma w_deliver a b m td ws1 ws2 n : forall c lg dr, (c + Z.of_nat (length a) <= l)%Z ->
    exists lg', length lg' = length lg + length a /\
    rtc step (S' m td (ws1 ++ CLoop (a ++ b) :: ws2) n c lg dr) (S' m td (ws1 ++ CLoop b :: ws2) n (c + Z.of_nat (length a)) lg' dr).
  Proof.
    induction a as [|x a IH]; intros c lg dr Hc; simpl in *.
    - exists lg. rewrite Z.add_0_r. split; [lia|constructor].
    - destruct (w_one m td ws1 ws2 n c lg dr x (a ++ b)) as (lg1 & L1 & R1).
      destruct (IH (c + 1)%Z lg1 dr ltac:(lia)) as (lg2 & L2 & R2).
      exists lg2. split; [lia|]. etrans; [apply w_pass; lia|]. etrans; [apply R1|].
      replace (c + Z.of_nat (S (length a)))%Z with (c + 1 + Z.of_nat (length a))%Z by lia. apply R2.
  Qed.
  Lemma w_finish m td ws1 ws2 n c lg dr r : (l <= c)%Z \/ r = [] ->
    rtc step (S' m td (ws1 ++ CLoop r :: ws2) (S n) c lg dr) (S' m td (ws1 ++ CGone :: ws2) n c lg dr).
  Proof.
    intros H.
    assert (rtc step (S' m td (ws1 ++ CLoop r :: ws2) (S n) c lg dr) (S' m td (ws1 ++ CEnd :: ws2) (S n) c lg dr)) as R.
    { destruct (decide (l <= c)%Z).
      - eapply rtc_l. { eapply cs_check_fail with (i := length ws1); [done|apply mid_lookup|done]. } rewrite mid. constructor.
      - destruct H as [H| ->]; [done|]. etrans; [apply w_pass; lia|].
        eapply rtc_l. { eapply cs_exhausted with (i := length ws1); apply mid_lookup. } rewrite mid. constructor. }
    etrans; [apply R|]. eapply rtc_l. { eapply cs_done with (i := length ws1); apply mid_lookup. } rewrite mid.
    replace (S n - 1) with n by lia. constructor.
  Qed.
  Lemma s_spawn segs ws n c : 
    rtc step (S' CSpawn segs ws n c [] []) (S' CWait [] (ws ++ (CLoop <$> segs)) (n + length segs) c [] []).
  Proof.
    revert ws n. induction segs as [|seg segs IH]; intros ws n; simpl.
    - rewrite app_nil_r, Nat.add_0_r. eapply rtc_l; [constructor|constructor].
    - eapply rtc_l; [constructor|]. specialize (IH (ws ++ [CLoop seg]) (n + 1)).
      rewrite <- app_assoc in IH. replace (n + S (length segs)) with (n + 1 + length segs) by lia. exact IH.
  Qed.
  Lemma w_drain m td ws1 ws2 n c lg dr r :
    exists lg' c', length lg' = length lg + Z.to_nat (Z.min (Z.of_nat (length r)) (Z.max (l - c) 0)) /\
      (c' = c + Z.min (Z.of_nat (length r)) (Z.max (l - c) 0))%Z /\
    rtc step (S' m td (ws1 ++ CLoop r :: ws2) (S n) c lg dr) (S' m td (ws1 ++ CGone :: ws2) n c' lg' dr).
  Proof.
    set (e := Z.min (Z.of_nat (length r)) (Z.max (l - c) 0)).
    assert (He : length (take (Z.to_nat e) r) = Z.to_nat e) by (rewrite take_length; lia).
    destruct (decide (l <= c)%Z) as [Hc|Hc].
    - exists lg, c. splits; [lia|lia|]. apply w_finish. by left.
    - destruct (w_deliver (take (Z.to_nat e) r) (drop (Z.to_nat e) r) m td ws1 ws2 (S n) c lg dr ltac:(lia)) as (lg' & L & R).
      rewrite take_drop, He in *. replace (Z.of_nat (Z.to_nat e)) with e in R by lia.
      exists lg', (c + e)%Z. splits; [lia|lia|]. etrans; [apply R|]. apply w_finish.
      destruct (decide (l <= c + e)%Z); [by left|right]. apply drop_ge. lia.
  Qed.
  Lemma drain_all segs : forall ws1 n c lg, 
    exists lg' c', Z.of_nat (length lg') = (Z.of_nat (length lg) + Z.min (Z.of_nat (length (concat segs))) (Z.max (l - c) 0))%Z /\
    rtc step (S' CWait [] (ws1 ++ (CLoop <$> segs)) (n + length segs) c lg []) (S' CWait [] (ws1 ++ ((fun _ => CGone) <$> segs)) n c' lg' []).
  Proof.
    induction segs as [|seg segs IH]; intros ws1 n c lg; simpl.
    - exists lg, c. rewrite Nat.add_0_r. split; [lia|constructor].
    - destruct (w_drain CWait [] ws1 (CLoop <$> segs) (n + length segs) c lg [] seg) as (lg1 & c1 & L1 & E1 & R1).
      destruct (IH (ws1 ++ [CGone]) n c1 lg1) as (lg2 & c2 & L2 & R2). rewrite <- !app_assoc in R2.
      exists lg2, c2. rewrite app_length. split; [lia|]. replace (n + S (length segs)) with (S (n + length segs)) by lia.
      etrans; [apply R1|]. exact R2.
  Qed.
  Lemma take_low segs c0 : exists x, rtc step (cinit segs c0) x /\ cm x = CReturned /\
    Z.of_nat (length (clog x)) = Z.min (Z.max (l - c0) 0) (Z.of_nat (length (concat segs))).
  Proof.
    destruct (drain_all segs [] 0 c0 []) as (lg & c & L & R). eexists (S' CReturned [] _ 0 c lg []). simpl in *. splits; [|done|lia].
    etrans; [apply s_spawn|]. simpl. etrans; [apply R|]. eapply rtc_l; constructor.
  Qed.

  (** everybody passes the check before anybody increments *)
  Lemma deliver_all (ps : list (list T * list T)) : forall ws1 n c lg,
    (c + Z.of_nat (sum_list_with (fun p => length p.1) ps) <= l)%Z ->
    exists lg', length lg' = length lg + sum_list_with (fun p => length p.1) ps /\
    rtc step (S' CWait [] (ws1 ++ ((fun p => CLoop (p.1 ++ p.2)) <$> ps)) n c lg [])
             (S' CWait [] (ws1 ++ ((fun p => CLoop p.2) <$> ps)) n (c + Z.of_nat (sum_list_with (fun p => length p.1) ps)) lg' []).
  Proof.
    induction ps as [|[a b] ps IH]; intros ws1 n c lg Hc; simpl in *.
    - exists lg. rewrite Z.add_0_r. split; [lia|constructor].
    - destruct (w_deliver a b CWait [] ws1 ((fun p => CLoop (p.1 ++ p.2)) <$> ps) n c lg [] ltac:(lia)) as (lg1 & L1 & R1).
      destruct (IH (ws1 ++ [CLoop b]) n (c + Z.of_nat (length a))%Z lg1 ltac:(lia)) as (lg2 & L2 & R2).
      rewrite <- !app_assoc in R2. exists lg2. split; [lia|]. etrans; [apply R1|].
      replace (c + Z.of_nat (length a + sum_list_with (fun p => length p.1) ps))%Z
        with (c + Z.of_nat (length a) + Z.of_nat (sum_list_with (fun p => length p.1) ps))%Z by lia. exact R2.
  Qed.
  Lemma pass_all (bs : list (list T)) : forall ws1 n c lg, (c < l)%Z ->
    rtc step (S' CWait [] (ws1 ++ (CLoop <$> bs)) n c lg []) (S' CWait [] (ws1 ++ (CPull <$> bs)) n c lg []).
  Proof.
    induction bs as [|b bs IH]; intros ws1 n c lg Hc; simpl; [constructor|].
    etrans; [by apply w_pass|]. specialize (IH (ws1 ++ [CPull b]) n c lg Hc). by rewrite <- !app_assoc in IH.
  Qed.
  Lemma one_all (bs : list (T * list T)) : forall ws1 n c lg,
    exists lg', length lg' = length lg + length bs /\
    rtc step (S' CWait [] (ws1 ++ ((fun b => CPull (b.1 :: b.2)) <$> bs)) n c lg [])
             (S' CWait [] (ws1 ++ ((fun b => CLoop b.2) <$> bs)) n (c + Z.of_nat (length bs)) lg' []).
  Proof.
    induction bs as [|[x r] bs IH]; intros ws1 n c lg; simpl in *.
    - exists lg. rewrite Z.add_0_r. split; [lia|constructor].
    - destruct (w_one CWait [] ws1 ((fun b => CPull (b.1 :: b.2)) <$> bs) n c lg [] x r) as (lg1 & L1 & R1).
      destruct (IH (ws1 ++ [CLoop r]) n (c + 1)%Z lg1) as (lg2 & L2 & R2). rewrite <- !app_assoc in R2.
      exists lg2. split; [lia|]. etrans; [apply R1|].
      replace (c + Z.of_nat (S (length bs)))%Z with (c + 1 + Z.of_nat (length bs))%Z by lia. exact R2.
  Qed.
  Lemma finish_all (rs : list (list T)) : forall ws1 n c lg, (l <= c)%Z \/ Forall (fun r => r = []) rs ->
    rtc step (S' CWait [] (ws1 ++ (CLoop <$> rs)) (n + length rs) c lg []) (S' CWait [] (ws1 ++ ((fun _ => CGone) <$> rs)) n c lg []).
  Proof.
    induction rs as [|r rs IH]; intros ws1 n c lg Hc; simpl; [rewrite Nat.add_0_r; constructor|].
    replace (n + S (length rs)) with (S (n + length rs)) by lia.
    etrans; [apply w_finish; destruct Hc as [|Hc]; [by left|right; by inversion Hc]|].
    specialize (IH (ws1 ++ [CGone]) n c lg). rewrite <- !app_assoc in IH. apply IH.
    destruct Hc as [|Hc]; [by left|right; by inversion Hc].
  Qed.
  (** choose how much each segment delivers before the race *)
  Lemma choose (segs : list (list T)) : forall e, Forall (fun seg => seg <> []) segs ->
    e + length segs <= length (concat segs) ->
    exists ps : list (list T * (T * list T)), segs = (fun p => p.1 ++ p.2.1 :: p.2.2) <$> ps /\
      sum_list_with (fun p => length p.1) ps = e.
  Proof.
    induction segs as [|seg segs IH]; intros e HF He.
    { exists []. simpl in *. split; [done|lia]. }
    inversion HF as [|? ? Hne HF']; subst. simpl in He. rewrite app_length in He.
    set (a := e `min` (length seg - 1)). assert (Hl : length seg <> 0) by (destruct seg; [done|simpl; lia]).
    destruct (drop a seg) as [|x r] eqn:Ed.
    { apply (f_equal length) in Ed. rewrite drop_length in Ed. simpl in Ed. lia. }
    destruct (IH (e - a) HF') as (ps & -> & Hs).
    { assert (Hsl : length segs <= length (concat segs)).
      { clear -HF'. induction HF' as [|s ss Hs _ IH]; simpl; [lia|]. rewrite app_length. destruct s; [done|simpl; lia]. }
      lia. }
    exists ((take a seg, (x, r)) :: ps). simpl. split; [|rewrite take_length; lia].
    f_equal. by rewrite <- Ed, take_drop.
  Qed.
  Lemma take_high segs c0 : Forall (fun seg => seg <> []) segs -> (c0 < l)%Z ->
    exists x, rtc step (cinit segs c0) x /\ cm x = CReturned /\
    Z.of_nat (length (clog x)) = Z.min (Z.of_nat (length (concat segs))) (l - c0 + Z.of_nat (length segs) - 1).
  Proof.
    intros HF Hl.
    assert (Hsl : length segs <= length (concat segs)).
    { clear -HF. induction HF as [|s ss Hs _ IH]; simpl; [lia|]. rewrite app_length. destruct s; [done|simpl; lia]. }
    set (e := (length (concat segs) - length segs) `min` Z.to_nat (l - c0 - 1)).
    destruct (choose segs e HF ltac:(lia)) as (ps & Es & He).
    assert (Hlen : length segs = length ps) by (rewrite Es; by rewrite fmap_length).
    pose (ps2 := (fun p => (p.1, p.2.1 :: p.2.2)) <$> ps : list (list T * list T)).
    pose (bs := (fun p => p.2) <$> ps : list (T * list T)).
    assert (Hs2 : sum_list_with (fun p => length p.1) ps2 = e).
    { rewrite <- He. subst ps2. clear. induction ps as [|p ps IH]; simpl; [done|]. by rewrite <- IH. }
    destruct (deliver_all ps2 [] (length segs) c0 [] ltac:(lia)) as (lg1 & L1 & R1).
    rewrite Hs2 in *. simpl in *.
    destruct (one_all bs [] (length segs) (c0 + Z.of_nat e)%Z lg1) as (lg2 & L2 & R2).
    assert (Hbs : length bs = length segs) by (subst bs; by rewrite fmap_length).
    set (c2 := (c0 + Z.of_nat e + Z.of_nat (length bs))%Z) in *.
    eexists (S' CReturned [] _ 0 c2 lg2 []). simpl. splits; [|done|lia].
    etrans; [apply s_spawn|]. simpl.
    replace (CLoop <$> segs) with ((fun p => CLoop (p.1 ++ p.2)) <$> ps2).
    2:{ subst ps2. rewrite Es, <- !list_fmap_compose. done. }
    etrans; [apply R1|].
    replace ((fun p => CLoop p.2) <$> ps2) with (CLoop <$> ((fun b => b.1 :: b.2) <$> bs)).
    2:{ subst ps2 bs. rewrite <- !list_fmap_compose. done. }
    etrans; [apply (pass_all _ []); lia|]. simpl.
    replace (CPull <$> ((fun b => b.1 :: b.2) <$> bs)) with ((fun b => CPull (b.1 :: b.2)) <$> bs).
    2:{ rewrite <- !list_fmap_compose. done. }
    etrans; [apply R2|].
    replace ((fun b => CLoop b.2) <$> bs) with (CLoop <$> ((fun b => b.2) <$> bs)).
    2:{ rewrite <- !list_fmap_compose. done. }
    replace (length segs) with (0 + length ((fun b => b.2) <$> bs)) by (by rewrite fmap_length).
    etrans.
    - apply (finish_all _ []). destruct (decide (l <= c2)%Z) as [|Hlt]; [by left|right].
      assert (HN0 : length segs = 0 -> length (concat segs) = 0) by (intros H0; by apply nil_length_inv in H0 as ->).
      assert (He2 : e = length (concat segs) - length segs) by lia.
      assert (Hall : sum_list_with (fun b => length b.2) bs = 0).
      { assert (length (concat segs) = e + length ps + sum_list_with (fun b => length b.2) bs).
        { rewrite Es, <- He. subst bs. clear. induction ps as [|p ps IH]; [done|].
          rewrite !fmap_cons. cbn [concat sum_list_with length]. rewrite !app_length, IH. cbn [length]. lia. }
        lia. }
      apply Forall_fmap, Forall_lookup. intros i b Hb. rewrite sum_zero in Hall. specialize (Hall _ _ Hb). simpl.
      by destruct b.2.
    - eapply rtc_l; constructor.
  Qed.
End sched.

(** * FoldWith, in terms of the segments *)
Section fold.
  Context {T R : Type} (s : list T) (p : Z) (init : R) (f : R -> T -> R) (comb : R -> R -> R).
  Context (Hp : (1 <= p)%Z) (Hn : (p <= Z.of_nat (length s))%Z).
  Notation fst := (fstep s p init f comb).

  Lemma fold_result x v : rtc fst finit x -> fm x = FReturned v ->
    exists segs used lost, concat segs = s /\ used ++ lost ≡ₚ segs /\ Forall (fun seg => seg <> []) segs /\
      Z.of_nat (length used) = p /\
      v = fold_left comb ((fun seg => fold_left f seg init) <$> used) init /\
      (lost = [] <-> (p | Z.of_nat (length s))%Z).
  Proof.
    intros Hr Hm. destruct (fold_returned s p init f comb Hp Hn x v Hr Hm) as (used & lost & Hperm & Hl & ->).
    set (step := length s / Z.to_nat p) in *. set (k := nseg (length s) step) in *.
    rewrite (list_fmap_compose (chunk s step) (fun seg => fold_left f seg init)) in Hperm.
    apply Permutation_map_inv in Hperm as (perm & E & Hperm).
    assert (exists us ls, perm = us ++ ls /\ used = (fun seg => fold_left f seg init) <$> us /\ lost = (fun seg => fold_left f seg init) <$> ls)
      as (us & ls & -> & -> & ->).
    { exists (take (length used) perm), (drop (length used) perm). split; [by rewrite take_drop|].
      split; [|].
      - apply (f_equal (take (length used))) in E. rewrite take_app in E. etrans; [exact E|]. apply firstn_map.
      - apply (f_equal (drop (length used))) in E. rewrite drop_app in E. etrans; [exact E|]. apply skipn_map. }
    rewrite fmap_length in Hl.
    pose proof (step_bounds (length s) p Hp Hn) as [_ Hs]. fold step in Hs.
    pose proof (nseg_spec (length s) step Hs) as Hk. fold k in Hk.
    exists (chunk s step <$> seq 0 k), us, ls. splits; [| | |done|done|].
    - rewrite concat_chunks. apply take_ge. lia.
    - by symmetry.
    - apply Forall_fmap, Forall_lookup. intros i j Hj. apply lookup_seq in Hj as [-> Hj]. simpl. unfold chunk.
      intros Hc. apply (f_equal length) in Hc. rewrite take_length, drop_length in Hc. simpl in Hc. nia.
    - rewrite <- (k_eq_p s p Hp Hn). fold step. fold k.
      apply Permutation_length in Hperm. rewrite app_length, fmap_length, seq_length in Hperm.
      split; [intros ->; simpl in *; lia|]. intros Ek. destruct ls; [done|]. simpl in *. lia.
  Qed.

  Lemma fold_ok : (p | Z.of_nat (length s))%Z ->
    (forall x, rtc fst finit x -> fcrashed x = false /\
       ((exists y, fst x y) \/ (exists v, fm x = FReturned v))) /\
    (exists b, forall m x, nsteps fst m finit x -> m <= b) /\
    (forall x, rtc fst finit x -> exists y v, rtc fst x y /\ fm y = FReturned v).
  Proof.
    intros Hd. apply (k_eq_p s p Hp Hn) in Hd.
    assert (H1 : forall x, rtc fst finit x -> fcrashed x = false /\ ((exists y, fst x y) \/ (exists v, fm x = FReturned v))).
    { intros x Hr. pose proof (fold_no_crash s p init f comb Hp Hn x Hd Hr) as Hc. split; [done|].
      by apply (fold_progress s p init f comb Hp Hn). }
    splits; [done|by eexists; intros; eapply fold_bounded|].
    intros x Hr. 
    assert (Hwf : forall n y, mu s p y <= n -> rtc fst finit y -> exists z v, rtc fst y z /\ fm z = FReturned v).
    { induction n as [n IH] using lt_wf_ind. intros y Hy Hry.
      destruct (H1 y Hry) as [_ [[z Hz]|[v Hv]]]; [|exists y, v; split; [constructor|done]].
      pose proof (mu_dec s p init f comb Hp Hn _ _ (finv_reach s p init f comb Hp Hn _ Hry) Hz) as Hmu.
      destruct (IH (mu s p z) ltac:(lia) z ltac:(lia)) as (w & v & ? & ?); [by eapply rtc_r|].
      exists w, v. split; [by eapply rtc_l|done]. }
    by eapply Hwf.
  Qed.

  Context (Hassoc : forall a b c, comb a (comb b c) = comb (comb a b) c).
  Context (Hcomm : forall a b, comb a b = comb b a).
  Context (Hid : forall a, comb init a = a).
  Context (Hhom : forall a b x, f (comb a b) x = comb a (f b x)).
  Lemma fold_seq x v : (p | Z.of_nat (length s))%Z -> rtc fst finit x -> fm x = FReturned v -> v = fold_left f s init.
  Proof.
    intros Hd Hr Hm. destruct (fold_result x v Hr Hm) as (segs & used & lost & Hc & Hperm & _ & _ & -> & Hl).
    apply Hl in Hd. subst lost. rewrite app_nil_r in Hperm.
    rewrite (comb_perm comb Hassoc Hcomm _ ((fun seg => fold_left f seg init) <$> segs)) by (by apply fmap_Permutation).
    rewrite (comb_segs init f comb Hcomm Hid Hhom). by rewrite Hc.
  Qed.
End fold.
