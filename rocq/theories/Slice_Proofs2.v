From Verif Require Import Base Slice_Model Slice_Spec Slice_Proofs.

Section compact.
  Context {T : Type}.
  Lemma compacted_det (eq : T -> T -> bool) last l : forall k1 k2, compacted eq last l k1 -> compacted eq last l k2 -> k1 = k2.
  Proof.
    revert last. induction l as [|v l IH]; intros last k1 k2 H1 H2; inversion H1; inversion H2; subst; try done; try congruence.
    - eauto.
    - f_equal. eauto.
  Qed.
  Lemma compacted_dedup (eqb : T -> T -> bool) last l k :
    (forall a b, eqb a b = eqb b a) -> (forall a b c, eqb a b = true -> eqb b c = true -> eqb a c = true) ->
    compacted eqb last l k -> k = dedup_pred eqb last l.
  Proof.
    intros Hsym Htr. revert last k. induction l as [|v l IH]; intros last k H; inversion H; subst; cbn [dedup_pred].
    - done.
    - rewrite H3. assert (G : forall a b l, eqb a b = true -> dedup_pred eqb a l = dedup_pred eqb b l).
      { intros a b l' Hab. destruct l' as [|u l']; [done|]. cbn [dedup_pred].
        replace (eqb u b) with (eqb u a); [done|].
        destruct (eqb u a) eqn:E1, (eqb u b) eqn:E2; try done.
        - pose proof (Htr _ _ _ E1 Hab). congruence.
        - rewrite Hsym in Hab. pose proof (Htr _ _ _ E2 Hab). congruence. }
      rewrite (G v last) by done. by apply IH.
    - rewrite H3. f_equal. by apply IH.
  Qed.

  Implicit Types (m : gmap nat (list T)) (s v : slice).
  Lemma get_ok m s k x : wf m s -> k < len s -> win m s !! k = Some x -> get m s k = Ok x.
  Proof.
    intros Hs Hk Hx. unfold get. rewrite decide_True by done.
    unfold win in Hx. apply lookup_take_Some in Hx as [Hx _]. rewrite lookup_drop in Hx. by rewrite Hx.
  Qed.
  Lemma set_ok m s k x : wf m s -> k < len s ->
    set m s k x = Ok (upd m s (take k (win m s) ++ x :: drop (k + 1) (win m s))).
  Proof.
    intros Hs Hk. unfold set. rewrite decide_True by done. f_equal.
    rewrite write_at_upd; [done|done|]. simpl. destruct Hs. lia.
  Qed.

  Lemma compact_loop_ok eq s : forall n m k i last w, wf m s -> win m s = w -> i <= k -> k + n = len s ->
    exists kept, compact_loop eq n m s k i last =
        Ok (i + length kept, upd m s (take i w ++ kept ++ drop (i + length kept) w)) /\
      compacted eq last (take n (drop k w)) kept /\ length kept <= n.
  Proof.
    induction n as [|n IH]; intros m k i last w Hs Hw Hik Hkn; cbn [compact_loop].
    - exists []. simpl. rewrite Nat.add_0_r, take_drop. rewrite <- Hw, upd_win by done.
      split; [done|]. split; [constructor|lia].
    - pose proof (win_length m s Hs) as Hwl. rewrite Hw in Hwl.
      pose proof (proj1 Hs) as Hlc.
      destruct (lookup_lt_is_Some_2 w k) as [x Hx]; [lia|].
      rewrite (get_ok m s k x) by (rewrite ?Hw; done || lia). cbn [rbind].
      rewrite (drop_S _ x) by done. cbn [take].
      destruct (eq x last) eqn:He.
      + destruct (IH m (k + 1) i last w) as (kept & -> & Hc & Hl); [done|done|lia|lia|].
        exists kept. split; [done|]. split; [|lia].
        constructor; [done|]. by rewrite <- Nat.add_1_r.
      + rewrite set_ok by (done || lia). cbn [rbind]. rewrite Hw.
        set (w1 := take i w ++ x :: drop (i + 1) w).
        assert (Hw1 : length w1 = cap s).
        { unfold w1. rewrite app_length, take_length. simpl. rewrite drop_length. lia. }
        assert (Ht : take (i + 1) w1 = take i w ++ [x]).
        { unfold w1. replace (take i w ++ x :: drop (i + 1) w) with ((take i w ++ [x]) ++ drop (i + 1) w)
            by (by rewrite <- app_assoc). apply take_app_alt. rewrite app_length, take_length. simpl. lia. }
        assert (Hd : forall j, i < j -> drop j w1 = drop j w).
        { intros j Hj. unfold w1.
          replace (take i w ++ x :: drop (i + 1) w) with ((take i w ++ [x]) ++ drop (i + 1) w)
            by (by rewrite <- app_assoc).
          rewrite drop_app_ge by (rewrite app_length, take_length; simpl; lia).
          rewrite drop_drop, app_length, take_length. simpl. f_equal. lia. }
        destruct (IH (upd m s w1) (k + 1) (i + 1) x w1) as (kept & -> & Hc & Hl).
        { by apply upd_wf. } { by apply win_upd. } { lia. } { lia. }
        exists (x :: kept). split; [|split; [|simpl; lia]].
        * rewrite upd_upd by done. rewrite Ht, Hd by lia. simpl. rewrite <- app_assoc. simpl.
          replace (i + 1 + length kept) with (i + S (length kept)) by lia. done.
        * constructor; [done|]. rewrite Hd in Hc by lia. by rewrite <- Nat.add_1_r.
  Qed.

  Lemma compact_func_ok eq m s : wf m s ->
    exists s' m', compact_func eq m s = Ok (s', m') /\ wf m' s' /\ arr s' = arr s /\ off s' = off s /\
      only_window m m' s /\ len s' <= len s /\
      match contents m s with
      | [] => contents m' s' = []
      | x :: l => exists kept, compacted eq x l kept /\ contents m' s' = x :: kept
      end /\
      (* cells from the new length on are as before *)
      drop (len s') (contents m' s) = drop (len s') (contents m s).
  Proof.
    intros Hs. unfold compact_func. pose proof (contents_length m s Hs) as Hcl. case_decide as Hl.
    - exists s, m. splits; try done; [apply only_window_refl|].
      destruct (contents m s) as [|x [|y l]]; simpl in Hcl; [done| |lia].
      exists []. split; [constructor|done].
    - pose proof (win_length m s Hs) as Hwl. pose proof (proj1 Hs) as Hlc.
      set (w := win m s) in *.
      destruct w as [|x w'] eqn:Ew; [simpl in Hwl; lia|].
      rewrite (get_ok m s 0 x) by (fold w; rewrite ?Ew; done || lia). cbn [rbind].
      destruct (compact_loop_ok eq s (len s - 1) m 1 1 x w) as (kept & -> & Hc & Hkl); [done|done|lia|lia|].
      cbn [rbind]. set (w2 := take 1 w ++ kept ++ drop (1 + length kept) w).
      assert (Hw2 : length w2 = cap s).
      { unfold w2. rewrite !app_length, take_length, drop_length. rewrite Ew; simpl. simpl in Hwl. lia. }
      unfold sub_to. rewrite sub_ok by lia. cbn [rbind].
      assert (Hs2 : wf (upd m s w2) s) by (by apply upd_wf).
      eexists _, _. split; [done|]. cbn [arr off len cap].
      set (s' := Sl _ _ _ _).
      assert (Hs' : wf (upd m s w2) s').
      { destruct Hs2 as [_ Hx]. split; [simpl; lia|]. simpl. rewrite Nat.add_0_r, Nat.sub_0_r. done. }
      assert (Hcont : contents (upd m s w2) s' = x :: kept).
      { rewrite (contents_sub _ s s' 0) by (simpl; done || lia). rewrite win_upd by done. simpl.
        replace (Z.to_nat _) with (S (length kept)) by lia. unfold w2. rewrite Ew. simpl. f_equal.
        apply take_app. }
      splits; try done.
      + by apply upd_only_window.
      + lia.
      + rewrite contents_win by done. fold w. rewrite Ew in *. 
        destruct (len s) as [|n] eqn:En; [lia|]. simpl. exists kept. split; [|done].
        simpl in Hc. by replace (n - 0) with n in Hc by lia.
      + replace (Z.to_nat _) with (S (length kept)) by lia.
        rewrite !contents_win by done. rewrite win_upd by done. fold w.
        rewrite !skipn_firstn_comm. f_equal. unfold w2. rewrite Ew. simpl.
        rewrite drop_app. done.
  Qed.

End compact.

Section more.
  Context {T : Type} (zero : T) (growcap : nat -> nat -> nat).
  Context (Hgrow : forall o n, n <= growcap o n).
  Implicit Types (m : gmap nat (list T)) (s v : slice).

  Lemma fresh_result_trans m m1 m' r :
    (forall a c, m !! a = Some c -> m1 !! a = Some c) -> fresh_result m1 m' r -> fresh_result m m' r.
  Proof.
    intros H (H1 & H2 & H3). split_and!; [eauto| |done].
    intros a Ha. specialize (H2 a Ha). destruct (m !! a) eqn:E; [|done]. apply H in E. congruence.
  Qed.
  Lemma make_keeps m n r m1 : make zero m n = (r, m1) ->
    (forall a c, m !! a = Some c -> m1 !! a = Some c) /\ wf m1 r /\ (forall t, wf m t -> wf m1 t) /\
    (forall t, wf m t -> contents m1 t = contents m t) /\ contents m1 r = replicate n zero /\
    len r = n /\ cap r = n /\ (forall a, Some a = arr r -> m !! a = None) /\ arr r <> None.
  Proof.
    unfold make. destruct (alloc m (replicate n zero)) as [a m0] eqn:E. intros [= <- <-].
    destruct (alloc_new m _ a m0 n E) as (Hwf & Hwin & Hfr & Hkeep); [by rewrite replicate_length|].
    rewrite replicate_length in *. splits; try done.
    - intros b c Hb. pose proof (Hkeep (replicate n zero) (replicate_length _ _) b c Hb) as Hx.
      rewrite <- Hwin, upd_win in Hx by done. done.
    - intros t Ht. by eapply alloc_wf.
    - intros t Ht. by eapply alloc_contents.
    - simpl. by intros ? [= ->].
  Qed.

  Lemma clone_ok m s : wf m s ->
    exists s' m', clone zero growcap m s = (s', m') /\ wf m' s' /\ contents m' s' = contents m s /\
      (arr s = None -> s' = s /\ m' = m) /\ (arr s <> None -> fresh_result m m' s').
  Proof.
    intros Hs. unfold clone. destruct (arr s) as [b|] eqn:Eb.
    - destruct (make zero m 0) as [e m1] eqn:Em.
      destruct (make_keeps m 0 e m1 Em) as (Hk & He & Hwf & Hc & Hce & Hle & Hcape & Hfr & Hne).
      destruct (decide (len s = 0)) as [Hl|Hl].
      + destruct (append_in_place zero growcap m1 e s) as (s' & m' & -> & Hwf' & Hcont & Hwin & Ha & Ho & Hca & _ & _);
          [done|by apply Hwf|lia|].
        exists s', m'. split; [done|]. split; [done|]. split; [|split; [done|]].
        * rewrite Hcont, Hce. simpl. by apply Hc.
        * intros _. destruct Hwin as [H1 H2]. split_and!.
          -- intros a c Hac. rewrite H1; [by apply Hk|]. intros Ea. apply Hfr in Ea. congruence.
          -- intros a Ha'. apply Hfr. congruence.
          -- congruence.
      + destruct (append_realloc zero growcap Hgrow m1 e s) as (s' & m' & -> & Hwf' & Hcont & Hfr' & _);
          [done|by apply Hwf|lia|].
        exists s', m'. split; [done|]. split; [done|]. split; [|split; [done|]].
        * rewrite Hcont, Hce. simpl. by apply Hc.
        * intros _. by apply fresh_result_trans with m1.
    - exists s, m. done.
  Qed.

  Lemma grow_ok m s (n : Z) : wf m s -> (0 <= n)%Z ->
    exists s' m', grow zero growcap m s n = Ok (s', m') /\ wf m' s' /\
      len s' = len s /\ contents m' s' = contents m s /\ (Z.of_nat (len s) + n <= Z.of_nat (cap s'))%Z /\
      ((Z.of_nat (len s) + n <= Z.of_nat (cap s))%Z -> s' = s /\ m' = m) /\
      ((Z.of_nat (cap s) < Z.of_nat (len s) + n)%Z -> fresh_result m m' s').
  Proof.
    intros Hs Hn. pose proof (proj1 Hs) as Hlc. unfold grow. rewrite decide_False by lia. case_decide as Hc.
    - unfold sub_to. rewrite sub_ok by lia. cbn [rbind].
      set (full := Sl _ _ _ _).
      assert (Hfull : wf m full).
      { destruct Hs as [_ Hx]. split; [simpl; lia|]. simpl. by rewrite Nat.add_0_r, Nat.sub_0_r. }
      destruct (make zero m _) as [z m1] eqn:Em.
      destruct (make_keeps m _ z m1 Em) as (Hk & Hz & Hwf & Hcc & Hcz & Hlz & Hcapz & Hfr & Hne).
      destruct (append_realloc zero growcap Hgrow m1 full z) as (r & m2 & -> & Hwr & Hcr & Hfrr & Hcapr & Hoffr & _).
      { by apply Hwf. } { done. } { simpl. lia. }
      pose proof (Hgrow (cap full) (len full + len z)) as Hg. simpl in Hg, Hcapr.
      rewrite sub_ok by lia. cbn [rbind]. eexists _, _. split; [done|].
      set (s' := Sl _ _ (Z.to_nat _) _).
      assert (Hw' : wf m2 s').
      { destruct Hwr as [_ Hx]. split; [simpl; lia|]. simpl. by rewrite Nat.add_0_r, Nat.sub_0_r. }
      splits; try done.
      + simpl. lia.
      + rewrite (contents_sub m2 r s' 0) by (simpl; done || lia). rewrite drop_0.
        simpl len. replace (Z.to_nat (Z.of_nat (len s) - 0)) with (len s) by lia.
        assert (Hpre : take (len s) (win m2 r) = take (len s) (contents m2 r)).
        { rewrite contents_win by done. rewrite take_take. f_equal.
          pose proof (contents_length m2 r Hwr) as Hl. rewrite Hcr, app_length, !contents_length in Hl by (done || by apply Hwf).
          simpl in Hl. lia. }
        rewrite Hpre, Hcr.
        rewrite Hcc by done.
        assert (Hcf : contents m full = win m s).
        { rewrite (contents_sub m s full 0) by (simpl; done || lia). simpl. rewrite drop_0.
          rewrite take_ge; [done|]. rewrite win_length by done. lia. }
        rewrite Hcf, (contents_win m s) by done. rewrite take_app_le; [done|]. rewrite win_length by done. done.
      + simpl. lia.
      + intros ?. lia.
      + intros _. apply fresh_result_trans with m1; [done|]. done.
    - exists s, m. splits; try done. lia. intros ?. lia.
  Qed.
  Lemma clip_ok m s : wf m s ->
    exists s', clip s = Ok s' /\ wf m s' /\ arr s' = arr s /\ off s' = off s /\
      contents m s' = contents m s /\ len s' = len s /\ cap s' = len s' /\
      forall v, wf m v -> 0 < len v ->
        fresh_result m (snd (append zero growcap m s' v)) (fst (append zero growcap m s' v)).
  Proof.
    intros Hs. pose proof (proj1 Hs) as Hlc. unfold clip, sub3. rewrite decide_True by lia.
    set (s' := Sl _ _ _ _).
    assert (Hs' : wf m s').
    { destruct Hs as [_ Hx]. split; [simpl; lia|]. simpl. rewrite Nat.add_0_r.
      destruct (arr s); [|lia]. destruct Hx as (c & ? & ?). exists c. split; [done|lia]. }
    exists s'. splits; try done.
    - simpl. lia.
    - rewrite (contents_sub m s s' 0) by (simpl; done || lia). rewrite drop_0, (contents_win m s) by done.
      simpl. f_equal. lia.
    - simpl. lia.
    - intros v Hv Hl. destruct (append_realloc zero growcap Hgrow m s' v) as (r & m' & -> & _ & _ & ? & _); try done.
      simpl. lia.
  Qed.

  Lemma push_back_ok m s v : wf m s -> wf m v ->
    exists m', push_back zero growcap m s v = (s, m') /\ wf m' s /\ contents m' s = contents m s.
  Proof.
    intros Hs Hv. unfold push_back. destruct (decide (len s + len v <= cap s)).
    - destruct (append_in_place zero growcap m s v) as (s' & m' & -> & _ & _ & _ & _ & _ & _ & Hc & Hw); try done.
      exists m'. splits; [done|by apply Hw|done].
    - destruct (append_realloc zero growcap Hgrow m s v) as (s' & m' & -> & _ & _ & (Hk & _) & _ & _ & Hw); try done; [lia|].
      exists m'. splits; [done|by apply Hw|]. unfold contents, cells.
      destruct Hs as [_ Hs]. destruct (arr s) as [a|]; [|done]. destruct Hs as (c & Ha & _).
      by rewrite (Hk _ _ Ha), Ha.
  Qed.
End more.

Section meth.
  Context {T : Type} (zero : T).
  Implicit Types (m : gmap nat (list T)) (s v : slice).
  Lemma insert_method_ok m s (i : Z) v : wf m s -> wf m v -> (0 <= i <= Z.of_nat (len s))%Z ->
    (len s + len v <= cap s -> no_alias s v) ->
    exists m', insert_method zero m s i v = Ok (s, m') /\ wf m' s /\
      (len s + len v <= cap s -> contents m' s =
        take (len s) (take (Z.to_nat i) (contents m s) ++ contents m v ++ drop (Z.to_nat i) (contents m s))) /\
      (cap s < len s + len v -> contents m' s = contents m s /\
         forall a c, m !! a = Some c -> m' !! a = Some c).
  Proof.
    intros Hs Hv Hi Hna. unfold insert_method.
    destruct (insert_ok zero m s i v Hs Hv Hi Hna) as (s' & m' & -> & Hw' & Hc & Hmem & Hall).
    cbn [rbind]. exists m'. splits; [done|by apply Hall| |].
    - intros Hle. rewrite decide_True in Hmem by done. destruct Hmem as (_ & Ha & Ho).
      rewrite <- Hc. unfold contents, cells. rewrite Ha, Ho. rewrite take_take. f_equal.
      pose proof (contents_length m' s' Hw') as Hl. rewrite Hc, !app_length, take_length, drop_length in Hl.
      rewrite !contents_length in Hl by done. lia.
    - intros Hlt. rewrite decide_False in Hmem by lia. destruct Hmem as (Hk & _). split; [|done].
      unfold contents, cells. destruct Hs as [_ Hs]. destruct (arr s) as [a|]; [|done].
      destruct Hs as (c & Ha & _). by rewrite (Hk _ _ Ha), Ha.
  Qed.
End meth.

(* scans *)
Section scans.
  Context {T U : Type}.

  Lemma equal_loop_ok (eq : T -> U -> bool) s1 : forall s2 i, length s1 + i = length s2 ->
    exists b, equal_loop eq s1 s2 i = Ok b /\
      (b = true <-> Forall2 (fun a c => eq a c = true) s1 (drop i s2)).
  Proof.
    induction s1 as [|x s1 IH]; intros s2 i Hl; cbn [equal_loop].
    - exists true. split; [done|]. rewrite drop_ge by (simpl in Hl; lia). split; [constructor|done].
    - simpl in Hl. destruct (lookup_lt_is_Some_2 s2 i) as [y Hy]; [lia|]. rewrite Hy. cbn [deref rbind].
      rewrite (drop_S _ y) by done. destruct (eq x y) eqn:E.
      + destruct (IH s2 (i + 1)) as (b & -> & Hb); [lia|]. exists b. split; [done|]. rewrite Hb.
        rewrite Nat.add_1_r. split.
        * intros. by constructor.
        * intros H. by inversion H.
      + exists false. split; [done|]. split; [done|]. intros H. inversion H. congruence.
  Qed.
  Lemma equal_func_ok (eq : T -> U -> bool) s1 s2 :
    exists b, equal_func eq s1 s2 = Ok b /\ (b = true <-> Forall2 (fun a c => eq a c = true) s1 s2).
  Proof.
    unfold equal_func. case_decide as Hl.
    - exists false. split; [done|]. split; [done|]. intros H. by apply Forall2_length in H.
    - destruct (equal_loop_ok eq s1 s2 0) as (b & ? & ?); [lia|]. by exists b.
  Qed.

  Lemma compare_loop_ok (cmp : T -> U -> Z) s1 : forall s2 i, i <= length s2 ->
    exists o, compare_loop cmp s1 s2 i = Ok o /\
    match o with
    | None => exists p r, drop i s2 = p ++ r /\ Forall2 (fun a b => cmp a b = 0%Z) s1 p
    | Some c =>
        (exists p1 x r1 p2 y r2, s1 = p1 ++ x :: r1 /\ drop i s2 = p2 ++ y :: r2 /\
           Forall2 (fun a b => cmp a b = 0%Z) p1 p2 /\ cmp x y <> 0%Z /\ c = cmp x y) \/
        (exists p x r, s1 = p ++ x :: r /\ Forall2 (fun a b => cmp a b = 0%Z) p (drop i s2) /\ c = 1%Z)
    end.
  Proof.
    induction s1 as [|v1 s1 IH]; intros s2 i Hi; cbn [compare_loop].
    - exists None. split; [done|]. exists [], (drop i s2). split; [done|constructor].
    - case_decide as Hc.
      + exists (Some 1%Z). split; [done|]. right. exists [], v1, s1.
        rewrite drop_ge by lia. splits; [done|constructor|done].
      + destruct (lookup_lt_is_Some_2 s2 i) as [v2 Hv2]; [lia|]. rewrite Hv2. cbn [deref rbind].
        rewrite (drop_S _ v2) by done. case_decide as Hne.
        * eexists. split; [done|]. left. by exists [], v1, s1, [], v2, (drop (S i) s2).
        * destruct (IH s2 (i + 1)) as (o & -> & Ho); [lia|]. exists o. split; [done|].
          rewrite Nat.add_1_r in Ho. assert (cmp v1 v2 = 0%Z) as E by lia.
          destruct o as [c|].
          -- destruct Ho as [(p1 & x & r1 & p2 & y & r2 & -> & -> & Hf & Hxy & ->)|(p & x & r & -> & Hf & ->)].
             ++ left. exists (v1 :: p1), x, r1, (v2 :: p2), y, r2. splits; try done. by constructor.
             ++ right. exists (v1 :: p), x, r. splits; try done. by constructor.
          -- destruct Ho as (p & r & -> & Hf). exists (v2 :: p), r. split; [done|]. by constructor.
  Qed.
  Lemma compare_func_ok (cmp : T -> U -> Z) s1 s2 :
    exists c, compare_func cmp s1 s2 = Ok c /\
     ((exists p1 x r1 p2 y r2, s1 = p1 ++ x :: r1 /\ s2 = p2 ++ y :: r2 /\
         Forall2 (fun a b => cmp a b = 0%Z) p1 p2 /\ cmp x y <> 0%Z /\ c = cmp x y) \/
      (exists p x r, s1 = p ++ x :: r /\ Forall2 (fun a b => cmp a b = 0%Z) p s2 /\ c = 1%Z) \/
      (exists p y r, s2 = p ++ y :: r /\ Forall2 (fun a b => cmp a b = 0%Z) s1 p /\ c = (-1)%Z) \/
      (Forall2 (fun a b => cmp a b = 0%Z) s1 s2 /\ c = 0%Z)).
  Proof.
    unfold compare_func. destruct (compare_loop_ok cmp s1 s2 0) as (o & -> & Ho); [lia|].
    rewrite drop_0 in Ho. cbn [rbind]. destruct o as [c|].
    - exists c. split; [done|]. destruct Ho as [Ho|Ho]; auto.
    - destruct Ho as (p & r & -> & Hf). pose proof (Forall2_length _ _ _ Hf) as Hl.
      eexists. split; [done|]. right; right. case_decide as Hlt; rewrite app_length in Hlt.
      + left. destruct r as [|y r]; [simpl in Hlt; lia|]. by exists p, y, r.
      + right. destruct r as [|y r]; [|simpl in Hlt; lia]. by rewrite app_nil_r.
  Qed.

  Lemma index_loop_ok (f : T -> bool) s : forall i,
    (exists k v, s !! k = Some v /\ f v = true /\ (forall j u, j < k -> s !! j = Some u -> f u = false) /\
       index_loop f s i = Z.of_nat (i + k)) \/
    (Forall (fun v => f v = false) s /\ index_loop f s i = (-1)%Z).
  Proof.
    induction s as [|x s IH]; intros i; cbn [index_loop].
    - right. done.
    - destruct (f x) eqn:E.
      + left. exists 0, x. splits; [done|done|lia|f_equal; lia].
      + destruct (IH (i + 1)) as [(k & v & Hk & Hv & Hmin & Hi)|[Hall Hi]].
        * left. exists (S k), v. splits; [done|done| |rewrite Hi; f_equal; lia].
          intros [|j] u Hj Hu; [simpl in Hu; congruence|]. apply (Hmin j u); [lia|done].
        * right. split; [by constructor|done].
  Qed.
  Lemma index_ok (f : T -> bool) s :
    (exists k v, s !! k = Some v /\ f v = true /\ (forall j u, j < k -> s !! j = Some u -> f u = false) /\
       index f s = Z.of_nat k) \/
    (Forall (fun v => f v = false) s /\ index f s = (-1)%Z).
  Proof. exact (index_loop_ok f s 0). Qed.
  Lemma contains_ok (f : T -> bool) s : contains f s = true <-> exists v, v ∈ s /\ f v = true.
  Proof.
    unfold contains. destruct (index_ok f s) as [(k & v & Hk & Hv & _ & ->)|[Hall ->]].
    - split; [|lia]. intros _. exists v. split; [by apply elem_of_list_lookup_2 in Hk|done].
    - split; [lia|]. intros (v & Hin & Hv). rewrite Forall_forall in Hall. apply Hall in Hin. congruence.
  Qed.
End scans.

Section lex.
  Context {T : Type} (ltb : T -> T -> bool).
  Context (Hirr : forall a, ltb a a = false)
          (Htr : forall a b c, ltb a b = true -> ltb b c = true -> ltb a c = true)
          (Htot : forall a b, ltb a b = false -> ltb b a = false -> a = b).
  Notation lex := (lex_lt (fun a b => ltb a b = true)).
  Lemma lex_irrefl a : ~ lex a a.
  Proof. induction a as [|x a IH]; intros H; inversion H; subst; [by rewrite Hirr in *|done]. Qed.
  Lemma lex_trans a b c : lex a b -> lex b c -> lex a c.
  Proof.
    intros H. revert c. induction H as [y b|x y a b Hxy|x a b H IH]; intros c Hc; inversion Hc; subst;
      try (apply LexNil); try (apply LexHead; by eauto); try (apply LexTail; by eauto).
  Qed.
  Lemma lex_app p a b : lex a b -> lex (p ++ a) (p ++ b).
  Proof. intros H. induction p; [done|]. by constructor. Qed.
  Lemma ord_zero a b : ord_compare ltb a b = 0%Z -> a = b.
  Proof.
    unfold ord_compare. destruct (ltb a b) eqn:E1; [done|]. destruct (ltb b a) eqn:E2; [done|].
    intros _. by apply Htot.
  Qed.
  Lemma F2_eq p1 p2 : Forall2 (fun a b => ord_compare ltb a b = 0%Z) p1 p2 -> p1 = p2.
  Proof. intros H. induction H as [|x y ? ? Hxy]; [done|]. apply ord_zero in Hxy as ->. by f_equal. Qed.
  Lemma compare_ok s1 s2 : exists c, compare ltb s1 s2 = Ok c /\
    ((c = (-1)%Z /\ lex s1 s2) \/ (c = 0%Z /\ s1 = s2) \/ (c = 1%Z /\ lex s2 s1)).
  Proof.
    unfold compare. destruct (compare_func_ok (ord_compare ltb) s1 s2) as (c & -> & H).
    exists c. split; [done|].
    destruct H as [(p1 & x & r1 & p2 & y & r2 & -> & -> & Hf & Hxy & ->)|
      [(p & x & r & -> & Hf & ->)|[(p & y & r & -> & Hf & ->)|[Hf ->]]]]; apply F2_eq in Hf; subst.
    - unfold ord_compare in *. destruct (ltb x y) eqn:E1.
      + left. split; [done|]. apply lex_app. by constructor.
      + destruct (ltb y x) eqn:E2; [|done]. right; right. split; [done|]. apply lex_app. by constructor.
    - right; right. split; [done|]. rewrite <- (app_nil_r s2) at 1. apply lex_app. constructor.
    - left. split; [done|]. rewrite <- (app_nil_r p) at 1. apply lex_app. constructor.
    - right; left. done.
  Qed.
  Lemma compare_iff s1 s2 : exists c, compare ltb s1 s2 = Ok c /\
    (c = (-1)%Z <-> lex s1 s2) /\ (c = 0%Z <-> s1 = s2) /\ (c = 1%Z <-> lex s2 s1) /\
    (c = (-1)%Z \/ c = 0%Z \/ c = 1%Z).
  Proof.
    destruct (compare_ok s1 s2) as (c & -> & H). exists c. split; [done|].
    assert (A1 : lex s1 s2 -> s1 = s2 -> False) by (intros ? ->; by eapply lex_irrefl).
    assert (A2 : lex s2 s1 -> s1 = s2 -> False) by (intros ? ->; by eapply lex_irrefl).
    assert (A3 : lex s1 s2 -> lex s2 s1 -> False) by (intros ??; eapply lex_irrefl, lex_trans; eauto).
    destruct H as [[-> H]|[[-> H]|[-> H]]]; (splits; [| | |auto]); split; try done; intros; exfalso; eauto.
  Qed.
End lex.

Section growp.
  Context {T : Type} (zero : T) (growcap : nat -> nat -> nat).
  Implicit Types (m : gmap nat (list T)) (s v : slice).
  Lemma grow_panic m s (n : Z) : (n < 0)%Z -> grow zero growcap m s n = Panic.
  Proof. intros. unfold grow. by rewrite decide_True. Qed.

End growp.

Section frame.
  Context {T : Type} (zero : T) (growcap : nat -> nat -> nat).
  Implicit Types (m : gmap nat (list T)) (s v : slice).
  Lemma append_ok (Hgrow : forall o n, n <= growcap o n) m s v : wf m s -> wf m v ->
    exists s' m', append zero growcap m s v = (s', m') /\ wf m' s' /\
      contents m' s' = contents m s ++ contents m v /\
      (len s + len v <= cap s -> only_window m m' s /\ arr s' = arr s /\ off s' = off s) /\
      (cap s < len s + len v -> fresh_result m m' s').
  Proof.
    intros Hs Hv. destruct (decide (len s + len v <= cap s)).
    - destruct (append_in_place zero growcap m s v) as (s' & m' & -> & ? & ? & ? & ? & ? & _); try done.
      exists s', m'. splits; try done. lia.
    - destruct (append_realloc zero growcap Hgrow m s v) as (s' & m' & -> & ? & ? & ? & _); try done; [lia|].
      exists s', m'. splits; try done.
  Qed.
End frame.

Section frame2.
  Context {T : Type}.
  Implicit Types (m : gmap nat (list T)) (s v : slice).
  Lemma keep_contents m m' t : (forall a c, m !! a = Some c -> m' !! a = Some c) -> wf m t ->
    contents m' t = contents m t.
  Proof.
    intros Hk [_ Ht]. unfold contents, cells. destruct (arr t) as [a|]; [|done].
    destruct Ht as (c & Ha & _). by rewrite (Hk _ _ Ha), Ha.
  Qed.
  Lemma fresh_isolated m m' m'' r t i x :
    fresh_result m m' r -> wf m t -> set m' r i x = Ok m'' -> contents m'' t = contents m t.
  Proof.
    intros (Hk & Hf & _) Ht Hset. apply keep_contents; [|done]. intros a c Ha.
    unfold set in Hset. case_decide; [|done]. injection Hset as <-. unfold write_at.
    destruct (arr r) as [b|] eqn:Eb; [|by apply Hk].
    rewrite lookup_alter_ne; [by apply Hk|]. intros E. rewrite E in Hf. by rewrite (Hf a eq_refl) in Ha.
  Qed.
  Lemma only_window_contents m m' s t :
    wf m s -> wf m t -> only_window m m' s -> no_alias s t -> contents m' t = contents m t.
  Proof.
    intros Hs Ht [H1 H2] Hna. destruct (decide (len t = 0)) as [Hl|Hl].
    { unfold contents. by rewrite Hl. }
    destruct (decide (arr t = arr s)) as [Ea|Ea].
    - assert (Ho : off t + len t <= off s \/ off s + cap s <= off t) by (unfold no_alias in Hna; naive_solver).
      destruct Ht as [Hlt Ht]. unfold contents, cells. destruct (arr t) as [a|]; [|done].
      destruct Ht as (c & Ha & Hc). destruct (H2 a c Ea Ha) as (c' & Ha' & Hlen & Hsame).
      rewrite Ha, Ha'. simpl. apply list_eq. intros k.
      destruct (decide (k < len t)); [|by rewrite !lookup_take_ge by lia].
      rewrite !lookup_take, !lookup_drop by done. apply Hsame. lia.
    - unfold contents, cells. destruct (arr t) as [a|] eqn:E; [|done]. by rewrite H1.
  Qed.
End frame2.
