From Verif Require Import Base Slice_Model Slice_Spec.

Section mem.
  Context {T : Type} (zero : T).
  Implicit Types (m : mem T) (s v : slice) (w : list T).

  Definition win m s : list T := take (cap s) (drop (off s) (cells m s)).
  Definition upd m s w : mem T :=
    match arr s with
    | None => m
    | Some a => alter (fun c => take (off s) c ++ w ++ drop (off s + cap s) c) a m
    end.

  Lemma win_length m s : wf m s -> length (win m s) = cap s.
  Proof.
    intros [_ H]. unfold win, cells. destruct (arr s) as [a|].
    - destruct H as (c & -> & Hc). simpl. rewrite take_length, drop_length. lia.
    - rewrite H. done.
  Qed.
  Lemma contents_win m s : wf m s -> contents m s = take (len s) (win m s).
  Proof. intros [H _]. unfold contents, win. rewrite take_take. f_equal. lia. Qed.
  Lemma contents_length m s : wf m s -> length (contents m s) = len s.
  Proof. intros H. rewrite contents_win by done. rewrite take_length, win_length by done. destruct H. lia. Qed.

  Lemma upd_win m s : wf m s -> upd m s (win m s) = m.
  Proof.
    intros [_ H]. unfold upd, win, cells. destruct (arr s) as [a|]; [|done].
    destruct H as (c & Ha & Hc). rewrite Ha. simpl. apply map_eq. intros b.
    destruct (decide (a = b)) as [->|]; [|by rewrite lookup_alter_ne].
    rewrite lookup_alter, Ha. simpl. f_equal.
    rewrite <- (take_drop (off s) c) at 4. f_equal.
    rewrite <- drop_drop. apply take_drop.
  Qed.
  Lemma win_upd m s w : wf m s -> length w = cap s -> win (upd m s w) s = w.
  Proof.
    intros [_ H] Hw. unfold upd, win, cells. destruct (arr s) as [a|].
    - destruct H as (c & Ha & Hc). rewrite lookup_alter, Ha. simpl.
      rewrite drop_app_alt by (rewrite take_length; lia).
      rewrite take_app_alt by lia. done.
    - rewrite H in *. by destruct w.
  Qed.
  Lemma upd_upd m s w1 w2 : wf m s -> length w1 = cap s -> upd (upd m s w1) s w2 = upd m s w2.
  Proof.
    intros [_ H] Hw. unfold upd. destruct (arr s) as [a|]; [|done].
    destruct H as (c & Ha & Hc). apply map_eq. intros b.
    destruct (decide (a = b)) as [->|]; [|by rewrite !lookup_alter_ne].
    rewrite !lookup_alter, Ha. simpl. f_equal.
    rewrite take_app_alt by (rewrite take_length; lia). f_equal. f_equal.
    rewrite app_assoc. rewrite drop_app_alt; [done|]. rewrite app_length, take_length. lia.
  Qed.
  Lemma upd_wf m s w t : wf m s -> length w = cap s -> wf m t -> wf (upd m s w) t.
  Proof.
    intros [_ H] Hw [Hl Ht]. split; [done|]. unfold upd. destruct (arr s) as [a|]; [|done].
    destruct H as (c & Ha & Hc). destruct (arr t) as [b|]; [|done].
    destruct Ht as (c' & Hb & Hc'). destruct (decide (a = b)) as [->|].
    - rewrite lookup_alter, Ha. simpl. eexists. split; [done|].
      assert (c = c') as <- by congruence.
      rewrite !app_length, take_length, drop_length. lia.
    - rewrite lookup_alter_ne by done. eauto.
  Qed.
  Lemma upd_only_window m s w : wf m s -> length w = cap s -> only_window m (upd m s w) s.
  Proof.
    intros [_ H] Hw. unfold upd. destruct (arr s) as [a|] eqn:Ea.
    - destruct H as (c & Ha & Hc). split.
      + intros b Hb. rewrite lookup_alter_ne; [done|]. congruence.
      + intros b c' Hb Hc'. rewrite Ea in Hb. injection Hb as ->. assert (c' = c) as -> by congruence. rewrite lookup_alter, Ha. simpl.
        eexists. split; [done|]. split.
        * rewrite !app_length, take_length, drop_length. lia.
        * intros k [Hk|Hk].
          -- rewrite lookup_app_l by (rewrite take_length; lia). by rewrite lookup_take.
          -- rewrite lookup_app_r by (rewrite take_length; lia).
             rewrite lookup_app_r by (rewrite take_length; lia).
             rewrite lookup_drop, take_length. f_equal. lia.
    - split; [done|]. intros b c Hb. rewrite Ea in Hb. done.
  Qed.
  Lemma only_window_refl m s : only_window m m s.
  Proof. split; [done|]. intros a c _ Ha. eauto. Qed.

  (* a part of s's window seen through another header on the same array *)
  Lemma contents_sub m s t k : wf m s -> arr t = arr s -> off t = off s + k -> k + len t <= cap s ->
    contents m t = take (len t) (drop k (win m s)).
  Proof.
    intros _ Ha Ho Hk. unfold contents, win, cells. rewrite Ha, Ho.
    rewrite skipn_firstn_comm, take_take, drop_drop. f_equal. lia.
  Qed.

  Lemma cells_lookup_upd m s w v k x : wf m s -> length w = cap s -> arr v = arr s ->
    (k < off s \/ off s + cap s <= k) -> cells (upd m s w) v !! k = x <-> cells m v !! k = x.
  Proof.
    intros Hs Hw Ha Hk. destruct (upd_only_window m s w Hs Hw) as [_ Hin].
    unfold cells. rewrite Ha. destruct (arr s) as [a|] eqn:Ea; [|done].
    destruct Hs as [_ Hs]. rewrite Ea in Hs. destruct Hs as (c & Hc & _).
    destruct (Hin a c eq_refl Hc) as (c' & -> & _ & Hsame). rewrite Hc. simpl.
    by rewrite Hsame.
  Qed.
  Lemma contents_upd_ne m s w v : wf m s -> length w = cap s -> no_alias s v ->
    contents (upd m s w) v = contents m v.
  Proof.
    intros Hs Hw Hna. destruct Hna as [Hl|[Ha|Ho]].
    - unfold contents. by rewrite Hl.
    - destruct (upd_only_window m s w Hs Hw) as [Hne _]. unfold contents, cells.
      destruct (arr v) as [b|]; [|done]. by rewrite Hne.
    - destruct (decide (arr v = arr s)) as [Ea|Ea].
      2:{ destruct (upd_only_window m s w Hs Hw) as [Hne _]. unfold contents, cells.
          destruct (arr v) as [b|]; [|done]. by rewrite Hne. }
      unfold contents. apply list_eq. intros k.
      destruct (decide (k < len v)); [|by rewrite !lookup_take_ge by lia].
      rewrite !lookup_take, !lookup_drop by done.
      apply (cells_lookup_upd m s w v); try done. lia.
  Qed.

  Lemma write_at_upd m s k vs : wf m s -> k + length vs <= cap s ->
    write_at m (arr s) (off s + k) vs =
    upd m s (take k (win m s) ++ vs ++ drop (k + length vs) (win m s)).
  Proof.
    intros [_ H] Hk. unfold write_at, upd, win, cells. destruct (arr s) as [a|]; [|done].
    destruct H as (c & Ha & Hc). rewrite Ha. simpl. apply map_eq. intros b.
    destruct (decide (a = b)) as [->|]; [|by rewrite !lookup_alter_ne].
    rewrite !lookup_alter, Ha. simpl. f_equal.
    apply list_eq. intros j.
    set (w := take (cap s) (drop (off s) c)).
    assert (Hwl : length w = cap s) by (unfold w; rewrite take_length, drop_length; lia).
    assert (Hwj : forall i, i < cap s -> w !! i = c !! (off s + i)).
    { intros i Hi. unfold w. rewrite lookup_take, lookup_drop by done. done. }
    destruct (decide (j < off s)).
    { rewrite list_lookup_inserts_lt by lia. rewrite lookup_app_l by (rewrite take_length; lia).
      by rewrite lookup_take. }
    rewrite lookup_app_r by (rewrite take_length; lia). rewrite take_length.
    replace (off s `min` length c) with (off s) by lia.
    destruct (decide (j < off s + k)).
    { rewrite list_lookup_inserts_lt by lia.
      rewrite lookup_app_l by (rewrite !app_length, take_length, drop_length; lia).
      rewrite lookup_app_l by (rewrite take_length; lia).
      rewrite lookup_take by lia. rewrite Hwj by lia. f_equal. lia. }
    destruct (decide (j < off s + k + length vs)).
    { rewrite list_lookup_inserts by lia.
      rewrite lookup_app_l by (rewrite !app_length, take_length, drop_length; lia).
      rewrite lookup_app_r by (rewrite take_length; lia). rewrite take_length.
      rewrite lookup_app_l by lia. f_equal. lia. }
    rewrite list_lookup_inserts_ge by lia.
    destruct (decide (j < off s + cap s)).
    { rewrite lookup_app_l by (rewrite !app_length, take_length, drop_length; lia).
      rewrite lookup_app_r by (rewrite take_length; lia). rewrite take_length.
      rewrite lookup_app_r by lia. rewrite lookup_drop. rewrite Hwj by lia. f_equal. lia. }
    rewrite lookup_app_r by (rewrite !app_length, take_length, drop_length; lia).
    rewrite lookup_drop. f_equal. rewrite !app_length, take_length, drop_length. lia.
  Qed.

  (* copy into a sub-slice d of s *)
  Lemma copy_upd m s d r k : wf m s -> arr d = arr s -> off d = off s + k -> k + len d <= cap s ->
    copy m d r = upd m s (take k (win m s) ++ take (len d) (contents m r) ++
                          drop (k + length (take (len d) (contents m r))) (win m s)).
  Proof.
    intros Hs Ha Ho Hk. unfold copy. rewrite Ha, Ho. apply write_at_upd; [done|].
    rewrite take_length. lia.
  Qed.

  (* allocation *)
  Lemma alloc_fresh m c : m !! fst (alloc m c) = None.
  Proof. unfold alloc; simpl. apply not_elem_of_dom. apply is_fresh. Qed.
  Lemma alloc_contents m c a m' v : alloc m c = (a, m') -> wf m v -> contents m' v = contents m v.
  Proof.
    intros E [_ Hv]. unfold alloc in E. simplify_eq. unfold contents, cells.
    destruct (arr v) as [b|]; [|done]. destruct Hv as (c' & Hb & _).
    rewrite lookup_insert_ne; [done|]. intros E.
    assert (m !! fresh (dom m) = None) by (apply not_elem_of_dom, is_fresh). congruence.
  Qed.
  Lemma alloc_wf m c a m' v : alloc m c = (a, m') -> wf m v -> wf m' v.
  Proof.
    intros E [Hl Hv]. unfold alloc in E. simplify_eq. split; [done|].
    destruct (arr v) as [b|]; [|done]. destruct Hv as (c' & Hb & ?). exists c'. split; [|done].
    rewrite lookup_insert_ne; [done|]. intros E.
    assert (m !! fresh (dom m) = None) by (apply not_elem_of_dom, is_fresh). congruence.
  Qed.

  (* the slice occupying a whole fresh array *)
  Lemma alloc_new m c a m' n : alloc m c = (a, m') -> n <= length c ->
    let r := Sl (Some a) 0 n (length c) in
    wf m' r /\ win m' r = c /\ m !! a = None /\
    (forall w, length w = length c -> forall b d, m !! b = Some d -> upd m' r w !! b = Some d).
  Proof.
    intros E Hn r. pose proof (alloc_fresh m c) as Hf. unfold alloc in E. simplify_eq. simpl in Hf.
    set (a := fresh (dom m)) in *.
    split_and!.
    - split; [done|]. exists c. split; [apply lookup_insert|done].
    - unfold win, cells; simpl. rewrite lookup_insert. simpl. rewrite drop_0. by rewrite firstn_all.
    - done.
    - intros w Hw b d Hb. unfold upd; simpl. assert (a <> b) by (intros E; rewrite <- E in Hb; rewrite Hf in Hb; done).
      rewrite lookup_alter_ne, lookup_insert_ne by done. done.
  Qed.
  Lemma fresh_no_alias m c a m' v n k : alloc m c = (a, m') -> wf m v -> no_alias (Sl (Some a) 0 n k) v.
  Proof.
    intros E [_ Hv]. pose proof (alloc_fresh m c) as Hf. rewrite E in Hf. simpl in Hf.
    right; left. simpl. intros Ea. rewrite Ea in Hv. destruct Hv as (d & ? & _). congruence.
  Qed.
End mem.

(* windows: list algebra *)
Lemma take_app_le' {A} (l k : list A) n : n <= length l -> take n (l ++ k) = take n l.
Proof. intros. by rewrite take_app_le. Qed.

Section ops.
  Context {T : Type} (zero : T).
  Implicit Types (m : mem T) (s v : slice).

  Lemma sub_ok s i j : (0 <= i <= j)%Z -> (j <= Z.of_nat (cap s))%Z ->
    sub s i j = Ok (Sl (arr s) (off s + Z.to_nat i) (Z.to_nat (j - i)) (cap s - Z.to_nat i)).
  Proof. intros. unfold sub. rewrite decide_True by lia. done. Qed.
  Lemma sub_panic s i j : ~ (0 <= i /\ i <= j /\ j <= Z.of_nat (cap s))%Z -> sub s i j = Panic.
  Proof. intros. unfold sub. by rewrite decide_False. Qed.

  (* common core of Insert and Replace, given i <= j <= len s *)
  Definition splice_in m s (i j : nat) v : slice * mem T :=
    let tot := i + len v + (len s - j) in
    let s2 := Sl (arr s) (off s) tot (cap s) in
    let d := Sl (arr s) (off s + (i + len v)) (tot - (i + len v)) (cap s - (i + len v)) in
    let r := Sl (arr s) (off s + j) (len s - j) (cap s - j) in
    let m1 := copy m d r in
    let d2 := Sl (arr s) (off s + i) (tot - i) (cap s - i) in
    (s2, copy m1 d2 v).

  Lemma splice_in_ok m s i j v : wf m s -> wf m v -> i <= j -> j <= len s ->
    i + len v + (len s - j) <= cap s -> no_alias s v ->
    exists s' m', splice_in m s i j v = (s', m') /\ wf m' s' /\
      contents m' s' = take i (contents m s) ++ contents m v ++ drop j (contents m s) /\
      only_window m m' s /\ arr s' = arr s /\ off s' = off s /\ cap s' = cap s /\
      (forall t, wf m t -> wf m' t).
  Proof.
    intros Hs Hv Hij Hj Htot Hna. unfold splice_in.
    set (tot := i + len v + (len s - j)) in *.
    set (s2 := Sl (arr s) (off s) tot (cap s)).
    set (d := Sl _ (off s + (i + len v)) _ _). set (r := Sl _ (off s + j) _ _).
    set (d2 := Sl _ (off s + i) _ _).
    pose proof (proj1 Hs) as Hlc.
    set (w := win m s). assert (Hw : length w = cap s) by (by apply win_length).
    assert (Hr : contents m r = drop j (take (len s) w)).
    { rewrite (contents_sub m s r j) by (simpl; done || lia). simpl.
      fold w. by rewrite skipn_firstn_comm. }
    assert (Hrl : length (contents m r) = len s - j).
    { rewrite Hr, drop_length, take_length. lia. }
    set (w1 := take (i + len v) w ++ drop j (take (len s) w) ++ drop tot w).
    assert (Hw1 : length w1 = cap s).
    { unfold w1. rewrite !app_length, !take_length, !drop_length, take_length. lia. }
    assert (Hm1 : copy m d r = upd m s w1).
    { rewrite (copy_upd m s d r (i + len v)) by (simpl; done || lia). f_equal. fold w. unfold w1.
      simpl. rewrite (take_ge (contents m r)) by (rewrite Hrl; lia). rewrite Hrl, Hr. do 3 (f_equal; try lia). }
    rewrite Hm1.
    assert (Hs1 : wf (upd m s w1) s) by (by apply upd_wf).
    assert (Hcv : contents (upd m s w1) v = contents m v) by (by apply contents_upd_ne).
    pose proof (contents_length m v Hv) as Hvl.
    set (w2 := take i w ++ contents m v ++ drop j (take (len s) w) ++ drop tot w).
    assert (Hw2 : length w2 = cap s).
    { unfold w2. rewrite !app_length, take_length, !drop_length, take_length. lia. }
    assert (Hm2 : copy (upd m s w1) d2 v = upd m s w2).
    { rewrite (copy_upd _ s d2 v i) by (simpl; done || lia).
      rewrite win_upd by done. rewrite Hcv. simpl. rewrite (take_ge (contents m v)) by lia.
      rewrite upd_upd by done. f_equal. unfold w2, w1. rewrite Hvl.
      rewrite take_app_le by (rewrite take_length; lia). rewrite take_take.
      replace (i `min` (i + len v)) with i by lia. f_equal. f_equal.
      rewrite drop_app_alt; [done|]. rewrite take_length. lia. }
    rewrite Hm2. exists s2, (upd m s w2). split; [done|].
    assert (Hs2 : wf (upd m s w2) s2).
    { assert (wf (upd m s w2) s) as [_ Hx] by (by apply upd_wf). split; [simpl; lia|done]. }
    split_and!; try done.
    - rewrite contents_win by done.
      change (win (upd m s w2) s2) with (win (upd m s w2) s). rewrite win_upd by done.
      simpl. unfold w2. rewrite (contents_win m s) by done. fold w.
      rewrite take_take. replace (i `min` len s) with i by lia.
      rewrite !app_assoc. rewrite take_app_alt; [done|].
      rewrite !app_length, take_length, drop_length, take_length. lia.
    - by apply upd_only_window.
    - intros t Ht. by apply upd_wf.
  Qed.

  (* common core of the reallocating paths *)
  Definition splice_new m s (i j : nat) v : slice * mem T :=
    let tot := i + len v + (len s - j) in
    let '(s2, m0) := make zero m tot in
    let r1 := Sl (arr s) (off s) i (cap s) in
    let m1 := copy m0 s2 r1 in
    let d := Sl (arr s2) (off s2 + i) (tot - i) (cap s2 - i) in
    let m2 := copy m1 d v in
    let d2 := Sl (arr s2) (off s2 + (i + len v)) (tot - (i + len v)) (cap s2 - (i + len v)) in
    let r2 := Sl (arr s) (off s + j) (len s - j) (cap s - j) in
    (s2, copy m2 d2 r2).

  Lemma splice_new_ok m s i j v : wf m s -> wf m v -> i <= j -> j <= len s ->
    exists s' m', splice_new m s i j v = (s', m') /\ wf m' s' /\
      contents m' s' = take i (contents m s) ++ contents m v ++ drop j (contents m s) /\
      fresh_result m m' s' /\ len s' = cap s' /\ (forall t, wf m t -> wf m' t).
  Proof.
    intros Hs Hv Hij Hj. unfold splice_new, make.
    set (tot := i + len v + (len s - j)).
    destruct (alloc m (replicate tot zero)) as [a m0] eqn:Ea.
    pose proof (proj1 Hs) as Hlc.
    destruct (alloc_new m (replicate tot zero) a m0 tot Ea) as (Hwf0 & Hwin0 & Hfr & Hkeep).
    { by rewrite replicate_length. }
    rewrite replicate_length in *.
    set (s2 := Sl (Some a) 0 tot tot) in *. simpl.
    set (r1 := Sl _ _ i _). set (d := Sl (Some a) i _ _). set (d2 := Sl (Some a) (i + len v) _ _).
    set (r2 := Sl _ (off s + j) _ _).
    assert (Hr1wf : wf m r1). { destruct Hs as [? Hx]. split; [simpl; lia|done]. }
    assert (Hr2wf : wf m r2).
    { destruct Hs as [? Hx]. split; [simpl; lia|]. simpl. destruct (arr s); [|lia].
      destruct Hx as (c & ? & ?). exists c. split; [done|lia]. }
    assert (Hr1 : contents m r1 = take i (contents m s)).
    { rewrite (contents_sub m s r1 0) by (simpl; done || lia). simpl. rewrite drop_0.
      rewrite (contents_win m s) by done. rewrite take_take. f_equal. lia. }
    assert (Hr2 : contents m r2 = drop j (contents m s)).
    { rewrite (contents_sub m s r2 j) by (simpl; done || lia). simpl.
      rewrite (contents_win m s) by done. rewrite skipn_firstn_comm. f_equal; lia. }
    pose proof (contents_length m s Hs) as Hsl.
    pose proof (contents_length m v Hv) as Hvl.
    assert (forall t, wf m t -> no_alias s2 t) as Hna.
    { intros t Ht. by eapply fresh_no_alias. }
    assert (Hc0 : forall t, wf m t -> contents m0 t = contents m t).
    { intros t Ht. by eapply alloc_contents. }
    set (w1 := take i (contents m s) ++ replicate (tot - i) zero).
    assert (Hw1 : length w1 = tot). { unfold w1. rewrite app_length, take_length, replicate_length. lia. }
    assert (Hm1 : copy m0 s2 r1 = upd m0 s2 w1).
    { rewrite (copy_upd m0 s2 s2 r1 0) by (simpl; done || lia). f_equal.
      rewrite Hwin0, Hc0, Hr1 by done. simpl. unfold w1.
      rewrite (take_ge _ tot) by (rewrite take_length; lia). f_equal.
      rewrite drop_replicate, take_length. f_equal. lia. }
    rewrite Hm1.
    assert (Hwf1 : wf (upd m0 s2 w1) s2) by (by apply upd_wf).
    set (w2 := take i (contents m s) ++ contents m v ++ replicate (tot - i - len v) zero).
    assert (Hw2 : length w2 = tot).
    { unfold w2. rewrite !app_length, take_length, replicate_length. lia. }
    assert (Hm2 : copy (upd m0 s2 w1) d v = upd m0 s2 w2).
    { rewrite (copy_upd _ s2 d v i) by (simpl; done || lia).
      rewrite win_upd by done. rewrite contents_upd_ne by (done || apply Hna; done).
      rewrite Hc0 by done. simpl. rewrite (take_ge (contents m v)) by lia.
      rewrite upd_upd by done. f_equal. unfold w2, w1.
      rewrite take_app_alt by (rewrite take_length; lia). f_equal. f_equal.
      rewrite drop_app_ge by (rewrite take_length; lia). rewrite drop_replicate, take_length. f_equal. lia. }
    rewrite Hm2.
    assert (Hwf2 : wf (upd m0 s2 w2) s2) by (by apply upd_wf).
    set (w3 := take i (contents m s) ++ contents m v ++ drop j (contents m s)).
    assert (Hw3 : length w3 = tot).
    { unfold w3. rewrite !app_length, take_length, drop_length. lia. }
    assert (Hm3 : copy (upd m0 s2 w2) d2 r2 = upd m0 s2 w3).
    { rewrite (copy_upd _ s2 d2 r2 (i + len v)) by (simpl; done || lia).
      rewrite win_upd by done. rewrite contents_upd_ne by (done || apply Hna; done).
      rewrite Hc0 by done. rewrite Hr2. simpl.
      rewrite (take_ge (drop j _)) by (rewrite drop_length; lia).
      rewrite upd_upd by done. f_equal. unfold w3, w2.
      rewrite (app_assoc (take i (contents m s)) (contents m v) (replicate _ _)).
      rewrite take_app_alt by (rewrite app_length, take_length; lia).
      rewrite <- app_assoc. f_equal. f_equal.
      rewrite (drop_ge (_ ++ _)); [by rewrite app_nil_r|].
      rewrite !app_length, take_length, drop_length, replicate_length. lia. }
    rewrite Hm3. exists s2, (upd m0 s2 w3). split; [done|].
    assert (Hwf3 : wf (upd m0 s2 w3) s2) by (by apply upd_wf).
    split_and!; try done.
    - rewrite contents_win, win_upd by done. simpl. by rewrite take_ge by lia.
    - split_and!; [|simpl; intros ? [= ->]; done|done].
      intros b c Hb. by apply Hkeep.
    - intros t Ht. apply upd_wf; [done|done|]. by eapply alloc_wf.
  Qed.

  Definition in_range s (i j : Z) : Prop := (0 <= i <= j /\ j <= Z.of_nat (len s))%Z.

  Lemma insert_eq m s (i : Z) v : wf m s -> (0 <= i <= Z.of_nat (len s))%Z ->
    insert zero m s i v = Ok (if decide (len s + len v <= cap s)
       then splice_in m s (Z.to_nat i) (Z.to_nat i) v else splice_new m s (Z.to_nat i) (Z.to_nat i) v).
  Proof.
    intros Hs Hi. destruct Hs as [Hlc _]. unfold insert, splice_in, splice_new. case_decide as Hc.
    - unfold sub_to, sub_from. cbn [rbind].
      rewrite sub_ok by lia. cbn [rbind len arr off cap].
      rewrite sub_ok by (cbn [cap]; lia). cbn [rbind len arr off cap].
      rewrite sub_ok by lia. cbn [rbind len arr off cap].
      rewrite sub_ok by (cbn [cap]; lia). cbn [rbind len arr off cap].
      rewrite !Nat.add_0_r. repeat (f_equal; try lia).
    - replace (Z.to_nat i + len v + (len s - Z.to_nat i)) with (len s + len v) by lia.
      unfold make. destruct (alloc m _) as [a m0]. unfold sub_to, sub_from.
      rewrite sub_ok by lia. cbn [rbind len arr off cap].
      rewrite sub_ok by (cbn [cap]; lia). cbn [rbind len arr off cap].
      rewrite sub_ok by (cbn [cap]; lia). cbn [rbind len arr off cap].
      rewrite sub_ok by lia. cbn [rbind len arr off cap].
      rewrite ?Nat.add_0_r. repeat (f_equal; try lia).
  Qed.
  Lemma insert_panic m s (i : Z) v : wf m s -> ~ (0 <= i <= Z.of_nat (len s))%Z ->
    insert zero m s i v = Panic.
  Proof.
    intros [Hlc _] Hi. unfold insert, sub_to, sub_from. case_decide as Hc.
    - rewrite sub_ok by lia. cbn [rbind len arr off cap].
      destruct (sub _ (i + _) _) eqn:E; cbn [rbind]; [|done|unfold sub in E; case_decide; done].
      rewrite sub_panic by lia. done.
    - unfold make. destruct (alloc m _) as [a m0].
      destruct (decide (0 <= i <= Z.of_nat (cap s))%Z).
      + rewrite sub_ok by lia. cbn [rbind len arr off cap].
        destruct (sub (Sl _ _ _ _) i _) eqn:E; cbn [rbind]; [|done|unfold sub in E; case_decide; done].
        rewrite sub_panic by (cbn [cap]; lia). done.
      + rewrite sub_panic by lia. done.
  Qed.

  Lemma replace_eq m s (i j : Z) v : wf m s -> (0 <= i <= j /\ j <= Z.of_nat (len s))%Z ->
    replace zero m s i j v = Ok (if decide (Z.to_nat i + len v + (len s - Z.to_nat j) <= cap s)
       then splice_in m s (Z.to_nat i) (Z.to_nat j) v else splice_new m s (Z.to_nat i) (Z.to_nat j) v).
  Proof.
    intros Hs Hi. destruct Hs as [Hlc _]. unfold replace, splice_in, splice_new, sub_to, sub_from.
    rewrite (sub_ok s i j) by lia. cbn [rbind].
    rewrite (sub_ok s 0 i) by lia. cbn [rbind].
    rewrite (sub_ok s j) by lia. cbn [rbind len].
    replace (Z.to_nat (i - 0)) with (Z.to_nat i) by lia.
    replace (Z.to_nat (Z.of_nat (len s) - j)) with (len s - Z.to_nat j) by lia.
    case_decide as Hc.
    - rewrite sub_ok by lia. cbn [rbind len arr off cap].
      rewrite sub_ok by (cbn [cap]; lia). cbn [rbind len arr off cap].
      rewrite sub_ok by (cbn [cap]; lia). cbn [rbind len arr off cap].
      rewrite !Nat.add_0_r. repeat (f_equal; try lia).
    - unfold make. destruct (alloc m _) as [a m0].
      cbn [rbind len arr off cap].
      rewrite sub_ok by (cbn [cap]; lia). cbn [rbind len arr off cap].
      rewrite sub_ok by (cbn [cap]; lia). cbn [rbind len arr off cap].
      rewrite ?Nat.add_0_r. repeat (f_equal; try lia).
  Qed.
  Lemma replace_panic m s (i j : Z) v : wf m s -> ~ (0 <= i <= j /\ j <= Z.of_nat (len s))%Z ->
    replace zero m s i j v = Panic.
  Proof.
    intros [Hlc _] Hi. unfold replace, sub_to, sub_from.
    destruct (decide (0 <= i <= j /\ j <= Z.of_nat (cap s))%Z).
    - rewrite (sub_ok s i j) by lia. cbn [rbind].
      rewrite (sub_ok s 0 i) by lia. cbn [rbind].
      rewrite (sub_panic s j) by lia. done.
    - rewrite sub_panic by lia. done.
  Qed.

  Lemma insert_ok m s (i : Z) v : wf m s -> wf m v -> (0 <= i <= Z.of_nat (len s))%Z ->
    (len s + len v <= cap s -> no_alias s v) ->
    exists s' m', insert zero m s i v = Ok (s', m') /\ wf m' s' /\
      contents m' s' = take (Z.to_nat i) (contents m s) ++ contents m v ++ drop (Z.to_nat i) (contents m s) /\
      (if decide (len s + len v <= cap s)
       then only_window m m' s /\ arr s' = arr s /\ off s' = off s else fresh_result m m' s') /\
      (forall t, wf m t -> wf m' t).
  Proof.
    intros Hs Hv Hi Hna. rewrite insert_eq by done. case_decide as Hc.
    - destruct (splice_in_ok m s (Z.to_nat i) (Z.to_nat i) v)
        as (s' & m' & -> & ? & ? & ? & ? & ? & ? & ?); try done; try lia; [by apply Hna|].
      exists s', m'. split_and!; done.
    - destruct (splice_new_ok m s (Z.to_nat i) (Z.to_nat i) v)
        as (s' & m' & -> & ? & ? & ? & ? & ?); try done; try lia.
      exists s', m'. split_and!; done.
  Qed.
  Lemma replace_ok m s (i j : Z) v : wf m s -> wf m v -> (0 <= i <= j /\ j <= Z.of_nat (len s))%Z ->
    (Z.to_nat i + len v + (len s - Z.to_nat j) <= cap s -> no_alias s v) ->
    exists s' m', replace zero m s i j v = Ok (s', m') /\ wf m' s' /\
      contents m' s' = take (Z.to_nat i) (contents m s) ++ contents m v ++ drop (Z.to_nat j) (contents m s) /\
      (if decide (Z.to_nat i + len v + (len s - Z.to_nat j) <= cap s)
       then only_window m m' s /\ arr s' = arr s /\ off s' = off s else fresh_result m m' s') /\
      (forall t, wf m t -> wf m' t).
  Proof.
    intros Hs Hv Hi Hna. rewrite replace_eq by done. case_decide as Hc.
    - destruct (splice_in_ok m s (Z.to_nat i) (Z.to_nat j) v)
        as (s' & m' & -> & ? & ? & ? & ? & ? & ? & ?); try done; try lia; [by apply Hna|].
      exists s', m'. split_and!; done.
    - destruct (splice_new_ok m s (Z.to_nat i) (Z.to_nat j) v)
        as (s' & m' & -> & ? & ? & ? & ? & ?); try done; try lia.
      exists s', m'. split_and!; done.
  Qed.
End ops.

Section ops2.
  Context {T : Type} (zero : T) (growcap : nat -> nat -> nat).
  Implicit Types (m : mem T) (s v : slice).
  (* append *)
  Lemma append_in_place m s v : wf m s -> wf m v -> len s + len v <= cap s ->
    exists s' m', append zero growcap m s v = (s', m') /\ wf m' s' /\
      contents m' s' = contents m s ++ contents m v /\ only_window m m' s /\
      arr s' = arr s /\ off s' = off s /\ cap s' = cap s /\ contents m' s = contents m s /\
      (forall t, wf m t -> wf m' t).
  Proof.
    intros Hs Hv Hc. unfold append. rewrite decide_True by done.
    pose proof (proj1 Hs) as Hlc.
    pose proof (contents_length m v Hv) as Hvl.
    rewrite write_at_upd by (done || lia).
    set (w := win m s). assert (Hw : length w = cap s) by (by apply win_length).
    set (w' := take (len s) w ++ contents m v ++ drop (len s + length (contents m v)) w).
    assert (Hw' : length w' = cap s).
    { unfold w'. rewrite !app_length, take_length, drop_length. lia. }
    eexists _, _. split; [done|].
    assert (Hs' : wf (upd m s w') (Sl (arr s) (off s) (len s + len v) (cap s))).
    { assert (wf (upd m s w') s) as [_ Hx] by (by apply upd_wf). split; [simpl; lia|done]. }
    split_and!; try done.
    - rewrite contents_win by done.
      change (win (upd m s w') (Sl (arr s) (off s) (len s + len v) (cap s))) with (win (upd m s w') s).
      rewrite win_upd by done.
      simpl. unfold w'. rewrite app_assoc. rewrite take_app_alt.
      + by rewrite (contents_win m s).
      + rewrite app_length, take_length. lia.
    - by apply upd_only_window.
    - rewrite !contents_win by (done || by apply upd_wf). rewrite win_upd by done. unfold w'.
      rewrite take_app_alt; [done|]. rewrite take_length. lia.
    - intros t Ht. by apply upd_wf.
  Qed.
  Lemma append_realloc (Hgrow : forall o n, n <= growcap o n) m s v : wf m s -> wf m v -> cap s < len s + len v ->
    exists s' m', append zero growcap m s v = (s', m') /\ wf m' s' /\
      contents m' s' = contents m s ++ contents m v /\ fresh_result m m' s' /\
      cap s' = growcap (cap s) (len s + len v) /\ off s' = 0 /\ (forall t, wf m t -> wf m' t).
  Proof.
    intros Hs Hv Hc. unfold append. rewrite decide_False by lia.
    pose proof (contents_length m v Hv) as Hvl. pose proof (contents_length m s Hs) as Hsl.
    pose proof (Hgrow (cap s) (len s + len v)) as Hg.
    set (c := growcap _ _) in *.
    destruct (alloc m _) as [a m0] eqn:Ea.
    destruct (alloc_new m _ a m0 (len s + len v) Ea) as (Hwf & Hwin & Hfr & Hkeep).
    { rewrite !app_length, replicate_length. lia. }
    assert (Hlen : length (contents m s ++ contents m v ++ replicate (c - (len s + len v)) zero) = c).
    { rewrite !app_length, replicate_length. lia. }
    rewrite Hlen in Hwf, Hwin, Hkeep. eexists _, _. split; [done|]. split_and!; try done.
    - rewrite contents_win by done. rewrite Hwin. simpl. rewrite app_assoc. apply take_app_alt.
      rewrite app_length. lia.
    - split_and!; [|simpl; intros ? [= ->]; done|done].
      intros b d Hb. assert (Hx := Hkeep _ Hlen b d Hb).
      rewrite <- Hwin, upd_win in Hx by done. done.
    - intros t Ht. by eapply alloc_wf.
  Qed.

  (* Delete *)
  Lemma delete_ok m s (i j : Z) : wf m s -> (0 <= i <= j /\ j <= Z.of_nat (len s))%Z ->
    exists s' m', delete zero growcap m s i j = Ok (s', m') /\ wf m' s' /\
      contents m' s' = take (Z.to_nat i) (contents m s) ++ drop (Z.to_nat j) (contents m s) /\
      only_window m m' s /\ arr s' = arr s /\ off s' = off s /\ (forall t, wf m t -> wf m' t).
  Proof.
    intros Hs Hi. pose proof (proj1 Hs) as Hlc. unfold delete, sub_to, sub_from.
    rewrite (sub_ok s i j) by lia. cbn [rbind].
    rewrite (sub_ok s 0 i) by lia. cbn [rbind].
    rewrite (sub_ok s j) by lia. cbn [rbind].
    set (a := Sl _ _ (Z.to_nat (i - 0)) _). set (b := Sl _ _ (Z.to_nat (Z.of_nat (len s) - j)) _).
    assert (Ha : wf m a).
    { destruct Hs as [_ Hx]. split; [simpl; lia|]. simpl. destruct (arr s); [|lia].
      destruct Hx as (c & ? & ?). exists c. split; [done|lia]. }
    assert (Hb : wf m b).
    { destruct Hs as [_ Hx]. split; [simpl; lia|]. simpl. destruct (arr s); [|lia].
      destruct Hx as (c & ? & ?). exists c. split; [done|lia]. }
    destruct (append_in_place m a b Ha Hb) as (s' & m' & -> & Hwf & Hcont & Hwin & Harr & Hoff & _ & _ & Hall).
    { simpl. lia. }
    exists s', m'. split; [done|]. split_and!; try done.
    - rewrite Hcont. f_equal.
      + rewrite (contents_sub m s a 0) by (simpl; done || lia). rewrite drop_0. simpl.
        rewrite (contents_win m s) by done. rewrite take_take. f_equal. lia.
      + rewrite (contents_sub m s b (Z.to_nat j)) by (simpl; done || lia). simpl.
        rewrite (contents_win m s) by done. rewrite skipn_firstn_comm. f_equal. lia.
    - destruct Hwin as [H1 H2]. split; [done|]. simpl in H2.
      replace (off s + Z.to_nat 0 + (cap s - Z.to_nat 0)) with (off s + cap s) in H2 by lia.
      by replace (off s + Z.to_nat 0) with (off s) in H2 by lia.
    - rewrite Hoff. simpl. lia.
  Qed.
  Lemma delete_panic m s (i j : Z) : wf m s -> ~ (0 <= i <= j /\ j <= Z.of_nat (len s))%Z ->
    delete zero growcap m s i j = Panic.
  Proof.
    intros [Hlc _] Hi. unfold delete, sub_to, sub_from.
    destruct (decide (0 <= i <= j /\ j <= Z.of_nat (cap s))%Z).
    - rewrite (sub_ok s i j) by lia. cbn [rbind].
      rewrite (sub_ok s 0 i) by lia. cbn [rbind].
      rewrite (sub_panic s j) by lia. done.
    - rewrite sub_panic by lia. done.
  Qed.
End ops2.
