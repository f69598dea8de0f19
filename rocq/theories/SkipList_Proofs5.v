(** Skip list: what a client sees; search and ranges on sorted lists. *)
From Verif Require Import Base Iter_Model Iter_Spec Split_Model WalkSplit_Model WalkSplit_Spec WalkSplit_Proofs
  SkipList_Model SkipList_Spec SkipList_Proofs SkipList_Proofs2 SkipList_Proofs3 SkipList_Proofs4.

Section obs.
  Context {K V : Type} (vzero : V).
  Implicit Types (h : heap K V) (s : slist K V) (ns : list nat).
  Notation hts h := (fun l => ht (h l)).

  Lemma next_of s ns C x R : repr s ns -> ns = C ++ x :: R -> fwd (hp s x) 0 = head R /\ rd_fwd (hp s) x 0 = Ok (head R).
  Proof.
    intros HR EN. destruct (fwd0_of s ns HR (C ++ [x]) R x (hdr s :: C)) as [E _]; [by rewrite <- app_assoc|done|].
    split; [|done]. unfold rd_fwd in E. case_decide; [by injection E|done].
  Qed.
  Lemma first_of s ns : repr s ns -> first s = head ns.
  Proof.
    intros HR. destruct (fwd0_of s ns HR [] ns (hdr s) []) as [E _]; [done|done|].
    unfold first. unfold rd_fwd in E. case_decide; [by injection E|done].
  Qed.

  Lemma iter_drains s ns : repr s ns -> exists st, drains (iter_next s) (first s) (ents s ns) st.
  Proof.
    intros HR. rewrite (first_of s ns HR).
    assert (G : forall R C, ns = C ++ R -> exists st, drains (iter_next s) (head R) (ents s R) st).
    { induction R as [|x R IH]; intros C EN.
      - exists None, None. split; [constructor|done].
      - destruct (IH (C ++ [x])) as (st & s1 & P & Ex); [by rewrite <- app_assoc|].
        destruct (next_of s ns C x R HR EN) as [_ En].
        exists st, s1. split; [|done]. cbn [ents head]. econstructor; [|exact P]. cbn. rewrite En. done. }
    apply (G ns []). done.
  Qed.

  (** GetByRank, lines 362-377 *)
  Lemma rank_walk_ok s ns (HR : repr s ns) rr i fuel : forall C x R, hdr s :: ns = C ++ x :: R -> i < ht (hp s x) -> i < level s ->
    length R < fuel -> (Z.of_nat (length C) <= rr)%Z ->
    exists C' x' R', rank_walk fuel (hp s) rr i x (Z.of_nat (length C)) = Ok (x', Z.of_nat (length C')) /\
      hdr s :: ns = C' ++ x' :: R' /\ i < ht (hp s x') /\ length R' <= length R /\ (Z.of_nat (length C') <= rr)%Z /\
      (i = 0 -> R' = [] \/ Z.of_nat (length C') = rr).
  Proof.
    induction fuel as [|f IH]; intros C x R HX Hi Hl Hf Hr; [lia|].
    cbn [rank_walk]. rewrite rd_fwd_ok, rd_span_ok by done. cbn [rbind].
    pose proof (r_links _ _ HR _ _ _ HX i Hi Hl) as L. fold (lnk (hp s) x i) in L. rewrite L.
    destruct (nx (hts (hp s)) i R) as [[y|] d] eqn:EN; cbn [fst snd].
    - destruct (nx_some _ _ _ _ _ EN) as (P & Q & -> & HP & Hy & ->).
      assert (EL : (Z.of_nat (length C) + Z.of_nat (S (length P)))%Z = Z.of_nat (length (C ++ x :: P))) by (rewrite app_length; cbn; lia).
      case_decide as Hd.
      + rewrite EL in *. destruct (IH (C ++ x :: P) y Q) as (C' & x' & R' & E & HX' & Hx' & HL & Hr' & H0);
          [by rewrite HX, <- app_assoc|done|done|rewrite app_length in Hf; cbn in Hf; lia|done|].
        exists C', x', R'. splits; try done. rewrite app_length. cbn. lia.
      + exists C, x, (P ++ y :: Q). splits; try done. intros ->.
        destruct P as [|p P]; [right; cbn in Hd; lia|]. apply Forall_cons in HP as [HP _].
        assert (p ∈ hdr s :: ns) as Hp; [|apply (in_ht s ns HR) in Hp; lia]. rewrite HX. apply elem_of_app. right. right. left.
    - exists C, x, R. splits; try done. intros ->. left. apply nx_none in EN as [Hlow _].
      destruct R as [|p R]; [done|]. apply Forall_cons in Hlow as [HP _].
      assert (p ∈ hdr s :: ns) as Hp; [|apply (in_ht s ns HR) in Hp; lia]. rewrite HX. apply elem_of_app. right. right. left.
  Qed.
  Lemma rank_from_ok s ns (HR : repr s ns) rr fuel n : forall C x R, hdr s :: ns = C ++ x :: R -> n <= ht (hp s x) -> n <= level s ->
    length R < fuel -> (Z.of_nat (length C) <= rr)%Z ->
    (n = 0 -> R = [] /\ Z.of_nat (length C) <> rr) ->
    rank_from vzero fuel (hp s) rr n x (Z.of_nat (length C)) =
      Ok (match (hdr s :: ns) !! Z.to_nat rr with Some y => val (hp s y) | None => vzero end).
  Proof.
    induction n as [|i IH]; intros C x R HX Hx Hl Hf Hr H0; cbn [rank_from].
    - destruct (H0 eq_refl) as [-> Hne]. rewrite lookup_ge_None_2; [done|]. rewrite HX, app_length. cbn. lia.
    - destruct (rank_walk_ok s ns HR rr i fuel C x R HX) as (C' & x' & R' & -> & HX' & Hx' & HL & Hr' & Hz); [lia|lia|done|done|].
      cbn [rbind]. case_decide as Hd.
      + rewrite HX'. rewrite list_lookup_middle; [done|lia].
      + apply IH with (R := R'); [done|lia|lia|lia|done|]. intros ->. destruct (Hz eq_refl) as [|]; done.
  Qed.
  Lemma get_by_rank_ok s ns r fuel : repr s ns -> length ns < fuel -> val (hp s (hdr s)) = vzero ->
    get_by_rank vzero fuel s r =
      Ok (if decide (1 <= r)%Z then match ents s ns !! Z.to_nat (r - 1) with Some e => e.2 | None => vzero end else vzero).
  Proof.
    intros HR Hf Hv. unfold get_by_rank. pose proof (r_lv _ _ HR) as HLv. pose proof (r_hdr _ _ HR) as HH.
    destruct (decide (0 <= r)%Z) as [H0|H0].
    - change 0%Z with (Z.of_nat (length (@nil nat))). rewrite (rank_from_ok s ns HR r fuel (level s) [] (hdr s) ns); [|done|lia|lia|done|cbn; lia|lia].
      f_equal. case_decide as H1.
      + replace (Z.to_nat r) with (S (Z.to_nat (r - 1))) by lia. cbn. unfold ents. rewrite list_lookup_fmap. by destruct (ns !! _).
      + replace (Z.to_nat r) with 0 by lia. done.
    - rewrite decide_False by lia.
      (* a negative rank: never moves *)
      assert (G : forall n, n <= level s -> rank_from vzero fuel (hp s) r n (hdr s) 0 = Ok vzero).
      { induction n as [|i IH]; intros Hn; cbn [rank_from]; [done|]. destruct fuel as [|f]; [lia|]. cbn [rank_walk].
        rewrite rd_fwd_ok, rd_span_ok by lia. cbn [rbind].
        pose proof (r_links _ _ HR [] (hdr s) ns eq_refl i ltac:(lia) ltac:(lia)) as L. fold (lnk (hp s) (hdr s) i) in L. rewrite L.
        destruct (nx (hts (hp s)) i ns) as [[y|] d] eqn:EN; cbn [fst snd].
        - destruct (nx_some _ _ _ _ _ EN) as (P & Q & _ & _ & _ & ->). rewrite decide_False by lia. cbn [rbind]. rewrite decide_False by lia. apply IH. lia.
        - cbn [rbind]. rewrite decide_False by lia. apply IH. lia. }
      apply G. lia.
  Qed.

  Lemma shows_ok s ns fuel : repr s ns -> length ns < fuel -> val (hp s (hdr s)) = vzero -> shows vzero fuel s (ents s ns).
  Proof.
    intros HR Hf Hv. exists ns. splits.
    - done.
    - rewrite ents_length. apply (r_size _ _ HR).
    - by apply first_of.
    - apply (r_tail _ _ HR).
    - intros i l Hl. apply elem_of_list_split_length in Hl as (C & R & EN & ->). split.
      + unfold next. destruct (next_of s ns C l R HR EN) as [-> _]. rewrite EN.
        rewrite lookup_app_r by lia. replace (length C + 1 - length C) with 1 by lia. cbn. by destruct R.
      + rewrite (r_back _ _ HR C l R EN). case_decide as Hc; [by destruct C|]. rewrite EN, lookup_app_l by lia.
        rewrite last_lookup. f_equal. lia.
    - by apply iter_drains.
    - intros r. by apply get_by_rank_ok.
  Qed.

  Lemma node_path_ok s ns : repr s ns -> node_path (next s) (first s) ns.
  Proof.
    intros HR. rewrite (first_of s ns HR).
    assert (G : forall R C, ns = C ++ R -> node_path (next s) (head R) R).
    { induction R as [|x R IH]; intros C EN; [done|]. cbn. split; [done|].
      unfold next. destruct (next_of s ns C x R HR EN) as [-> _]. apply (IH (C ++ [x])). by rewrite <- app_assoc. }
    by apply (G ns []).
  Qed.
End obs.
