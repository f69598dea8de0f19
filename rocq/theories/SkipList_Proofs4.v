(** Skip list: deleteNode, Delete, DeleteRangeByKey, histories. *)
From Verif Require Import Base Iter_Model Iter_Spec SkipList_Model SkipList_Spec SkipList_Proofs SkipList_Proofs2 SkipList_Proofs3.

Section del.
  Context {K V : Type} (comp : K -> K -> Z).
  Implicit Types (h : heap K V) (s : slist K V) (ns : list nat).
  Notation hts h := (fun l => ht (h l)).

  Lemma lower_ok h hd n : 1 <= n <= ht (h hd) -> exists lv, lower h hd n = Ok lv /\ 1 <= lv <= n /\
    (forall i, lv <= i < n -> fwd (h hd) i = None).
  Proof.
    induction n as [|n IH]; [lia|]. intros Hn. destruct n as [|n].
    - exists 1. cbn. splits; [done|lia|lia|lia].
    - cbn [lower]. unfold rd_fwd. rewrite decide_True by lia. cbn [rbind]. destruct (fwd (h hd) (S n)) as [y|] eqn:Ey.
      + exists (S (S n)). splits; [done|lia|lia|lia].
      + destruct IH as (lv & E & Hlv & HN); [lia|]. exists lv. splits; [done|lia|lia|].
        intros i Hi. destruct (decide (i = S n)) as [->|]; [done|]. apply HN. lia.
  Qed.

  Lemma delete_node_ok s A x B a : repr s (A ++ x :: B) -> (forall i, i < level s -> arr_at (hp s) a (hdr s :: A) i) ->
    exists s', delete_node s x a = Ok s' /\ repr s' (A ++ B) /\ hdr s' = hdr s /\ brk s' = brk s /\ level s' <= level s /\
      (forall l, key (hp s' l) = key (hp s l) /\ val (hp s' l) = val (hp s l) /\ ht (hp s' l) = ht (hp s l)).
  Proof.
    intros HR HArr. unfold delete_node.
    pose proof (r_lv _ _ HR) as HLv. pose proof (r_hdr _ _ HR) as HH. pose proof (r_ht _ _ HR) as Hht.
    pose proof (r_nodup _ _ HR) as ND. pose proof (r_brk _ _ HR) as Hbrk.
    set (n := level s) in *. set (h := hp s) in *.
    set (u := fun j => default 0 (a.1 j)).
    assert (Hu : forall j, j < n -> a.1 j = Some (u j)).
    { intros j Hj. unfold u. destruct (HArr j Hj) as (C & u' & D & _ & -> & _). done. }
    assert (HU : forall j, j < n -> exists C D, hdr s :: A = C ++ u j :: D /\ j < ht (h (u j)) /\ low (hts h) j D).
    { intros j Hj. destruct (HArr j Hj) as (C & u' & D & E1 & E2 & _ & E3 & E4). rewrite Hu in E2 by done. injection E2 as <-.
      by exists C, D. }
    assert (HxA : x ∉ hdr s :: A).
    { change (hdr s :: A ++ x :: B) with ((hdr s :: A) ++ x :: B) in ND. apply NoDup_app in ND as (_ & N & _).
      intros Hx. apply (N x Hx). left. }
    assert (Hux : forall j, j < n -> u j <> x).
    { intros j Hj Ex. destruct (HU j Hj) as (C & D & E & _). apply HxA. rewrite E, Ex. apply elem_of_app. right. left. }
    assert (Hxn : 1 <= ht (h x) <= n).
    { apply Forall_app in Hht as [_ F]. apply Forall_cons in F as [F _]. done. }
    destruct (unlink_loop a u n h Hu) with (x := x) as (h1 & -> & S1 & L1).
    { intros j Hj. by destruct (HU j Hj) as (_ & _ & _ & ? & _). }
    { done. }
    { intros j Hj Ex. destruct (HU j Hj) as (C & D & E & Hj2 & _).
      pose proof (r_links _ _ HR C (u j) (D ++ x :: B)) as L. specialize (L ltac:(change (hdr s :: A ++ x :: B) with ((hdr s :: A) ++ x :: B); rewrite E, <- app_assoc; done) j Hj2 Hj).
      fold h in L. change (lnk h (u j) j = nx (hts h) j (D ++ x :: B)) in L. rewrite L in Ex.
      destruct (nx (hts h) j (D ++ x :: B)) as [o d] eqn:EN. cbn in Ex. subst o.
      by destruct (nx_some _ _ _ _ _ EN) as (_ & _ & _ & _ & ? & _). }
    cbn [rbind].
    assert (Hh1 : forall y, ht (h1 y) = ht (h y)) by (intros y; by destruct (S1 y) as (_ & _ & _ & ->)).
    rewrite rd_fwd_ok by (rewrite Hh1; lia). cbn [rbind].
    assert (E0 : (lnk h1 x 0).1 = head B).
    { rewrite L1. rewrite decide_False by (intros [? E]; symmetry in E; by eapply Hux).
      pose proof (r_links _ _ HR (hdr s :: A) x B eq_refl 0 ltac:(fold h; lia) ltac:(fold n; lia)) as L. fold h in L.
      unfold lnk. rewrite L. destruct B as [|b B]; [done|]. cbn. rewrite decide_True; [done|].
      apply Forall_app in Hht as [_ F]. apply Forall_cons in F as [_ F]. apply Forall_cons in F as [F _]. lia. }
    rewrite E0.
    assert (HL1 : linked_ok h1 n (hdr s) (A ++ B)).
    { eapply (delete_links h h1 u n); [apply (r_links _ _ HR)|exact ND|exact Hh1|exact HU|exact L1]. }
    assert (Hbx : back (h1 x) = last A).
    { destruct (S1 x) as (_ & _ & -> & _). apply (r_back _ _ HR A x B). done. }
    rewrite Hbx.
    set (hf := match head B with Some y => wr y (set_back (last A)) h1 | None => h1 end).
    set (tf := match head B with Some y => tail s | None => last A end).
    assert (Hfin : match head B with Some y => (wr y (set_back (last A)) h1, tail s) | None => (h1, last A) end = (hf, tf)).
    { unfold hf, tf. by destruct (head B). }
    rewrite Hfin.
    assert (HF : forall l, key (hf l) = key (h l) /\ val (hf l) = val (h l) /\ ht (hf l) = ht (h l) /\
                   fwd (hf l) = fwd (h1 l) /\ span (hf l) = span (h1 l) /\
                   back (hf l) = if decide (Some l = head B) then last A else back (h l)).
    { intros l. unfold hf. destruct (S1 l) as (<- & <- & <- & <-). destruct (head B) as [z|]; [|done].
      unfold wr. destruct (decide (l = z)) as [->|Hl].
      - rewrite fn_lookup_insert. rewrite decide_True by done. done.
      - rewrite fn_lookup_insert_ne by done. rewrite decide_False by naive_solver. done. }
    destruct (lower_ok hf (hdr s) n) as (lv & -> & Hlv & Hnone); [destruct (HF (hdr s)) as (_ & _ & -> & _); lia|].
    cbn [rbind]. eexists. split; [done|]. cbn [hdr brk level hp]. splits; try done; try lia.
    2: { intros l. destruct (HF l) as (-> & -> & -> & _). done. }
    assert (Hsub : forall l, l ∈ A ++ B -> l ∈ A ++ x :: B).
    { intros l [Hl|Hl]%elem_of_app; apply elem_of_app; [by left|right; by right]. }
    assert (HLf : linked_ok hf lv (hdr s) (A ++ B)).
    { intros C y R E i Hi Hn. pose proof (HL1 C y R E i) as HL. destruct (HF y) as (_ & _ & Eh & -> & -> & _).
      rewrite Hh1 in HL. rewrite Eh in Hi. rewrite (HL Hi ltac:(lia)). apply nx_ext. intros l _.
      rewrite Hh1. by destruct (HF l) as (_ & _ & -> & _). }
    split; cbn [hp brk hdr tail size level].
    - apply NoDup_cons in ND as [N ND]. constructor; [intros Hl; by apply N, Hsub|].
      rewrite <- Permutation_middle in ND. by apply NoDup_cons in ND as [_ ND].
    - rewrite Forall_forall in Hbrk |- *. intros l [->|Hl]%elem_of_cons; apply Hbrk; [left|right; auto].
    - destruct (HF (hdr s)) as (_ & _ & -> & _). done.
    - lia.
    - apply Forall_forall. intros l Hl. destruct (HF l) as (_ & _ & -> & _).
      rewrite Forall_forall in Hht. pose proof (Hht l (Hsub l Hl)) as Hl2. split; [lia|].
      destruct (decide (lv = n)) as [->|Hne]; [lia|].
      assert (Hnx : lnk h1 (hdr s) lv = nx (hts h1) lv (A ++ B)).
      { apply (HL1 [] (hdr s)); [done| |lia]. rewrite Hh1. lia. }
      assert (Hf0 : fwd (hf (hdr s)) lv = None) by (apply Hnone; lia).
      destruct (HF (hdr s)) as (_ & _ & _ & Ef & _). rewrite Ef in Hf0. unfold lnk in Hnx. rewrite Hf0 in Hnx. symmetry in Hnx.
      apply nx_none in Hnx as [Hlow _]. unfold low in Hlow. rewrite Forall_forall in Hlow. apply Hlow in Hl. by rewrite Hh1 in Hl.
    - intros i Hi. destruct (decide (i < n)) as [Hin|Hin]; [apply Hnone; lia|].
      destruct (HF (hdr s)) as (_ & _ & _ & -> & _). change (fwd (h1 (hdr s)) i) with (lnk h1 (hdr s) i).1.
      rewrite L1, decide_False by lia. cbn. apply (r_top _ _ HR). fold n. lia.
    - done.
    - intros C y R E. destruct (HF y) as (_ & _ & _ & _ & _ & ->).
      destruct B as [|b B].
      + cbn. rewrite decide_False by done. apply (r_back _ _ HR C y (R ++ [x])). rewrite app_nil_r in E. rewrite E, <- app_assoc. done.
      + destruct (split_cases _ _ _ _ _ _ E) as [(<- & <- & <-)|[(M & -> & ->)|(M & -> & ->)]].
        * by rewrite decide_True.
        * rewrite decide_False.
          { unfold h. rewrite (r_back _ _ HR (A ++ x :: b :: M) y R).
            - rewrite !last_app, last_cons_cons. destruct (last (b :: M)) eqn:El; [done|]. by apply last_None in El.
            - by rewrite <- app_assoc. }
          cbn. intros [= ->]. apply NoDup_cons in ND as [_ ND]. apply NoDup_app in ND as (_ & _ & ND).
          apply NoDup_cons in ND as [_ ND]. cbn in ND. apply NoDup_cons in ND as [N _]. apply N. apply elem_of_app. right. left.
        * rewrite decide_False.
          { unfold h. rewrite (r_back _ _ HR C y (M ++ x :: b :: B)); [done|]. by rewrite <- app_assoc. }
          cbn. intros [= ->]. apply NoDup_cons in ND as [_ ND]. rewrite <- app_assoc in ND. apply NoDup_app in ND as (_ & _ & ND).
          cbn in ND. apply NoDup_cons in ND as [N _]. apply N. apply elem_of_app. right. right. left.
    - unfold tf. destruct B as [|b B]; cbn [head].
      + by rewrite app_nil_r.
      + rewrite (r_tail _ _ HR). rewrite !last_app, last_cons_cons. done.
    - rewrite (r_size _ _ HR), !app_length. cbn. lia.
    - destruct (HF (hdr s)) as (_ & _ & _ & _ & _ & ->). rewrite decide_False; [apply (r_hback _ _ HR)|].
      intros E. symmetry in E. apply NoDup_cons in ND as [N _]. apply N. apply elem_of_app. right. right.
      destruct B as [|b B]; [done|]. injection E as ->. left.
  Qed.

  (** ** Delete, lines 107-126, for any comparator *)
  Lemma delete_ok s ns k fuel : repr s ns -> length ns < fuel ->
    exists b s' ns', delete comp fuel s k = Ok (b, s') /\ repr s' ns' /\ hdr s' = hdr s /\
      (forall l, key (hp s' l) = key (hp s l) /\ val (hp s' l) = val (hp s l)) /\
      if b : bool then exists A x B, ns = A ++ x :: B /\ ns' = A ++ B /\
             match last A with Some z => comp (key (hp s z)) k = 0%Z | None => True end /\
             comp (key (hp s x)) k <> 0%Z /\ comp k (key (hp s x)) = 0%Z
      else s' = s /\ ns' = ns.
  Proof.
    intros HR Hf. destruct (descend_full s ns HR (fun k' => bool_decide (comp k' k = 0%Z)) fuel Hf)
      as (A & B & x0 & a & E & ED & EN & EE & HA & HB & HArr & _).
    unfold delete. rewrite ED. cbn [rbind].
    destruct (fwd0_of s ns HR A B x0 E EN EE) as [-> _]. cbn [rbind].
    destruct B as [|x B]; cbn [head].
    - by exists false, s, ns.
    - destruct (decide (comp k (key (hp s x)) = 0%Z)) as [Hx|Hx].
      + subst ns. destruct (delete_node_ok s A x B a HR HArr) as (s' & -> & HR' & Hh & _ & _ & HK). cbn [rbind].
        exists true, s', (A ++ B). splits; try done.
        { intros l. by destruct (HK l) as (-> & -> & _). }
        exists A, x, B. splits; try done.
        * destruct HA as [->|HA]; [done|]. apply last_cons_snoc in EE. destruct (last A) as [z|] eqn:El; [|done]. cbn in EE. subst z.
          by apply bool_decide_eq_true in HA.
        * by apply bool_decide_eq_false in HB.
      + by exists false, s, ns.
  Qed.

  (** ** DeleteRangeByKey, lines 461-483 *)
  Lemma delete_range_loop_ok fuel max : forall s A B a c, repr s (A ++ B) -> (forall i, i < level s -> arr_at (hp s) a (hdr s :: A) i) ->
    length B < fuel ->
    exists s' M R, delete_range_loop comp fuel s max a (head B) c = Ok ((c + Z.of_nat (length M))%Z, s') /\
      B = M ++ R /\ repr s' (A ++ R) /\ hdr s' = hdr s /\
      (forall l, key (hp s' l) = key (hp s l) /\ val (hp s' l) = val (hp s l)) /\
      Forall (fun l => comp (key (hp s l)) max = (-1)%Z) M /\
      match head R with Some z => comp (key (hp s z)) max <> (-1)%Z | None => True end.
  Proof.
    induction fuel as [|f IH]; intros s A B a c HR HArr Hf; [lia|].
    cbn [delete_range_loop]. destruct B as [|x B]; cbn [head].
    - exists s, [], []. cbn. rewrite Z.add_0_r. splits; done.
    - destruct (decide (comp (key (hp s x)) max = (-1)%Z)) as [Hx|Hx].
      + assert (Hnx : rd_fwd (hp s) x 0 = Ok (head B)).
        { destruct (fwd0_of s (A ++ x :: B) HR (A ++ [x]) B x (hdr s :: A)) as [E _]; [by rewrite <- app_assoc|done|done]. }
        rewrite Hnx. cbn [rbind].
        destruct (delete_node_ok s A x B a HR HArr) as (s1 & -> & HR1 & Hd1 & _ & Hl1 & HK1). cbn [rbind].
        destruct (IH s1 A B a (c + 1)%Z HR1) as (s2 & M & R & E2 & -> & HR2 & Hd2 & HK2 & HM & HN).
        { intros i Hi. destruct (HArr i ltac:(lia)) as (C & u & D & E1 & E2 & E3 & E4 & E5). exists C, u, D.
          rewrite Hd1. splits; try done; [destruct (HK1 u) as (_ & _ & ->); done|].
          eapply low_ext; [|exact E5]. intros l _. by destruct (HK1 l) as (_ & _ & ->). }
        { cbn in Hf. lia. }
        exists s2, (x :: M), R. rewrite E2. splits; try done.
        * f_equal. f_equal. cbn. lia.
        * by rewrite Hd2.
        * intros l. destruct (HK2 l) as (-> & ->). destruct (HK1 l) as (-> & -> & _). done.
        * constructor; [done|]. eapply Forall_impl; [exact HM|]. cbn. intros l. by destruct (HK1 l) as (-> & _ & _).
        * destruct (head R) as [z|]; [|done]. by destruct (HK1 z) as (<- & _ & _).
      + exists s, [], (x :: B). cbn [length]. rewrite Z.add_0_r. splits; try done.
  Qed.
  Lemma delete_range_ok s ns min max fuel : repr s ns -> length ns < fuel ->
    exists s' A M R, delete_range comp fuel s min max = Ok (Z.of_nat (length M), s') /\ ns = A ++ M ++ R /\ repr s' (A ++ R) /\ hdr s' = hdr s /\
      (forall l, key (hp s' l) = key (hp s l) /\ val (hp s' l) = val (hp s l)) /\
      Forall (fun l => comp (key (hp s l)) max = (-1)%Z) M /\
      match head R with Some z => comp (key (hp s z)) max <> (-1)%Z | None => True end /\
      match last A with Some z => comp (key (hp s z)) min = (-1)%Z | None => True end /\
      match head (M ++ R) with Some z => comp (key (hp s z)) min <> (-1)%Z | None => True end.
  Proof.
    intros HR Hf. destruct (descend_full s ns HR (fun k' => bool_decide (comp k' min = (-1)%Z)) fuel Hf)
      as (A & B & x0 & a & E & ED & EN & EE & HA & HB & HArr & _).
    unfold delete_range. rewrite ED. cbn [rbind].
    destruct (fwd0_of s ns HR A B x0 E EN EE) as [-> _]. cbn [rbind]. subst ns.
    destruct (delete_range_loop_ok fuel max s A B a 0 HR HArr) as (s' & M & R & -> & -> & HR' & Hh & HK & HM & HN); [rewrite app_length in Hf; lia|].
    exists s', A, M, R. splits; try done.
    - destruct HA as [->|HA]; [done|]. apply last_cons_snoc in EE. destruct (last A) as [z|] eqn:El; [|done]. cbn in EE. subst z.
      by apply bool_decide_eq_true in HA.
    - destruct (M ++ R) as [|z L]; [done|]. cbn. by apply bool_decide_eq_false in HB.
  Qed.

  (** ** search returns an answer *)
  Lemma search_from_ok s ns (HR : repr s ns) k fuel n : forall C x R r, hdr s :: ns = C ++ x :: R -> n <= ht (hp s x) -> n <= level s ->
    length R < fuel -> exists o z, search_from comp fuel (hp s) k n x r = Ok (o, z) /\
      match o with Some y => y ∈ hdr s :: ns /\ comp (key (hp s y)) k = 0%Z | None => True end.
  Proof.
    induction n as [|i IH]; intros C x R r HX Hx Hl Hf; cbn [search_from]; [eexists _, _; by split|].
    destruct (walk_ok s ns HR (fun k' => bool_decide (comp k' k <> 1%Z)) i fuel C x R r HX) as (D & x' & E & R' & -> & ER & EX & Hx' & _); [lia|lia|done|].
    cbn [rbind].
    assert (HX' : hdr s :: ns = (C ++ E) ++ x' :: R').
    { rewrite HX, ER, <- app_assoc. f_equal. change (x :: D ++ R') with ((x :: D) ++ R'). rewrite EX, <- app_assoc. done. }
    case_decide as Hd.
    - eexists _, _. split; [done|]. split; [|done]. rewrite HX'. apply elem_of_app. right. left.
    - destruct (IH (C ++ E) x' R' (r + Z.of_nat (length D))%Z HX') as (o & z & H); [lia|lia|rewrite ER, app_length in Hf; lia|]. eauto.
  Qed.
  Lemma search_ok s ns k fuel : repr s ns -> length ns < fuel -> exists o z, search comp fuel s k = Ok (o, z) /\
    match o with Some y => y ∈ hdr s :: ns /\ comp (key (hp s y)) k = 0%Z | None => True end.
  Proof.
    intros HR Hf. apply (search_from_ok s ns HR k fuel (level s) [] (hdr s) ns 0); [done| |lia|done].
    rewrite (r_hdr _ _ HR). pose proof (r_lv _ _ HR). lia.
  Qed.

  Lemma repr_init kz vz h b : repr (init kz vz h b : slist K V) [].
  Proof.
    unfold init. split; cbn [hp brk hdr tail size level].
    - apply NoDup_singleton.
    - constructor; [lia|constructor].
    - by rewrite fn_lookup_insert.
    - unfold max_level. lia.
    - constructor.
    - intros i _. by rewrite fn_lookup_insert.
    - intros C x R E i Hi Hl. destruct C as [|c C]; [|by destruct C]. injection E as <- <-. by rewrite fn_lookup_insert.
    - intros C x R E. by destruct C.
    - done.
    - done.
    - by rewrite fn_lookup_insert.
  Qed.

  (** ** one call refines the sequence specification *)
  Lemma ents_ext s s' ns : (forall l, l ∈ ns -> key (hp s' l) = key (hp s l) /\ val (hp s' l) = val (hp s l)) ->
    ents s' ns = ents s ns.
  Proof. intros E. unfold ents. apply list_fmap_ext. intros i l Hl. apply elem_of_list_lookup_2 in Hl. by destruct (E l Hl) as [-> ->]. Qed.
  Lemma after_last s A (test : K -> Prop) : match last A with Some z => test (key (hp s z)) | None => True end ->
    after_test test (ents s A).
  Proof.
    intros H. destruct A as [|l A _] using rev_ind; [by left|]. right. rewrite last_snoc in H. unfold ents. rewrite fmap_app.
    exists ((fun l => (key (hp s l), val (hp s l))) <$> A), (key (hp s l), val (hp s l)). done.
  Qed.
  Lemma stops_head s B (test : K -> Prop) : match head B with Some z => ~ test (key (hp s z)) | None => True end ->
    stops test (ents s B).
  Proof. by destruct B. Qed.
  Lemma ents_app s A B : ents s (A ++ B) = ents s A ++ ents s B.
  Proof. apply fmap_app. Qed.
  Lemma ents_length s A : length (ents s A) = length A.
  Proof. apply fmap_length. Qed.

  (** the header keeps the zero key and value *)
  Definition zero_hdr kz vz s : Prop := key (hp s (hdr s)) = kz /\ val (hp s (hdr s)) = vz.

  Lemma delete_spec_ok s ns k fuel : repr s ns -> length ns < fuel ->
    exists b s' ns', delete comp fuel s k = Ok (b, s') /\ repr s' ns' /\ length ns' <= length ns /\
      (forall kz vz, zero_hdr kz vz s -> zero_hdr kz vz s') /\ (b = false -> s' = s) /\
      del_spec comp k (ents s ns) b (ents s' ns').
  Proof.
    intros HR Hf. destruct (delete_ok s ns k fuel HR Hf) as (b & s' & ns' & E & HR' & Hh & HK & HS). exists b, s', ns'. splits; try done.
    - destruct b; [|by destruct HS as [_ ->]]. destruct HS as (A & x & B & -> & -> & _). rewrite !app_length. cbn. lia.
    - intros kz vz. unfold zero_hdr. rewrite Hh. by destruct (HK (hdr s)) as [-> ->].
    - intros ->. by destruct HS as [-> _].
    - destruct b; cbn.
      + destruct HS as (A & x & B & -> & -> & H1 & H2 & H3).
        exists (ents s A), (key (hp s x), val (hp s x)), (ents s B). splits; try done.
        * rewrite ents_app. done.
        * rewrite ents_app. rewrite (ents_ext s s' A), (ents_ext s s' B); [done| |]; intros l Hl; apply HK.
        * by apply after_last.
      + by destruct HS as [-> ->].
  Qed.

  Lemma delete_keys_ok ks : forall s ns fuel, repr s ns -> length ns < fuel ->
    exists c s' ns', delete_keys comp fuel s ks = Ok (c, s') /\ repr s' ns' /\ length ns' <= length ns /\
      (forall kz vz, zero_hdr kz vz s -> zero_hdr kz vz s') /\
      dels_spec comp ks (ents s ns) c (ents s' ns').
  Proof.
    induction ks as [|k ks IH]; intros s ns fuel HR Hf; cbn [delete_keys].
    - exists 0%Z, s, ns. splits; try done.
    - destruct (delete_spec_ok s ns k fuel HR Hf) as (b & s1 & ns1 & -> & HR1 & HL1 & HZ1 & _ & HS1). cbn [rbind].
      destruct (IH s1 ns1 fuel HR1 ltac:(lia)) as (c & s2 & ns2 & -> & HR2 & HL2 & HZ2 & HS2). cbn [rbind].
      eexists _, s2, ns2. splits; [done|done|lia|by eauto|]. exists b, c, (ents s1 ns1). splits; done.
  Qed.

  Lemma nth_node_ok s ns : repr s ns -> forall i, nth_node i s (first s) = ns !! i.
  Proof.
    intros HR. assert (G : forall R C, ns = C ++ R -> forall i, nth_node i s (head R) = R !! i).
    { induction R as [|x R IH]; intros C EN [|i]; cbn; try done.
      rewrite <- (IH (C ++ [x])) by (by rewrite <- app_assoc). f_equal.
      assert (EC : hdr s :: ns = (hdr s :: C) ++ x :: R) by (by rewrite EN).
      pose proof (r_ht _ _ HR) as Hht. rewrite Forall_forall in Hht. specialize (Hht x ltac:(rewrite EN; apply elem_of_app; right; left)).
      pose proof (r_links _ _ HR _ _ _ EC 0 ltac:(lia) ltac:(lia)) as L. unfold next. pose proof (f_equal fst L) as L1. cbn in L1. rewrite L1.
      destruct R as [|y R]; [done|]. cbn. case_decide as Hd; [done|]. exfalso. apply Hd.
      pose proof (r_ht _ _ HR) as Hht2. rewrite Forall_forall in Hht2. specialize (Hht2 y ltac:(rewrite EN; apply elem_of_app; right; right; left)). lia. }
    intros i. rewrite <- (G ns [] eq_refl i). f_equal.
    pose proof (r_lv _ _ HR) as HLv. pose proof (r_hdr _ _ HR) as HH.
    pose proof (r_links _ _ HR [] (hdr s) ns eq_refl 0 ltac:(lia) ltac:(lia)) as L. unfold first. pose proof (f_equal fst L) as L1. cbn in L1. rewrite L1.
    destruct ns as [|y R]; [done|]. cbn. case_decide as Hd; [done|]. exfalso. apply Hd.
    pose proof (r_ht _ _ HR) as Hht2. rewrite Forall_forall in Hht2. specialize (Hht2 y ltac:(left)). lia.
  Qed.
  Lemma set_value_ok s ns l v : repr s ns -> l <> hdr s ->
    repr (set_value s l v) ns /\ hdr (set_value s l v) = hdr s /\
    (forall x, key (hp (set_value s l v) x) = key (hp s x)) /\
    (forall x, val (hp (set_value s l v) x) = if decide (x = l) then v else val (hp s x)).
  Proof.
    intros HR Hl.
    assert (E : forall x, let n := hp (set_value s l v) x in let n0 := hp s x in
      key n = key n0 /\ back n = back n0 /\ ht n = ht n0 /\ fwd n = fwd n0 /\ span n = span n0 /\ val n = if decide (x = l) then v else val n0).
    { intros x. unfold set_value, wr. cbn. destruct (decide (l = x)) as [<-|Hx]; [rewrite fn_lookup_insert; cbn; by rewrite decide_True|].
      rewrite fn_lookup_insert_ne by done. by rewrite decide_False by done. }
    split; [|split; [done|split; intros x; by destruct (E x) as (?&?&?&?&?&?)]].
    destruct HR as [H1 H2 H3 H4 H5 H6 H7 H8 H9 H10 H11]. split; try done.
    - change (ht (hp (set_value s l v) (hdr s)) = max_level). by destruct (E (hdr s)) as (_ & _ & -> & _).
    - eapply Forall_impl; [exact H5|]. intros x Hx. by destruct (E x) as (_ & _ & -> & _).
    - intros i Hi. change (fwd (hp (set_value s l v) (hdr s)) i = None). destruct (E (hdr s)) as (_ & _ & _ & F & _). rewrite F. by apply H6.
    - intros C x R EC i Hi Hlv. destruct (E x) as (_ & _ & Eh & Ef & Es & _). rewrite Ef, Es. rewrite Eh in Hi.
      rewrite (H7 C x R EC i Hi Hlv). clear -E. generalize i. induction R as [|y R IH]; intros j; [done|]. cbn [nx].
      destruct (E y) as (_ & _ & -> & _). by rewrite IH.
    - intros C x R EC. destruct (E x) as (_ & -> & _). by apply (H8 C x R).
    - change (back (hp (set_value s l v) (hdr s)) = None). by destruct (E (hdr s)) as (_ & -> & _).
  Qed.

  Lemma step_ok kz vz s ns o fuel : repr s ns -> zero_hdr kz vz s -> length ns < fuel ->
    exists r s' ns', step kz vz comp fuel s o = Ok (r, s') /\ repr s' ns' /\ zero_hdr kz vz s' /\ length ns' <= S (length ns) /\
      op_spec comp (ents s ns) o r (ents s' ns').
  Proof.
    intros HR HZ Hf.
    assert (Hne : forall l, l ∈ hdr s :: ns -> l <> brk s).
    { intros l Hl ->. pose proof (r_brk _ _ HR) as F. rewrite Forall_forall in F. specialize (F (brk s) Hl). lia. }
    assert (HI : forall k v unique draw, exists s' ns', insert comp fuel s k v unique draw = Ok (true, s') /\ repr s' ns' /\ zero_hdr kz vz s' /\
      length ns' <= S (length ns) /\ ins_spec comp k v (ents s ns) (RBool true) (ents s' ns')).
    { intros k v unique draw. destruct (insert_ok comp s ns k v unique draw fuel HR Hf) as (s' & A & B & -> & EN & HR' & Hh & Hk & Hv & HK & H1 & H2).
      eexists _, _. split; [done|]. split; [done|].
      split; [unfold zero_hdr; rewrite Hh; destruct (HK (hdr s) (Hne _ ltac:(left))) as [-> ->]; exact HZ|].
      rewrite EN, !app_length. split; [cbn; lia|].
      exists (ents s A), (ents s B). rewrite ents_app. splits; [done|done| |by apply after_last|by apply stops_head].
      rewrite ents_app. change (ents s' (brk s :: B)) with ((key (hp s' (brk s)), val (hp s' (brk s))) :: ents s' B). rewrite Hk, Hv.
      rewrite (ents_ext s s' A), (ents_ext s s' B); [done| |]; intros l Hl; apply HK, Hne; right; rewrite EN; apply elem_of_app; auto. }
    destruct o as [k v u|k v u|k|ks|k v vc|min max| |i v]; cbn [step op_spec].
    - destruct (HI k v true u) as (s' & ns' & -> & ? & ? & ? & ?). cbn. eauto 10.
    - destruct (HI k v false u) as (s' & ns' & -> & ? & ? & ? & ?). cbn. eauto 10.
    - destruct (delete_spec_ok s ns k fuel HR Hf) as (b & s1 & ns1 & -> & HR1 & HL1 & HZ1 & _ & HS1). cbn. eexists _, _, _. splits; [done|done|by eauto|lia|]. by exists b.
    - destruct (delete_keys_ok ks s ns fuel HR Hf) as (b & s1 & ns1 & -> & HR1 & HL1 & HZ1 & HS1). cbn. eexists _, _, _. splits; [done|done|by eauto|lia|]. by exists b.
    - unfold delete_whole. destruct (search_ok s ns k fuel HR Hf) as (o & z & -> & Ho). cbn [rbind].
      destruct o as [x|]; [|cbn; eexists _, s, ns; splits; [done|done|done|lia|]; exists false; split; [done|by left]].
      case_decide; [|cbn; eexists _, s, ns; splits; [done|done|done|lia|]; exists false; split; [done|by left]].
      destruct (delete_spec_ok s ns k fuel HR Hf) as (b & s1 & ns1 & -> & HR1 & HL1 & HZ1 & _ & HS1). cbn. eexists _, _, _. splits; [done|done|by eauto|lia|].
      exists true. split; [done|]. destruct b; [by right|]. left. exact HS1.
    - destruct (delete_range_ok s ns min max fuel HR Hf) as (s' & A & M & R & -> & EN & HR' & Hh & HK & HM & H1 & H2 & H3).
      cbn. eexists _, _, _. splits; [done|done| |rewrite EN, !app_length; lia|].
      { unfold zero_hdr. rewrite Hh. by destruct (HK (hdr s)) as [-> ->]. }
      rewrite EN. exists (ents s A), (ents s M), (ents s R). rewrite !ents_app. splits.
      + done.
      + by rewrite (ents_ext s s' A), (ents_ext s s' R).
      + by rewrite ents_length.
      + apply Forall_fmap. eapply Forall_impl; [exact HM|]. done.
      + by apply stops_head.
      + by apply after_last.
      + rewrite <- ents_app. by apply stops_head.
    - eexists _, _, []. splits; [done|apply repr_init| |cbn; lia|done|done].
      unfold zero_hdr, clear, init. cbn. by rewrite fn_lookup_insert.
    - rewrite (nth_node_ok s ns HR). destruct (ns !! i) as [l|] eqn:Ei.
      + pose proof (r_nodup _ _ HR) as ND. apply NoDup_cons in ND as [N1 N2].
        assert (Hl : l <> hdr s) by (intros ->; apply N1; by eapply elem_of_list_lookup_2).
        destruct (set_value_ok s ns l v HR Hl) as (HR' & Hh & HK & HV).
        eexists _, _, ns. splits; [done|done| |lia|done|].
        * unfold zero_hdr. rewrite Hh, HK, HV, decide_False by done. exact HZ.
        * apply list_eq. intros j. destruct (decide (i = j)) as [<-|Hj].
          -- rewrite list_lookup_alter. unfold ents. rewrite !list_lookup_fmap, Ei. cbn [fmap option_fmap option_map fst]. rewrite HK, HV. by rewrite decide_True.
          -- rewrite list_lookup_alter_ne by done. unfold ents. rewrite !list_lookup_fmap. destruct (ns !! j) as [x|] eqn:Ej; [|done].
             cbn [fmap option_fmap option_map fst]. rewrite HK, HV, decide_False; [done|]. intros ->. apply Hj. by eapply NoDup_lookup.
      + eexists _, s, ns. splits; [done|done|done|lia|done|].
        apply list_eq. intros j. destruct (decide (i = j)) as [<-|Hj].
        * rewrite list_lookup_alter. unfold ents. by rewrite !list_lookup_fmap, Ei.
        * by rewrite list_lookup_alter_ne.
  Qed.

  Lemma run_ok kz vz os : forall s ns fuel, repr s ns -> zero_hdr kz vz s -> length os + length ns < fuel ->
    exists rs s' ns', run kz vz comp fuel s os = Ok (rs, s') /\ repr s' ns' /\ zero_hdr kz vz s' /\ length ns' <= length os + length ns /\
      seq_run comp (ents s ns) os rs (ents s' ns').
  Proof.
    induction os as [|o os IH]; intros s ns fuel HR HZ Hf; cbn [run length].
    - exists [], s, ns. splits; [done|done|done|lia|constructor].
    - cbn in Hf. destruct (step_ok kz vz s ns o fuel HR HZ ltac:(lia)) as (r & s1 & ns1 & -> & HR1 & HZ1 & HL1 & HS1). cbn [rbind].
      destruct (IH s1 ns1 fuel HR1 HZ1 ltac:(lia)) as (rs & s2 & ns2 & -> & HR2 & HZ2 & HL2 & HS2). cbn [rbind].
      eexists _, _, _. splits; [done|done|done|lia|]. econstructor; done.
  Qed.
  Lemma run_new kz vz os fuel : length os < fuel ->
    exists rs s ns, run kz vz comp fuel (new_list kz vz) os = Ok (rs, s) /\ repr s ns /\ zero_hdr kz vz s /\ length ns <= length os /\
      seq_run comp [] os rs (ents s ns).
  Proof.
    intros Hf. destruct (run_ok kz vz os (new_list kz vz) [] fuel) as (rs & s & ns & H1 & H2 & H3 & H4 & H5).
    - apply repr_init.
    - unfold zero_hdr, new_list, init. cbn. by rewrite fn_lookup_insert.
    - cbn. lia.
    - exists rs, s, ns. cbn in H4. splits; try done. lia.
  Qed.
End del.
