(** Proofs for C75: an abandoned insertion. *)
From Verif Require Import Base BPlus_Model BPlus_Spec BPlus_Proofs BPlus_Proofs2 BPlus_Proofs3 BPlus_Proofs4 BPlus_Proofs5.
From Verif Require Import PanicComp_Model PanicComp_Spec PanicComp_Proofs PanicCompBP_Model PanicCompBP_Spec PanicCompBP_Proofs.

Lemma rec_done {S A} (m : cm S A) r n a n' : recovers m r -> m n = Done a n' -> r = Ok a.
Proof.
  intros (k & H1 & H2) H. destruct (decide (n < k)) as [Hn|Hn]; [destruct (H1 n Hn) as [s E]; congruence|].
  specialize (H2 (n - k)). replace (k + (n - k)) with n in H2 by lia. rewrite H in H2.
  destruct r; cbn [cl] in H2; congruence.
Qed.

Section ins.
  Context {K V : Type} (kzero : K) (vzero : V) (comp : K -> K -> Z).
  Implicit Types (t : @tree K V) (w pre post : list (@item K V)).
  Notation insert_non_full_c := (insert_non_full_c kzero vzero comp).
  Notation child := (nat * list nat * list (@item K V))%type.
  Notation caddr := (fun c : child => Some c.1.1).
  Notation cfp := (fun c : child => c.1.2).
  Notation cw := (fun c : child => c.2).

  (** what an abandoned insertion does to a reading *)
  Definition half w w' : Prop :=
    doubled (entries w) (entries w')
    /\ (forall x, x ∈ w' -> exists y, y ∈ w /\ item_key y = item_key x)
    /\ (cmp_ok comp -> in_order comp w -> in_order comp w').
  Lemma half_refl w : half w w.
  Proof. unfold half. splits; [by left|eauto|done]. Qed.
  Lemma half_ctx pre w w' post : half w w' -> half (pre ++ w ++ post) (pre ++ w' ++ post).
  Proof.
    intros (G1 & G2 & G3). unfold half. splits.
    - rewrite !entries_app. destruct G1 as [->|(a & x & b & z & c & -> & ->)]; [by left|]. right.
      exists (entries pre ++ a), x, b, z, (c ++ entries post). rewrite <- !app_assoc. cbn. rewrite <- !app_assoc. done.
    - intros x. rewrite !elem_of_app. intros [H|[H|H]].
      + exists x. rewrite !elem_of_app. auto.
      + destruct (G2 x H) as (y&Hy&E). exists y. rewrite !elem_of_app. auto.
      + exists x. rewrite !elem_of_app. auto.
    - intros C S. unfold in_order in *. rewrite !strong_app in S |- *. destruct S as (S1 & (S2 & S3 & S4) & S5).
      splits; [done|by apply G3|done| |].
      + intros x y Hx Hy. destruct (G2 x Hx) as (z&Hz&<-). by apply S4.
      + intros x y Hx [Hy|Hy]%elem_of_app.
        * destruct (G2 y Hy) as (z&Hz&<-). apply S5; [done|]. apply elem_of_app. by left.
        * apply S5; [done|]. apply elem_of_app. by right.
  Qed.
  Lemma half_trans w0 w w' :
    entries w = entries w0 ->
    (forall x, x ∈ w -> exists y, y ∈ w0 /\ item_key y = item_key x) ->
    (cmp_ok comp -> in_order comp w0 -> in_order comp w) ->
    half w w' -> half w0 w'.
  Proof.
    intros E1 E2 E3 (G1 & G2 & G3). unfold half. splits.
    - by rewrite <- E1.
    - intros x Hx. destruct (G2 x Hx) as (y&Hy&<-). by apply E2.
    - auto.
  Qed.

  (** the loop that moves entries up, abandoned: some entries [q] at the end of
      the leaf have been moved, the gap is still open *)
  Lemma leaf_shift_cut k (es : list (K * V)) j J n v :
    leaf_shift_c comp k (length es) (es ++ j :: J) n = Crash v ->
    v = es ++ j :: J \/ exists p x q, es = p ++ x :: q /\ v = p ++ x :: x :: q ++ J.
  Proof.
    revert j J n. induction es as [|x es IH] using rev_ind; intros j J n.
    { cbn. discriminate. }
    rewrite app_length, Nat.add_1_r. cbn [leaf_shift_c]. rewrite <-app_assoc. cbn [app].
    rewrite aget_app by done. cbn [cl]. unfold cbnd at 1. cbn [cl].
    intros H. apply bind_crash in H as [H|(c & n1 & _ & H)].
    - destruct n; [|discriminate]. cbn in H. injection H as <-. by left.
    - destruct (_ <? _)%Z; [|discriminate].
      replace (es ++ x :: j :: J) with ((es ++ [x]) ++ j :: J) in H by by rewrite <-app_assoc.
      rewrite aset_app in H by (rewrite app_length; simpl; lia). unfold cbnd at 1 in H. cbn [cl] in H.
      rewrite <-app_assoc in H. cbn [app] in H. right.
      apply IH in H as [->|(p & y & q & -> & ->)].
      + exists es, x, []. done.
      + exists p, y, (q ++ [x]). rewrite <-!app_assoc. done.
  Qed.

  Definition cut_res t t' (l d : nat) (fp : list nat) w (fp' : list nat) w' : Prop :=
    reads (degree t) (hp t') d l fp' w' /\ half w w' /\ NoDup fp'
    /\ (forall x, x ∈ fp' -> x ∈ fp \/ brk t <= x < brk t')
    /\ (forall x, x ∉ fp -> x < brk t -> hp t' x = hp t x)
    /\ num (hp t l) <= num (hp t' l) /\ brk t <= brk t'
    /\ size t' = size t /\ degree t' = degree t /\ root t' = root t.
  Definition cut_ok d : Prop := forall fuel t l fp w p n t',
    d < fuel -> 2 <= degree t -> reads (degree t) (hp t) d l fp w -> num (hp t l) < 2 * degree t - 1 ->
    NoDup fp -> Forall (fun x => x < brk t) fp ->
    insert_non_full_c fuel l p t n = Crash t' ->
    exists fp' w', cut_res t t' l d fp w fp' w'.
  Lemma cut_same t l d fp w : reads (degree t) (hp t) d l fp w -> NoDup fp -> cut_res t t l d fp w fp w.
  Proof. intros R ND. unfold cut_res. splits; try done; [apply half_refl|by left]. Qed.

  Lemma descend_cut d : cut_ok d ->
    forall fuel t l nx ks1 ks2 J ts1 c ts2 JC p n t',
    d < fuel -> 2 <= degree t ->
    focus (degree t) (hp t) d l nx ks1 ks2 J ts1 c ts2 JC ->
    num (hp t c.1.1) < 2 * degree t - 1 ->
    NoDup (focus_fp l ts1 c ts2) -> Forall (fun x => x < brk t) (focus_fp l ts1 c ts2) ->
    insert_non_full_c fuel c.1.1 p t n = Crash t' ->
    exists fp' w', cut_res t t' l (S d) (focus_fp l ts1 c ts2) (focus_w ks1 ks2 ts1 c ts2) fp' w'.
  Proof.
    intros IH fuel t l nx ks1 ks2 J ts1 [[c fpc] wc] ts2 JC p n t' Hf HM Foc Hn ND Hb HC. cbn [fst snd] in *.
    pose proof Foc as (E & L0 & L1 & L2 & L3 & L4 & F).
    apply Forall_app in F as [F1 [[F2n F2] F3]%Forall_cons]. cbn [fst snd] in *.
    assert (NDc : NoDup fpc). { unfold focus_fp in ND. cbn [fst snd] in ND. apply NoDup_app in ND as (_ & _ & ND). by apply NoDup_app in ND as (? & _). }
    assert (Hbc : Forall (fun x => x < brk t) fpc). { unfold focus_fp in Hb. cbn [fst snd] in Hb. apply Forall_app in Hb as [_ Hb]. by apply Forall_app in Hb as [? _]. }
    destruct (IH fuel t c fpc wc p n t' Hf HM F2 Hn NDc Hbc HC) as (fpc' & wc' & R1 & G & N' & Hin & Hfr & Hnum & Hbrk & Hsz & Hdeg & Hrt).
    set (c' := (c, fpc', wc')).
    exists (focus_fp l ts1 c' ts2), (focus_w ks1 ks2 ts1 c' ts2).
    rewrite Forall_forall in Hb.
    assert (Hlc : l ∉ fpc).
    { intros Hl. unfold focus_fp in ND. cbn [fst snd app] in ND. apply NoDup_cons in ND as [ND _]. apply ND.
      rewrite !elem_of_app. auto. }
    assert (Hsib : forall cc x, cc ∈ ts1 ++ ts2 -> x ∈ cc.1.2 -> x ∉ fpc /\ x < brk t).
    { intros cc x Hcc Hx. split.
      - intros Hxc. unfold focus_fp in ND. cbn [fst snd app] in ND. apply NoDup_cons in ND as [_ ND].
        apply NoDup_app in ND as (_ & ND1 & ND2). apply NoDup_app in ND2 as (_ & ND2 & _).
        apply elem_of_app in Hcc as [Hcc|Hcc].
        + apply (ND1 x); [|apply elem_of_app; by left]. apply elem_concat. exists cc.1.2. split; [done|]. apply elem_of_list_fmap. by exists cc.
        + apply (ND2 x); [done|]. apply elem_concat. exists cc.1.2. split; [done|]. apply elem_of_list_fmap. by exists cc.
      - apply Hb. unfold focus_fp. cbn [fst snd app]. apply elem_of_cons. right. rewrite !elem_of_app.
        apply elem_of_app in Hcc as [Hcc|Hcc]; [left|right; right]; apply elem_concat; exists cc.1.2; (split; [done|]); apply elem_of_list_fmap; by exists cc. }
    assert (Hl : hp t' l = hp t l).
    { apply Hfr; [done|]. apply Hb. left. }
    assert (HF : forall ts, (forall cc, cc ∈ ts -> cc ∈ ts1 ++ ts2) ->
      Forall (fun cc => degree t - 1 <= num (hp t cc.1.1) /\ reads (degree t) (hp t) d cc.1.1 cc.1.2 cc.2) ts ->
      Forall (fun cc => degree t - 1 <= num (hp t' cc.1.1) /\ reads (degree t) (hp t') d cc.1.1 cc.1.2 cc.2) ts).
    { intros ts Hts. rewrite !Forall_forall. intros H cc Hcc. destruct (H cc Hcc) as [H1 H2].
      assert (Hs : forall x, x ∈ cc.1.2 -> hp t' x = hp t x).
      { intros x Hx. destruct (Hsib cc x (Hts cc Hcc) Hx). by apply Hfr. }
      split; [|by eapply reads_frame]. rewrite Hs; [done|]. by eapply reads_in. }
    unfold cut_res. splits; try done.
    - apply (focus_reads kzero comp _ _ _ _ nx ks1 ks2 J ts1 c' ts2 JC). unfold focus. rewrite Hl, E. splits; try done.
      + rewrite !fmap_app. done.
      + rewrite app_length in L4 |- *. exact L4.
      + apply Forall_app. split; [apply HF; [intros; apply elem_of_app; by left|done]|].
        apply Forall_cons. split; [|apply HF; [intros; apply elem_of_app; by right|done]].
        unfold c'; cbn [fst snd]. split; [lia|done].
    - apply half_ctx; done.
    - unfold focus_fp. cbn [fst snd]. unfold focus_fp in ND, Hb. cbn [fst snd] in ND, Hb.
      eapply NoDup_ctx; [exact ND|done| |exact Hb]. intros y Hy. destruct (Hin y Hy); [by left|right; lia].
    - intros x. unfold focus_fp. cbn [fst snd]. rewrite !elem_of_app. intros [H|[H|H]]; [by auto| |by auto].
      destruct (Hin x H); auto.
    - intros x Hx Hxb. apply Hfr; [|done]. intros Hxc. apply Hx. unfold focus_fp. cbn [fst snd]. rewrite !elem_of_app. auto.
    - rewrite Hl. lia.
  Qed.
  Lemma doubled_half (es es' : list (K * V)) : doubled es es' -> half (Entry <$> es) (Entry <$> es').
  Proof.
    intros D. unfold half. rewrite !entries_leaf. splits; [done| |].
    - intros y ([k v] & -> & Hy)%elem_of_list_fmap. destruct D as [->|(a & x & b & z & c & -> & ->)].
      + exists (Entry (k, v)). split; [|done]. apply elem_of_list_fmap. eauto.
      + exists (Entry (k, v)). split; [|done]. apply elem_of_list_fmap. eexists. split; [done|].
        rewrite elem_of_app, !elem_of_cons, elem_of_app, elem_of_cons. rewrite elem_of_app, !elem_of_cons, elem_of_app in Hy. tauto.
    - intros C S. destruct D as [->|(a & x & b & z & c & -> & ->)]; [done|].
      unfold in_order in *. rewrite !fmap_app in *. cbn [fmap list_fmap] in *. rewrite !fmap_app in *. cbn [fmap list_fmap] in *.
      rewrite strong_app in S |- *. destruct S as (S1 & S2 & S3).
      inversion S2 as [|?? S4 S5]; subst. rewrite strong_app in S4. destruct S4 as (S6 & S7 & S8). inversion S7 as [|?? S9 S10]; subst.
      apply Forall_app in S5 as [S11 [S12 S13]%Forall_cons].
      assert (SC : StronglySorted (fun a b : @item K V => (comp (item_key a) (item_key b) <= 0)%Z) (Entry x :: (Entry <$> b) ++ (Entry <$> c))).
      { constructor; [|apply Forall_app; done]. rewrite strong_app. splits; [done|done|]. intros u v Hu Hv. apply S8; [done|by right]. }
      splits; [done| |].
      + constructor; [done|]. apply Forall_cons. split; [cbn; rewrite cmp_refl by done; lia|]. by apply Forall_app.
      + intros u v Hu Hv. apply S3; [done|]. rewrite !elem_of_cons, elem_of_app in Hv. rewrite elem_of_cons, elem_of_app, elem_of_cons. tauto.
  Qed.

  Theorem insert_cut d : cut_ok d.
  Proof.
    induction d as [|d IH]; intros fuel t l fp w p n t' Hf HM R Hn ND Hb HC.
    { (* leaf *)
      destruct fuel as [|fuel]; [lia|]. cbn [reads] in R. destruct R as (nx&es&jk&cs&E&L1&L2&->&->).
      cbn [PanicCompBP_Model.insert_non_full_c] in HC. rewrite E in HC. cbn [leaf num vals] in *.
      rewrite E in Hn. cbn in Hn. rewrite app_length in L1. destruct jk as [|j jk]; [simpl in L1; lia|].
      apply bind_crash in HC as [HC|([pos v] & n1 & _ & HC)]; cycle 1.
      { apply bind_crash in HC as [HC|(v' & n2 & _ & HC)]; [|discriminate]. by destruct (ab_cl (fun _ => False) _ _ _ HC). }
      unfold seen_as in HC. destruct (leaf_shift_c _ _ _ _ _) as [| v | |] eqn:EL; try discriminate. injection HC as <-.
      assert (exists es' jk', v = es' ++ jk' /\ length es' = length es /\ length jk' = S (length jk) /\ doubled es es') as (es' & jk' & -> & Le & Lj & D).
      { apply leaf_shift_cut in EL as [->|(q & x & r & -> & ->)].
        - exists es, (j :: jk). splits; [done|done|done|by left].
        - destruct r as [|z r _] using rev_ind.
          + exists (q ++ [x]), (x :: jk). rewrite <- app_assoc. splits; [done|done|done|by left].
          + exists (q ++ x :: x :: r), (z :: jk). rewrite <- !app_assoc. cbn. splits; [done|rewrite !app_length; cbn; rewrite app_length; cbn; lia|done|].
            right. exists q, x, r, z, []. by rewrite app_nil_r. }
      assert (Lv : length (es' ++ jk') = 2 * degree t - 1).
      { rewrite app_length. simpl in L1. lia. }
      exists [l], (Entry <$> es'). unfold cut_res. hs. rewrite E. hs. splits.
      - cbn [reads]. exists nx, es', jk', cs. hs. rewrite E. unfold set_vals. cbn. splits; try done. by rewrite Le.
      - by apply doubled_half.
      - done.
      - intros x Hx. by left.
      - intros x Hx Hxb. rewrite hp_upd_ne; [done|]. intros ->. apply Hx. by left.
      - done.
      - done.
      - done.
      - done.
      - done. }
    destruct fuel as [|fuel]; [lia|]. assert (Hf' : d < fuel) by lia.
    pose proof R as R0.
    cbn [reads] in R. destruct R as (nx&ks&J&ts&JC&E&N1&N2&L1&L2&->&->&F).
    cbn [PanicCompBP_Model.insert_non_full_c] in HC. rewrite E in HC. cbn [leaf num vals kids] in HC. rewrite E in Hn. cbn [num] in Hn.
    apply bind_crash in HC as [HC|(pos & n1 & EP & HC)].
    { destruct (ab_down_pos comp t p.1 (length ks) _ _ _ HC). eexists _, _. by apply cut_same. }
    apply (rec_done _ _ _ _ _ (rec_down_pos comp t p.1 (length ks) (ks ++ J))) in EP.
    destruct (down_pos_ok comp p.1 ks J) as (ks1 & ks2 & -> & EP' & _ & _). rewrite EP in EP'. injection EP' as ->.
    destruct (length_split (length ks1) (S (length ks2)) ts) as (ts1 & ts2' & -> & Lt1 & Lt2);
      [rewrite N2, app_length; lia|].
    destruct ts2' as [|c ts2]; [done|]. simpl in Lt2.
    rewrite (fmap_app caddr ts1 (c :: ts2)) in HC. cbn [fmap list_fmap] in HC. rewrite <-app_assoc in HC. cbn [app] in HC.
    rewrite aget_app in HC by (rewrite fmap_length; lia). unfold cbnd at 1 in HC. cbn [cl] in HC. unfold cbnd at 1 in HC. cbn [cl deref] in HC.
    assert (Foc : focus (degree t) (hp t) d l nx ks1 ks2 J ts1 c ts2 JC).
    { unfold focus. splits; try done; lia. }
    assert (Efp : l :: concat (cfp <$> ts1 ++ c :: ts2) = focus_fp l ts1 c ts2).
    { unfold focus_fp. rewrite fmap_app, concat_app. done. }
    assert (Ew : weave (cw <$> ts1 ++ c :: ts2) (ks1 ++ ks2) = focus_w ks1 ks2 ts1 c ts2).
    { unfold focus_w. rewrite fmap_app. cbn [fmap list_fmap]. apply weave_focus; rewrite fmap_length; lia. }
    rewrite Efp in *. rewrite Ew in *.
    destruct (decide (2 * degree t - 1 = num (hp t c.1.1))) as [Full|NFull]; cycle 1.
    { (* the child is not full *)
      unfold cbnd at 1 in HC. cbn [cret] in HC. rewrite E in HC. cbn [kids] in HC.
      rewrite (fmap_app caddr ts1 (c :: ts2)) in HC. cbn [fmap list_fmap] in HC. rewrite <-app_assoc in HC. cbn [app] in HC.
      rewrite aget_app in HC by (rewrite fmap_length; lia). unfold cbnd at 1 in HC. cbn [cl] in HC. unfold cbnd at 1 in HC. cbn [cl deref] in HC.
      pose proof (proj2 (proj2 (proj2 (proj2 (proj2 (proj2 Foc)))))) as HF.
      apply Forall_app in HF as [_ [[_ HF] _]%Forall_cons]. apply reads_lengths in HF as (_ & _ & HF & _).
      eapply (descend_cut d IH fuel t l nx ks1 ks2 J ts1 c ts2 JC p); try done; lia. }
    (* the child is full *)
    destruct c as [[c fpc] wc]. cbn [fst snd] in *.
    pose proof F as F'. apply Forall_app in F' as [F1 [[F2n F2] F3]%Forall_cons]. cbn [fst snd] in F2, F2n.
    assert (exists j J', J = j :: J') as (j & J' & ->).
    { destruct J; [|eauto]. rewrite app_nil_r in L1. lia. }
    assert (exists jc JC', JC = jc :: JC') as (jc & JC' & ->).
    { destruct JC; [|eauto]. rewrite !app_length in L1. rewrite !app_length in L2. simpl in *. lia. }
    unfold focus_fp in ND, Hb. cbn [fst snd] in ND, Hb.
    assert (NDc : NoDup fpc). { apply NoDup_app in ND as (_ & _ & ND). by apply NoDup_app in ND as (? & _). }
    assert (Hbc : Forall (fun x => x < brk t) fpc). { apply Forall_app in Hb as [_ Hb]. by apply Forall_app in Hb as [? _]. }
    assert (Hlc : l ∉ fpc).
    { intros Hl. cbn [app] in ND. apply NoDup_cons in ND as [ND _]. apply ND. rewrite !elem_of_app. auto. }
    assert (Hlb : l < brk t). { cbn in Hb. apply Forall_cons in Hb as [Hb _]. done. }
    rewrite Forall_forall in Hb.
    destruct (split_child_ok kzero vzero t l c nx ks1 ks2 j J' (caddr <$> ts1) (caddr <$> ts2) jc JC' d fpc wc)
      as (t1 & k & fp1 & fp2 & w1 & w2 & E1 & (Ms & Md & Mr) & Eb & El & R1 & R2 & Pm & Nc & Nn & Fr & Sr); try done.
    { rewrite E. rewrite fmap_app. cbn [fmap list_fmap]. rewrite <-!app_assoc. cbn [app]. by rewrite app_length. }
    { rewrite fmap_length. lia. } { rewrite fmap_length. lia. }
    set (nc := brk t) in *.
    (* the state after the split *)
    set (c1 := ((c, fp1, w1) : child)). set (c2 := ((nc, fp2, w2) : child)).
    assert (Hfpcn : forall x, x ∈ fpc -> x <> nc). { rewrite Forall_forall in Hbc. intros x Hx. specialize (Hbc x Hx). unfold nc. lia. }
    assert (Hsib : forall cc x, cc ∈ ts1 ++ ts2 -> x ∈ cc.1.2 -> x ∉ fpc /\ x < brk t /\ x <> l).
    { intros cc x Hcc Hx. cbn [app] in ND. apply NoDup_cons in ND as [ND0 ND].
      assert (Hxx : x ∈ concat (cfp <$> ts1) \/ x ∈ concat (cfp <$> ts2)).
      { apply elem_of_app in Hcc as [Hcc|Hcc]; [left|right]; apply elem_concat; exists cc.1.2; (split; [done|]); apply elem_of_list_fmap; by exists cc. }
      apply NoDup_app in ND as (_ & ND1 & ND2). apply NoDup_app in ND2 as (_ & ND2 & _).
      splits.
      - intros Hxc. destruct Hxx as [Hxx|Hxx]; [|by apply (ND2 x)]. apply (ND1 x); [done|]. apply elem_of_app. by left.
      - apply Hb. cbn [app]. apply elem_of_cons. right. rewrite !elem_of_app. tauto.
      - intros ->. apply ND0. rewrite !elem_of_app. tauto. }
    pose proof (reads_in _ _ _ _ _ _ F2) as Hcin.
    assert (HF : forall ts, (forall cc, cc ∈ ts -> cc ∈ ts1 ++ ts2) ->
      Forall (fun cc : child => degree t - 1 <= num (hp t cc.1.1) /\ reads (degree t) (hp t) d cc.1.1 cc.1.2 cc.2) ts ->
      Forall (fun cc : child => degree t - 1 <= num (hp t1 cc.1.1) /\ reads (degree t) (hp t1) d cc.1.1 cc.1.2 cc.2) ts).
    { intros ts Hts. rewrite !Forall_forall. intros H cc Hcc. destruct (H cc Hcc) as [G1 G2].
      assert (Hs : forall x, x ∈ cc.1.2 -> hp t1 x = hp t x).
      { intros x Hx. destruct (Hsib cc x (Hts cc Hcc) Hx) as (?&?&?). apply Fr; [done|congruence|unfold nc; lia]. }
      split; [|by eapply reads_frame]. rewrite Hs; [done|]. by eapply reads_in. }
    assert (HF' : Forall (fun cc : child => degree t1 - 1 <= num (hp t1 cc.1.1) /\ reads (degree t1) (hp t1) d cc.1.1 cc.1.2 cc.2) (ts1 ++ c1 :: c2 :: ts2)).
    { rewrite Md. apply Forall_app. split; [apply HF; [intros; apply elem_of_app; by left|done]|].
      apply Forall_cons. split; [unfold c1; cbn [fst snd]; split; [lia|done]|].
      apply Forall_cons. split; [unfold c2; cbn [fst snd]; split; [lia|done]|].
      apply HF; [intros; apply elem_of_app; by right|done]. }
    rewrite fmap_app in E. cbn [fmap list_fmap] in E.
    assert (Foc1 : focus (degree t1) (hp t1) d l nx ks1 (k :: ks2) J' ts1 c1 (c2 :: ts2) JC').
    { unfold focus. rewrite Md in *. splits.
      - rewrite El, fmap_app. cbn [fmap list_fmap]. unfold c1, c2. cbn [fst snd].
        rewrite <-!app_assoc. cbn [app]. f_equal. rewrite app_length. simpl. lia.
      - rewrite app_length. simpl. lia.
      - done.
      - simpl. lia.
      - rewrite !app_length in *. simpl in *. lia.
      - rewrite !app_length in *. simpl in *. lia.
      - done. }
    assert (Foc2 : focus (degree t1) (hp t1) d l nx (ks1 ++ [k]) ks2 J' (ts1 ++ [c1]) c2 ts2 JC').
    { destruct Foc1 as (A1 & A2 & A3 & A4 & A5 & A6 & A7). unfold focus.
      replace ((ks1 ++ [k]) ++ ks2) with (ks1 ++ k :: ks2) by by rewrite <-app_assoc.
      replace ((ts1 ++ [c1]) ++ c2 :: ts2) with (ts1 ++ c1 :: c2 :: ts2) by by rewrite <-app_assoc.
      splits; try done; rewrite ?app_length; simpl; lia. }
    assert (Efp1 : focus_fp l ts1 c1 (c2 :: ts2) = (l :: concat (cfp <$> ts1)) ++ (fp1 ++ fp2) ++ concat (cfp <$> ts2)).
    { unfold focus_fp, c1, c2. cbn [fst snd fmap list_fmap concat app]. by rewrite <-!app_assoc. }
    assert (Efp2 : focus_fp l (ts1 ++ [c1]) c2 ts2 = (l :: concat (cfp <$> ts1)) ++ (fp1 ++ fp2) ++ concat (cfp <$> ts2)).
    { unfold focus_fp, c1, c2. rewrite fmap_app, concat_app. cbn [fst snd fmap list_fmap concat app]. by rewrite app_nil_r, <-!app_assoc. }
    assert (Ew1 : focus_w ks1 (k :: ks2) ts1 c1 (c2 :: ts2) = wpre (cw <$> ts1) ks1 ++ (w1 ++ Sep k :: w2) ++ wpost ks2 (cw <$> ts2)).
    { unfold focus_w, c1, c2. cbn [fst snd fmap list_fmap]. rewrite wpost_cons. by rewrite <-!app_assoc. }
    assert (Ew2 : focus_w (ks1 ++ [k]) ks2 (ts1 ++ [c1]) c2 ts2 = wpre (cw <$> ts1) ks1 ++ (w1 ++ Sep k :: w2) ++ wpost ks2 (cw <$> ts2)).
    { unfold focus_w, c1, c2. rewrite fmap_app. cbn [fst snd fmap list_fmap].
      rewrite wpre_snoc by (rewrite fmap_length; lia). by rewrite <-!app_assoc. }
    set (fpS := (l :: concat (cfp <$> ts1)) ++ (fp1 ++ fp2) ++ concat (cfp <$> ts2)) in *.
    set (wS := wpre (cw <$> ts1) ks1 ++ (w1 ++ Sep k :: w2) ++ wpost ks2 (cw <$> ts2)) in *.
    assert (Hin12 : forall y, y ∈ fp1 ++ fp2 -> y ∈ fpc \/ y = nc).
    { intros y. rewrite Pm. rewrite elem_of_cons. tauto. }
    assert (NDS : NoDup fpS).
    { unfold fpS. eapply (NoDup_ctx _ fpc _ _ nc); [exact ND| | |exact Hb].
      - rewrite Pm. apply NoDup_cons. split; [|done]. intros Hn'. by apply (Hfpcn nc).
      - intros y Hy. destruct (Hin12 y Hy) as [| ->]; [by left|right; done]. }
    assert (HbS : Forall (fun x => x < brk t1) fpS).
    { apply Forall_forall. intros x. unfold fpS. rewrite Eb. rewrite !elem_of_app.
      intros [Hx|[Hx|Hx]].
      - specialize (Hb x). rewrite !elem_of_app in Hb. specialize (Hb (or_introl Hx)). lia.
      - try rewrite <-elem_of_app in Hx. destruct (Hin12 x Hx) as [Hx'| ->]; [|lia].
        rewrite Forall_forall in Hbc. specialize (Hbc x Hx'). fold nc in Hbc. lia.
      - specialize (Hb x). rewrite !elem_of_app in Hb. specialize (Hb (or_intror (or_intror Hx))). lia. }
    destruct (split_reading_facts comp (degree t) (wpre (cw <$> ts1) ks1) wc w1 w2 k (wpost ks2 (cw <$> ts2)) Sr) as (Sf1 & Sf2 & Sf3 & Sf4).
    fold wS in Sf1, Sf2, Sf3, Sf4.
    assert (Fin : forall fp' w', cut_res t1 t' l (S d) fpS wS fp' w' ->
       cut_res t t' l (S d) (focus_fp l ts1 (c, fpc, wc) ts2) (focus_w ks1 ks2 ts1 (c, fpc, wc) ts2) fp' w').
    { intros fp' w' (A1 & A2 & A3 & A4 & A5 & A6 & A7 & A8 & A9 & A10). unfold cut_res. rewrite Md, Ms, Mr, Eb in *. splits; try done.
      - unfold focus_w. cbn [fst snd]. eapply half_trans; [exact Sf1|exact Sf2|exact Sf3|done].
      - intros x Hx. destruct (A4 x Hx) as [Hx'|Hx']; [|right; unfold nc in *; lia].
        unfold fpS in Hx'. unfold focus_fp. cbn [fst snd]. rewrite !elem_of_app in Hx' |- *.
        destruct Hx' as [Hx'|[Hx'|Hx']]; [by auto| |by auto].
        try rewrite <-elem_of_app in Hx'. destruct (Hin12 x Hx') as [| ->]; [by auto|right; unfold nc in *; lia].
      - intros x Hx Hxb. unfold focus_fp in Hx. cbn [fst snd] in Hx. rewrite A5; [|unfold fpS|unfold nc; lia].
        + apply Fr; [intros ->; apply Hx; by left| |unfold nc; lia].
          intros ->. apply Hx. rewrite !elem_of_app. auto.
        + rewrite !elem_of_app in Hx |- *. intros [Hx'|[Hx'|Hx']]; [by auto| |by auto].
          try rewrite <-elem_of_app in Hx'. destruct (Hin12 x Hx') as [| ->]; [by auto|unfold nc in *; lia].
      - rewrite El in A6. cbn [num] in A6. rewrite E. cbn [num]. rewrite app_length. lia.
      - unfold nc in *. lia. }
    rewrite E1 in HC. apply bind_crash in HC as [HC|([t2 pos] & n2 & HD & HC)].
    { unfold cbnd at 1 in HC. cbn [cl] in HC. rewrite El in HC. cbn [vals] in HC. rewrite aget_app in HC by done. unfold cbnd at 1 in HC. cbn [cl] in HC.
      apply bind_crash in HC as [HC|(z & n3 & _ & HC)]; [|discriminate].
      destruct n1; [|discriminate]. cbn in HC. injection HC as <-.
      exists fpS, wS. apply Fin, cut_same; [|done]. rewrite <- Efp1, <- Ew1.
      apply (focus_reads kzero comp _ _ _ _ _ _ _ _ _ _ _ _ Foc1). }
    unfold cbnd at 1 in HD. cbn [cl] in HD. rewrite El in HD. cbn [vals] in HD. rewrite aget_app in HD by done. unfold cbnd at 1 in HD. cbn [cl] in HD.
    apply bind_done in HD as (z & n3 & Ez & HD). injection HD as <- <- <-.
    assert (z = comp k.1 p.1) as ->. { destruct n1; [discriminate|]. cbn in Ez. by injection Ez. } clear Ez.
    rewrite El in HC. cbn [kids] in HC.
    assert (Q : exists fp' w', cut_res t1 t' l (S d) fpS wS fp' w').
    { destruct (Z.ltb_spec (comp k.1 p.1) 0) as [Lk|Lk].
      - replace ((caddr <$> ts1) ++ Some c :: Some nc :: (caddr <$> ts2) ++ JC') with (((caddr <$> ts1) ++ [Some c]) ++ Some nc :: (caddr <$> ts2) ++ JC') in HC by by rewrite <-app_assoc.
        rewrite aget_app in HC by (rewrite app_length, fmap_length; simpl; lia). unfold cbnd at 1 in HC. cbn [cl] in HC. unfold cbnd at 1 in HC. cbn [cl deref] in HC.
        pose proof (descend_cut d IH fuel t1 l nx (ks1 ++ [k]) ks2 J' (ts1 ++ [c1]) c2 ts2 JC' p n3 t') as D.
        rewrite Efp2, Ew2 in D. apply D; try done.
        + by rewrite Md.
        + rewrite Md. unfold c2. cbn [fst snd]. lia.
      - rewrite aget_app in HC by (rewrite fmap_length; lia). unfold cbnd at 1 in HC. cbn [cl] in HC. unfold cbnd at 1 in HC. cbn [cl deref] in HC.
        pose proof (descend_cut d IH fuel t1 l nx ks1 (k :: ks2) J' ts1 c1 (c2 :: ts2) JC' p n3 t') as D.
        rewrite Efp1, Ew1 in D. apply D; try done.
        + by rewrite Md.
        + rewrite Md. unfold c1. cbn [fst snd]. lia. }
    destruct Q as (fp' & w' & RQ). exists fp', w'. by apply Fin.
  Qed.
End ins.
