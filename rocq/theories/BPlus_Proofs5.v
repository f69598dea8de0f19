(** Insertion into a tree. *)
From Verif Require Import Base BPlus_Model BPlus_Spec BPlus_Proofs BPlus_Proofs2 BPlus_Proofs3 BPlus_Proofs4.

Section ins.
  Context {K V : Type} (kzero : K) (vzero : V) (comp : K -> K -> Z).
  Implicit Types (t : @tree K V) (w pre post : list (@item K V)).
  Notation insert_non_full := (insert_non_full kzero vzero comp).
  Notation child := (nat * list nat * list (@item K V))%type.
  Notation caddr := (fun c : child => Some c.1.1).
  Notation cfp := (fun c : child => c.1.2).
  Notation cw := (fun c : child => c.2).

  Lemma leaf_grows M (p : K * V) es1 es2 :
    (forall x, last es1 = Some x -> (comp p.1 x.1 >= 0)%Z) -> Forall (fun x => (comp p.1 x.1 < 0)%Z) es2 ->
    grows comp M p (Entry <$> es1 ++ es2) (Entry <$> es1 ++ p :: es2).
  Proof.
    intros H1 H2. unfold grows. splits; cycle 3; [rewrite !fmap_app; apply ins_here| | |].
    - rewrite !entries_leaf. by rewrite <-Permutation_middle.
    - intros x. rewrite !fmap_app. cbn [fmap list_fmap]. rewrite elem_of_app, elem_of_cons.
      intros [H|[->|H]]; [right; exists x|by left|right; exists x]; rewrite elem_of_app; auto.
    - intros C. unfold in_order. rewrite !fmap_app. cbn [fmap list_fmap]. rewrite !strong_app.
      intros (S1 & S2 & S3).
      assert (P1 : forall x, x ∈ Entry <$> es1 -> (comp (item_key x) p.1 <= 0)%Z).
      { intros x Hx. destruct es1 as [|e es1 _] using rev_ind; [by apply elem_of_nil in Hx|].
        rewrite last_snoc in H1. specialize (H1 e eq_refl).
        rewrite fmap_app in Hx, S1. cbn [fmap list_fmap] in Hx, S1. apply strong_app in S1 as (_ & _ & S1).
        assert (He : (comp e.1 p.1 <= 0)%Z) by (apply cmp_le_ge; [done|lia]).
        apply elem_of_app in Hx as [Hx|Hx].
        - specialize (S1 x (Entry e) Hx ltac:(by left)). by eapply (cmp_trans _ C).
        - apply elem_of_list_singleton in Hx as ->. done. }
      assert (P2 : forall x, x ∈ Entry <$> es2 -> (comp p.1 (item_key x) <= 0)%Z).
      { intros x Hx. apply elem_of_list_fmap in Hx as (e & -> & He). rewrite Forall_forall in H2. specialize (H2 e He). cbn. lia. }
      splits; [done| |].
      + constructor; [done|]. by apply Forall_forall.
      + intros x y Hx [->|Hy]%elem_of_cons; [by apply P1|by apply S3].
  Qed.

  Lemma in_order_app w1 w2 : in_order comp (w1 ++ w2) -> in_order comp w1 /\ in_order comp w2.
  Proof. unfold in_order. rewrite strong_app. naive_solver. Qed.

  Theorem insert_non_full_ok d : ins_ok kzero vzero comp d.
  Proof.
    induction d as [|d IH]; intros fuel t l fp w p Hf HM R Hn ND Hb.
    { (* leaf *)
      destruct fuel as [|fuel]; [lia|]. cbn [reads] in R. destruct R as (nx&es&jk&cs&E&L1&L2&->&->).
      cbn [BPlus_Model.insert_non_full]. rewrite E. cbn [leaf num vals] in *.
      rewrite E in Hn. cbn in Hn. rewrite app_length in L1. destruct jk as [|j jk]; [simpl in L1; lia|].
      destruct (leaf_shift_ok comp p.1 es j jk) as (es1 & es2 & u & -> & EL & H1 & H2).
      rewrite EL. cbn [rbind]. rewrite aset_app by done. cbn [rbind].
      do 3 eexists. split; [done|]. unfold ins_res. hs. rewrite E. hs. splits.
      - cbn [reads]. exists nx, (es1 ++ p :: es2), jk, cs. hs. rewrite E. hs. splits; try done.
        + unfold set_num, set_vals. cbn. rewrite <-app_assoc. cbn. f_equal. rewrite !app_length. simpl. lia.
        + rewrite !app_length in *. simpl in *. lia.
      - by apply leaf_grows.
      - done.
      - intros x Hx. by left.
      - intros x Hx Hxb. hs. rewrite hp_upd_ne; [done|]. intros ->. apply Hx. by left.
      - lia.
      - done.
      - done.
      - done.
      - done. }
    destruct fuel as [|fuel]; [lia|]. assert (Hf' : d < fuel) by lia.
    cbn [reads] in R. destruct R as (nx&ks&J&ts&JC&E&N1&N2&L1&L2&->&->&F).
    cbn [BPlus_Model.insert_non_full]. rewrite E. cbn [leaf num vals kids] in *. rewrite E in Hn. cbn [num] in Hn.
    destruct (down_pos_ok comp p.1 ks J) as (ks1 & ks2 & -> & EP & H1 & H2). rewrite EP. cbn [rbind].
    destruct (length_split (length ks1) (S (length ks2)) ts) as (ts1 & ts2' & -> & Lt1 & Lt2);
      [rewrite N2, app_length; lia|].
    destruct ts2' as [|c ts2]; [done|]. simpl in Lt2.
    rewrite (fmap_app caddr ts1 (c :: ts2)). cbn [fmap list_fmap]. rewrite <-app_assoc. cbn [app].
    rewrite aget_app by (rewrite fmap_length; lia). cbn [rbind deref].
    assert (Foc : focus (degree t) (hp t) d l nx ks1 ks2 J ts1 c ts2 JC).
    { unfold focus. splits; try done; lia. }
    assert (Efp : l :: concat (cfp <$> ts1 ++ c :: ts2) = focus_fp l ts1 c ts2).
    { unfold focus_fp. rewrite fmap_app, concat_app. done. }
    assert (Ew : weave (cw <$> ts1 ++ c :: ts2) (ks1 ++ ks2) = focus_w ks1 ks2 ts1 c ts2).
    { unfold focus_w. rewrite fmap_app. cbn [fmap list_fmap]. apply weave_focus; rewrite fmap_length; lia. }
    rewrite Efp in *. rewrite Ew in *.
    assert (Pre : cmp_ok comp -> forall w, in_order comp (wpre (cw <$> ts1) ks1 ++ w) ->
       forall x, x ∈ wpre (cw <$> ts1) ks1 -> (comp (item_key x) p.1 <= 0)%Z).
    { intros C w S. eapply fits_pre; [done|rewrite fmap_length; lia|done|].
      intros x Hx. specialize (H1 x Hx). apply cmp_le_ge; [done|lia]. }
    assert (Post : cmp_ok comp -> forall w, in_order comp (w ++ wpost ks2 (cw <$> ts2)) ->
       forall x, x ∈ wpost ks2 (cw <$> ts2) -> (comp p.1 (item_key x) <= 0)%Z).
    { intros C w S. eapply fits_post; [done|rewrite fmap_length; lia|done|].
      intros x Hx. destruct ks2; [done|]. injection Hx as ->. apply Forall_cons in H2 as [H2 _]. lia. }
    destruct (decide (2 * degree t - 1 = num (hp t c.1.1))) as [Full|NFull]; cycle 1.
    { (* the child is not full *)
      cbn [rbind]. rewrite E. cbn [kids]. rewrite (fmap_app caddr ts1 (c :: ts2)). cbn [fmap list_fmap]. rewrite <-app_assoc. cbn [app].
      rewrite aget_app by (rewrite fmap_length; lia). cbn [rbind deref].
      pose proof (proj2 (proj2 (proj2 (proj2 (proj2 (proj2 Foc)))))) as HF.
      apply Forall_app in HF as [_ [[_ HF] _]%Forall_cons]. apply reads_lengths in HF as (_ & _ & HF & _).
      eapply (descend kzero vzero comp d IH fuel t l nx ks1 ks2 J ts1 c ts2 JC p); try done; [lia|].
      intros C S. unfold focus_w in S. unfold fits. split; [by eapply Pre|].
      rewrite app_assoc in S. by eapply Post. }
    (* the child is full *)
    destruct c as [[c fpc] wc]. cbn [fst snd] in *.
    pose proof F as F'. apply Forall_app in F' as [F1 [[F2n F2] F3]%Forall_cons]. cbn [fst snd] in F2, F2n.
    assert (exists j J', J = j :: J') as (j & J' & ->).
    { destruct J; [|eauto]. rewrite app_nil_r in L1. lia. }
    assert (exists jc JC', JC = jc :: JC') as (jc & JC' & ->).
    { destruct JC; [|eauto]. rewrite !app_length in L1. rewrite !app_length in L2. simpl in *. lia. }
    unfold focus_fp in ND, Hb. cbn [fst snd] in ND, Hb.
    assert (NDc : NoDup fpc). { apply NoDup_app in ND as (_ & _ & ND). by apply NoDup_app in ND as (? & _). }
    assert (Hbc : Forall (fun x => x < brk t) fpc). { apply Forall_app in Hb as [_ Hb]. by apply Forall_app in Hb as [? _]. }
    assert (Hlc : l ∉ fpc).
    { intros Hl. cbn [app] in ND. apply NoDup_cons in ND as [ND _]. apply ND. rewrite !elem_of_app. auto. }
    assert (Hlb : l < brk t). { cbn in Hb. apply Forall_cons in Hb as [Hb _]. done. }
    rewrite Forall_forall in Hb.
    destruct (split_child_ok kzero vzero t l c nx ks1 ks2 j J' (caddr <$> ts1) (caddr <$> ts2) jc JC' d fpc wc)
      as (t1 & k & fp1 & fp2 & w1 & w2 & E1 & (Ms & Md & Mr) & Eb & El & R1 & R2 & Pm & Nc & Nn & Fr & Sr); try done.
    { rewrite E. rewrite fmap_app. cbn [fmap list_fmap]. rewrite <-!app_assoc. cbn [app]. by rewrite app_length. }
    { rewrite fmap_length. lia. } { rewrite fmap_length. lia. }
    set (nc := brk t) in *. rewrite E1. cbn [rbind]. rewrite El. cbn [vals]. rewrite aget_app by done. cbn [rbind].
    rewrite El. cbn [kids].
    (* the state after the split *)
    set (c1 := ((c, fp1, w1) : child)). set (c2 := ((nc, fp2, w2) : child)).
    assert (Hfpcn : forall x, x ∈ fpc -> x <> nc). { rewrite Forall_forall in Hbc. intros x Hx. specialize (Hbc x Hx). unfold nc. lia. }
    assert (Hsib : forall cc x, cc ∈ ts1 ++ ts2 -> x ∈ cc.1.2 -> x ∉ fpc /\ x < brk t /\ x <> l).
    { intros cc x Hcc Hx. cbn [app] in ND. apply NoDup_cons in ND as [ND0 ND].
      assert (Hxx : x ∈ concat (cfp <$> ts1) \/ x ∈ concat (cfp <$> ts2)).
      { apply elem_of_app in Hcc as [Hcc|Hcc]; [left|right]; apply elem_concat; exists cc.1.2; (split; [done|]); apply elem_of_list_fmap; by exists cc. }
      apply NoDup_app in ND as (_ & ND1 & ND2). apply NoDup_app in ND2 as (_ & ND2 & _).
      splits.
      - intros Hxc. destruct Hxx as [Hxx|Hxx]; [|by apply (ND2 x)]. apply (ND1 x); [done|]. apply elem_of_app. by left.
      - apply Hb. cbn [app]. apply elem_of_cons. right. rewrite !elem_of_app. tauto.
      - intros ->. apply ND0. rewrite !elem_of_app. tauto. }
    pose proof (reads_in _ _ _ _ _ _ F2) as Hcin.
    assert (HF : forall ts, (forall cc, cc ∈ ts -> cc ∈ ts1 ++ ts2) ->
      Forall (fun cc : child => degree t - 1 <= num (hp t cc.1.1) /\ reads (degree t) (hp t) d cc.1.1 cc.1.2 cc.2) ts ->
      Forall (fun cc : child => degree t - 1 <= num (hp t1 cc.1.1) /\ reads (degree t) (hp t1) d cc.1.1 cc.1.2 cc.2) ts).
    { intros ts Hts. rewrite !Forall_forall. intros H cc Hcc. destruct (H cc Hcc) as [G1 G2].
      assert (Hs : forall x, x ∈ cc.1.2 -> hp t1 x = hp t x).
      { intros x Hx. destruct (Hsib cc x (Hts cc Hcc) Hx) as (?&?&?). apply Fr; [done|congruence|unfold nc; lia]. }
      split; [|by eapply reads_frame]. rewrite Hs; [done|]. by eapply reads_in. }
    assert (HF' : Forall (fun cc : child => degree t1 - 1 <= num (hp t1 cc.1.1) /\ reads (degree t1) (hp t1) d cc.1.1 cc.1.2 cc.2) (ts1 ++ c1 :: c2 :: ts2)).
    { rewrite Md. apply Forall_app. split; [apply HF; [intros; apply elem_of_app; by left|done]|].
      apply Forall_cons. split; [unfold c1; cbn [fst snd]; split; [lia|done]|].
      apply Forall_cons. split; [unfold c2; cbn [fst snd]; split; [lia|done]|].
      apply HF; [intros; apply elem_of_app; by right|done]. }
    rewrite fmap_app in E. cbn [fmap list_fmap] in E.
    assert (Foc1 : focus (degree t1) (hp t1) d l nx ks1 (k :: ks2) J' ts1 c1 (c2 :: ts2) JC').
    { unfold focus. rewrite Md in *. splits.
      - rewrite El, fmap_app. cbn [fmap list_fmap]. unfold c1, c2. cbn [fst snd].
        rewrite <-!app_assoc. cbn [app]. f_equal. rewrite app_length. simpl. lia.
      - rewrite app_length. simpl. lia.
      - done.
      - simpl. lia.
      - rewrite !app_length in *. simpl in *. lia.
      - rewrite !app_length in *. simpl in *. lia.
      - done. }
    assert (Foc2 : focus (degree t1) (hp t1) d l nx (ks1 ++ [k]) ks2 J' (ts1 ++ [c1]) c2 ts2 JC').
    { destruct Foc1 as (A1 & A2 & A3 & A4 & A5 & A6 & A7). unfold focus.
      replace ((ks1 ++ [k]) ++ ks2) with (ks1 ++ k :: ks2) by by rewrite <-app_assoc.
      replace ((ts1 ++ [c1]) ++ c2 :: ts2) with (ts1 ++ c1 :: c2 :: ts2) by by rewrite <-app_assoc.
      splits; try done; rewrite ?app_length; simpl; lia. }
    assert (Efp1 : focus_fp l ts1 c1 (c2 :: ts2) = (l :: concat (cfp <$> ts1)) ++ (fp1 ++ fp2) ++ concat (cfp <$> ts2)).
    { unfold focus_fp, c1, c2. cbn [fst snd fmap list_fmap concat app]. by rewrite <-!app_assoc. }
    assert (Efp2 : focus_fp l (ts1 ++ [c1]) c2 ts2 = (l :: concat (cfp <$> ts1)) ++ (fp1 ++ fp2) ++ concat (cfp <$> ts2)).
    { unfold focus_fp, c1, c2. rewrite fmap_app, concat_app. cbn [fst snd fmap list_fmap concat app]. by rewrite app_nil_r, <-!app_assoc. }
    assert (Ew1 : focus_w ks1 (k :: ks2) ts1 c1 (c2 :: ts2) = wpre (cw <$> ts1) ks1 ++ (w1 ++ Sep k :: w2) ++ wpost ks2 (cw <$> ts2)).
    { unfold focus_w, c1, c2. cbn [fst snd fmap list_fmap]. rewrite wpost_cons. by rewrite <-!app_assoc. }
    assert (Ew2 : focus_w (ks1 ++ [k]) ks2 (ts1 ++ [c1]) c2 ts2 = wpre (cw <$> ts1) ks1 ++ (w1 ++ Sep k :: w2) ++ wpost ks2 (cw <$> ts2)).
    { unfold focus_w, c1, c2. rewrite fmap_app. cbn [fst snd fmap list_fmap].
      rewrite wpre_snoc by (rewrite fmap_length; lia). by rewrite <-!app_assoc. }
    set (fpS := (l :: concat (cfp <$> ts1)) ++ (fp1 ++ fp2) ++ concat (cfp <$> ts2)) in *.
    set (wS := wpre (cw <$> ts1) ks1 ++ (w1 ++ Sep k :: w2) ++ wpost ks2 (cw <$> ts2)) in *.
    assert (Hin12 : forall y, y ∈ fp1 ++ fp2 -> y ∈ fpc \/ y = nc).
    { intros y. rewrite Pm. rewrite elem_of_cons. tauto. }
    assert (NDS : NoDup fpS).
    { unfold fpS. eapply (NoDup_ctx _ fpc _ _ nc); [exact ND| | |exact Hb].
      - rewrite Pm. apply NoDup_cons. split; [|done]. intros Hn'. by apply (Hfpcn nc).
      - intros y Hy. destruct (Hin12 y Hy) as [| ->]; [by left|right; done]. }
    assert (HbS : Forall (fun x => x < brk t1) fpS).
    { apply Forall_forall. intros x. unfold fpS. rewrite Eb. rewrite !elem_of_app.
      intros [Hx|[Hx|Hx]].
      - specialize (Hb x). rewrite !elem_of_app in Hb. specialize (Hb (or_introl Hx)). lia.
      - try rewrite <-elem_of_app in Hx. destruct (Hin12 x Hx) as [Hx'| ->]; [|lia].
        rewrite Forall_forall in Hbc. specialize (Hbc x Hx'). fold nc in Hbc. lia.
      - specialize (Hb x). rewrite !elem_of_app in Hb. specialize (Hb (or_intror (or_intror Hx))). lia. }
    destruct (split_reading_facts comp (degree t) (wpre (cw <$> ts1) ks1) wc w1 w2 k (wpost ks2 (cw <$> ts2)) Sr) as (Sf1 & Sf2 & Sf3 & Sf4).
    fold wS in Sf1, Sf2, Sf3, Sf4.
    assert (Fin : forall t' fp' w', ins_res comp p t1 t' l (S d) fpS wS fp' w' ->
       ins_res comp p t t' l (S d) (focus_fp l ts1 (c, fpc, wc) ts2) (focus_w ks1 ks2 ts1 (c, fpc, wc) ts2) fp' w').
    { intros t' fp' w' (A1 & A2 & A3 & A4 & A5 & A6 & A7 & A8 & A9 & A10). unfold ins_res. rewrite Md, Ms, Mr, Eb in *. splits; try done.
      - unfold focus_w. cbn [fst snd]. eapply grows_trans; [exact Sf1|exact Sf2|exact Sf3|apply Sf4|done].
      - intros x Hx. destruct (A4 x Hx) as [Hx'|Hx']; [|right; unfold nc in *; lia].
        unfold fpS in Hx'. unfold focus_fp. cbn [fst snd]. rewrite !elem_of_app in Hx' |- *.
        destruct Hx' as [Hx'|[Hx'|Hx']]; [by auto| |by auto].
        try rewrite <-elem_of_app in Hx'. destruct (Hin12 x Hx') as [| ->]; [by auto|right; unfold nc in *; lia].
      - intros x Hx Hxb. unfold focus_fp in Hx. cbn [fst snd] in Hx. rewrite A5; [|unfold fpS|unfold nc; lia].
        + apply Fr; [intros ->; apply Hx; by left| |unfold nc; lia].
          intros ->. apply Hx. rewrite !elem_of_app. auto.
        + rewrite !elem_of_app in Hx |- *. intros [Hx'|[Hx'|Hx']]; [by auto| |by auto].
          try rewrite <-elem_of_app in Hx'. destruct (Hin12 x Hx') as [| ->]; [by auto|unfold nc in *; lia].
      - rewrite El in A6. cbn [num] in A6. rewrite E. cbn [num]. rewrite app_length. lia.
      - unfold nc in *. lia. }
    assert (Q : exists t' fp' w', (let! c := aget ((caddr <$> ts1) ++ Some c :: Some nc :: (caddr <$> ts2) ++ JC')
            (if (comp k.1 p.1 <? 0)%Z then length ks1 + 1 else length ks1) in let! c := deref c in insert_non_full fuel c p t1) = Ok t'
       /\ ins_res comp p t1 t' l (S d) fpS wS fp' w').
    { destruct (Z.ltb_spec (comp k.1 p.1) 0) as [Lk|Lk].
      - replace ((caddr <$> ts1) ++ Some c :: Some nc :: (caddr <$> ts2) ++ JC') with (((caddr <$> ts1) ++ [Some c]) ++ Some nc :: (caddr <$> ts2) ++ JC') by by rewrite <-app_assoc.
        rewrite aget_app by (rewrite app_length, fmap_length; simpl; lia). cbn [rbind deref].
        pose proof (descend kzero vzero comp d IH fuel t1 l nx (ks1 ++ [k]) ks2 J' (ts1 ++ [c1]) c2 ts2 JC' p) as D.
        rewrite Efp2, Ew2 in D. apply D; try done.
        + by rewrite Md.
        + rewrite Md. unfold c2. cbn [fst snd]. lia.
        + intros C S. unfold fits. split.
          * rewrite fmap_app. cbn [fmap list_fmap]. eapply (fits_pre comp p _ _ (w2 ++ wpost ks2 (cw <$> ts2))); [done|rewrite !app_length, fmap_length; simpl; lia| |].
            { rewrite wpre_snoc by (rewrite fmap_length; lia). unfold wS in S. unfold c1. cbn [fst snd]. rewrite <-!app_assoc in *. done. }
            intros x. rewrite last_snoc. intros [= <-]. lia.
          * unfold wS in S. rewrite app_assoc in S. by eapply Post.
      - rewrite aget_app by (rewrite fmap_length; lia). cbn [rbind deref].
        pose proof (descend kzero vzero comp d IH fuel t1 l nx ks1 (k :: ks2) J' ts1 c1 (c2 :: ts2) JC' p) as D.
        rewrite Efp1, Ew1 in D. apply D; try done.
        + by rewrite Md.
        + rewrite Md. unfold c1. cbn [fst snd]. lia.
        + intros C S. unfold fits. split.
          * unfold wS in S. by eapply Pre.
          * eapply (fits_post comp p _ _ (wpre (cw <$> ts1) ks1 ++ w1)); [done|simpl; rewrite fmap_length; lia| |].
            { cbn [fmap list_fmap]. rewrite wpost_cons. unfold wS in S. unfold c2. cbn [fst snd]. rewrite <-!app_assoc in *. done. }
            intros x [= <-]. apply cmp_le_ge; [done|lia]. }
    destruct Q as (t' & fp' & w' & EQ & RQ). exists t', fp', w'. split; [exact EQ|by apply Fin].
  Qed.

  (** insert, on a whole tree *)
  Lemma insert_ok t d w p :
    2 <= degree t -> tree_reads t d w ->
    exists t' r d' w', insert kzero vzero comp (root t) p t = Ok (t', Some r)
      /\ tree_reads (set_root (Some r) t') d' w' /\ grows comp (degree t) p w w' /\ degree t' = degree t
      /\ (d = 0 -> length (entries w) < 2 * degree t - 1 -> d' = 0).
  Proof.
    intros HM (r & fp & Er & R & ND & Hb & Hsz). unfold insert. rewrite Er.
    assert (Hbd : forall n (l : list nat), NoDup l -> Forall (fun x => x < n) l -> length l <= n).
    { intros n l N F. rewrite <-(seq_length n 0). apply submseteq_length, NoDup_submseteq; [done|].
      intros x Hx. rewrite Forall_forall in F. specialize (F x Hx). apply elem_of_seq. lia. }
    destruct (decide (degree t * 2 - 1 = num (hp t r))) as [Full|NF]; cycle 1.
    - pose proof (reads_lengths _ _ _ _ _ _ R) as (_ & _ & Hn & _).
      pose proof (reads_depth _ _ _ _ _ _ R) as Hd. pose proof (Hbd _ _ ND Hb) as Hl.
      destruct (insert_non_full_ok d (S (brk t)) t r fp w p) as (t' & fp' & w' & E & A1 & A2 & A3 & A4 & A5 & A6 & A7 & A8 & A9 & A10); try done; try lia.
      rewrite E. cbn [rbind]. exists t', r, d, w'. splits; try done.
      exists r, fp'. cbn. splits; try done.
      + by rewrite A9.
      + apply Forall_forall. intros x Hx. rewrite Forall_forall in Hb. destruct (A4 x Hx) as [H|H]; [specialize (Hb x H)|]; lia.
      + destruct A2 as (A2 & _). rewrite A2, A8, Hsz. simpl. lia.
    - destruct (new_node kzero vzero t) as [t1 nd] eqn:EN.
      destruct (new_node_hp _ _ _ _ _ EN) as (End & Eb1 & (Ms & Md & Mr) & Hnd & Hoth).
      pose proof (reads_in _ _ _ _ _ _ R) as Hrin.
      assert (Hbf : forall x, x ∈ fp -> x <> nd). { rewrite Forall_forall in Hb. intros x Hx. specialize (Hb x Hx). lia. }
      set (M := degree t) in *.
      set (t2 := upd nd (set_leaf false) t1).
      assert (H2 : hp t2 nd = Node None (replicate (M * 2 - 1) (kzero, vzero)) (None :: replicate (M * 2 - 1) None) 0 false).
      { unfold t2. hs. rewrite Hnd. unfold set_leaf. cbn [next vals kids num]. f_equal.
        replace (M * 2) with (S (M * 2 - 1)) at 1 by lia. done. }
      erewrite set_kid_ok; cycle 1.
      { rewrite H2. cbn [kids]. apply (aset_app [] None (Some r)). done. }
      cbn [rbind app]. set (t3 := upd nd (set_kids (Some r :: replicate (M * 2 - 1) None)) t2).
      assert (H3 : hp t3 nd = Node None (replicate (M * 2 - 1) (kzero, vzero)) (Some r :: replicate (M * 2 - 1) None) 0 false).
      { unfold t3. hs. rewrite H2. done. }
      assert (H3o : forall x, x <> nd -> hp t3 x = hp t x).
      { intros x Hx. unfold t3, t2. hs. by apply Hoth. }
      assert (R3 : reads M (hp t3) d r fp w). { eapply reads_frame; [|exact R]. intros x Hx. by apply H3o, Hbf. }
      destruct (split_child_ok kzero vzero t3 nd r None [] [] (kzero, vzero) (replicate (M * 2 - 2) (kzero, vzero)) [] [] None (replicate (M * 2 - 2) None) d fp w)
        as (t4 & k & fp1 & fp2 & w1 & w2 & E4 & (Ms4 & Md4 & Mr4) & Eb4 & Hnd4 & R1 & R2 & Pm & Nc & Nn & Fr & Sr); try done.
      { cbn. by rewrite Md. }
      { rewrite H3. cbn [app length]. replace (M * 2 - 1) with (S (M * 2 - 2)) by lia. done. }
      { cbn. rewrite Md. exact R3. }
      { rewrite H3o by by apply Hbf. rewrite <-Full. cbn. rewrite Md. lia. }
      { intros H. by apply (Hbf nd). }
      { cbn. lia. }
      { eapply Forall_impl; [exact Hb|]. cbn. intros. lia. }
      cbn [length] in E4. rewrite E4. cbn [rbind].
      assert (B3 : brk t3 = S nd) by (cbn; lia). rewrite B3 in *.
      change (degree t3) with (degree t1) in *. rewrite Md in *. cbn [app length] in *.
      set (c1 := ((r, fp1, w1) : child)). set (c2 := ((S nd, fp2, w2) : child)).
      assert (R4 : reads M (hp t4) (S d) nd (nd :: fp1 ++ fp2) (w1 ++ Sep k :: w2)).
      { cbn [reads]. exists None, [k], (replicate (M * 2 - 2) (kzero, vzero)), [c1; c2], (replicate (M * 2 - 2) None).
        cbn [length fmap list_fmap app concat]. rewrite Hnd4. splits; try done; try lia.
        - rewrite replicate_length. lia.
        - rewrite replicate_length. lia.
        - unfold c1, c2. cbn [fst snd]. by rewrite app_nil_r.
        - repeat constructor; unfold c1, c2; cbn [fst snd]; try done; lia. }
      assert (Hin : forall x, x ∈ fp1 ++ fp2 -> x ∈ fp \/ x = S nd). { intros x. rewrite Pm, elem_of_cons. tauto. }
      assert (ND4 : NoDup (nd :: fp1 ++ fp2)).
      { apply NoDup_cons. split.
        - intros [H|H]%Hin; [by apply (Hbf nd)|lia].
        - rewrite Pm. apply NoDup_cons. split; [|done]. intros H. rewrite Forall_forall in Hb. specialize (Hb _ H). lia. }
      assert (Hb4 : Forall (fun x => x < brk t4) (nd :: fp1 ++ fp2)).
      { rewrite Eb4. apply Forall_forall. intros x [->|Hx]%elem_of_cons; [lia|]. rewrite Forall_forall in Hb.
        destruct (Hin x Hx) as [H| ->]; [specialize (Hb _ H)|]; lia. }
      pose proof (reads_depth _ _ _ _ _ _ R4) as Hd. pose proof (Hbd _ _ ND4 Hb4) as Hl.
      destruct (insert_non_full_ok (S d) (S (brk t4)) t4 nd (nd :: fp1 ++ fp2) (w1 ++ Sep k :: w2) p)
        as (t' & fp' & w' & E & A1 & A2 & A3 & A4 & A5 & A6 & A7 & A8 & A9 & A10); try done; try lia.
      { by rewrite Md4. }
      { rewrite Hnd4, Md4. cbn [num]. lia. }
      rewrite E. cbn [rbind]. exists t', nd, (S d), w'.
      destruct (split_reading_facts comp M [] w w1 w2 k [] Sr) as (Sf1 & Sf2 & Sf3 & Sf4). cbn [app] in Sf1, Sf2, Sf3, Sf4. setoid_rewrite app_nil_r in Sf4. rewrite !app_nil_r in Sf1, Sf2, Sf3.
      splits; try done.
      + exists nd, fp'. cbn. splits; try done.
        * by rewrite A9.
        * apply Forall_forall. intros x Hx. rewrite Forall_forall in Hb4. destruct (A4 x Hx) as [H|H]; [specialize (Hb4 x H)|]; lia.
        * destruct A2 as (A2 & _). rewrite A2, A8, Ms4. change (size t3) with (size t1). rewrite Ms, Hsz, <-Sf1. simpl. lia.
      + rewrite Md4 in A2. eapply grows_trans; [exact Sf1|exact Sf2|exact Sf3|apply Sf4|done].
      + by rewrite A9, Md4.
      + intros -> Hlt. exfalso. cbn [reads] in R. destruct R as (nx0&es0&jk0&cs0&E0&L01&L02&_&Hw0).
        rewrite Hw0, entries_leaf in Hlt. rewrite E0 in Full. cbn [num] in Full. unfold M in *. lia.
  Qed.
End ins.
