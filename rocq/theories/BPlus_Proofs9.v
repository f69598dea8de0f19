(** Deletion, continued. *)
From Verif Require Import Base BPlus_Model BPlus_Spec BPlus_Proofs BPlus_Proofs2 BPlus_Proofs3 BPlus_Proofs4 BPlus_Proofs5 BPlus_Proofs6 BPlus_Proofs7 BPlus_Proofs8.

Lemma snoc_of9 {A} (l : list A) n : length l = S n -> exists l' x, l = l' ++ [x] /\ length l' = n.
Proof.
  intros H. destruct l as [|x l' _] using rev_ind; [done|]. exists l', x. rewrite app_length in H. simpl in H. split; [done|lia].
Qed.

Section del.
  Context {K V : Type} (comp : K -> K -> Z).
  Implicit Types (t : @tree K V) (w : list (@item K V)) (h : nat -> @node K V).
  Notation child := (nat * list nat * list (@item K V))%type.
  Notation caddr := (fun c : child => Some c.1.1).
  Notation cfp := (fun c : child => c.1.2).
  Notation cw := (fun c : child => c.2).
  Notation del_ok := (del_ok (V := V) comp).
  Notation del_res := (del_res comp).
  Notation del_effect := (del_effect comp).

  Lemma del_leaf : del_ok 0.
  Proof.
    intros fuel t l fp w k Hf HM R ND [Rm _]. destruct fuel as [|fuel]; [lia|].
    cbn [reads] in R. destruct R as (nx&es&jk&cs&E&L1&L2&->&->).
    cbn [delete_non_one]. rewrite E. cbn [num vals leaf].
    destruct (up_pos_ok comp k [] es jk) as (es1 & es2 & -> & EU & F1). cbn [app length Nat.add] in EU. rewrite EU. cbn [rbind].
    rewrite E in Rm. cbn [num] in Rm.
    rewrite app_length in L1. rewrite app_length in L1.
    destruct es2 as [|x es2].
    - rewrite app_nil_r in *. simpl in L1. destruct jk as [|j jk].
      { left. unfold aget. rewrite lookup_ge_None_2; [done|]. rewrite app_nil_r. done. }
      simpl in L1. right. rewrite aget_app by done. cbn [rbind].
      destruct (Z.eqb_spec (comp k j.1) 0) as [C|C].
      + destruct (shift_left_ok es1 jk [] j (2 * degree t - 1 - (length es1 + 1)) (length es1 + 1)) as (u & Eu); [lia|lia|].
        rewrite app_nil_r in Eu. rewrite Eu. cbn [rbind]. hs. rewrite E. hs.
        destruct es1 as [|e es1 _] using rev_ind; [simpl in Rm; lia|]. rewrite app_length in *. simpl in L1. cbn [length].
        replace (length es1 + 1) with (S (length es1)) by lia. cbn [dec rbind].
        apply Forall_app in F1 as [F1 [Fe _]%Forall_cons].
        eexists _, [l], (Entry <$> es1). split; [done|]. unfold BPlus_Proofs8.del_res. hs. rewrite E. hs. splits; try done.
        * cbn [reads]. exists nx, es1, (e :: jk ++ [u]), cs. hs. rewrite E. hs. splits; try done.
          -- unfold set_num, set_vals. cbn. by rewrite <-!app_assoc.
          -- rewrite !app_length. simpl. rewrite app_length. simpl. lia.
        * intros x Hx. hs. rewrite !hp_upd_ne; [done|..]; intros ->; apply Hx; by left.
        * rewrite ?app_length; simpl; lia.
        * rewrite !entries_leaf. exists (es1 ++ [e]). split; [by left|]. right. split; [|done].
          exists es1, e, []. splits; [done|by rewrite app_nil_r|by right].
      + eexists _, [l], _. split; [done|]. unfold BPlus_Proofs8.del_res. splits; try done.
        * cbn [reads]. by exists nx, es1, (j :: jk), cs; splits; try done; rewrite app_length; simpl; lia.
        * lia.
        * eexists. split; [by left|]. by left.
    - simpl in L1. right. rewrite <-app_assoc. cbn [app]. rewrite aget_app by done. cbn [rbind].
      destruct (Z.eqb_spec (comp k x.1) 0) as [C|C].
      + destruct (shift_left_ok es1 (es2 ++ jk) [] x (2 * degree t - 1 - (length es1 + 1)) (length es1 + 1)) as (u & Eu); [lia|rewrite app_length; lia|].
        rewrite app_nil_r in Eu. rewrite Eu. cbn [rbind]. hs. rewrite E. hs. rewrite app_length. cbn [length].
        replace (length es1 + S (length es2)) with (S (length es1 + length es2)) by lia. cbn [dec rbind].
        eexists _, [l], (Entry <$> es1 ++ es2). split; [done|]. unfold BPlus_Proofs8.del_res. hs. rewrite E. hs. splits; try done.
        * cbn [reads]. exists nx, (es1 ++ es2), (jk ++ [u]), cs. hs. rewrite E. hs. splits; try done.
          -- unfold set_num, set_vals. cbn. rewrite <-!app_assoc. by rewrite app_length.
          -- rewrite !app_length. simpl. lia.
        * intros y Hy. hs. rewrite !hp_upd_ne; [done|..]; intros ->; apply Hy; by left.
        * rewrite app_length. simpl. lia.
        * rewrite !entries_leaf. exists (es1 ++ x :: es2). split; [by left|]. right. split; [|done].
          exists es1, x, es2. splits; [done|done|by left].
      + eexists _, [l], _. split; [done|]. unfold BPlus_Proofs8.del_res. splits; try done.
        * cbn [reads]. exists nx, (es1 ++ x :: es2), jk, cs; splits; try done; rewrite !app_length; simpl; lia.
        * lia.
        * eexists. split; [by left|]. by left.
  Qed.

  Lemma body_es_pair (ts1 ts2 : list child) cy cz : body_es (ts1 ++ cy :: cz :: ts2) = body_es ts1 ++ (entries cy.2 ++ entries cz.2) ++ body_es ts2.
  Proof. unfold body_es. rewrite !fmap_app, concat_app. cbn [fmap list_fmap concat]. by rewrite <-app_assoc. Qed.
  Lemma body_es_one (ts1 ts2 : list child) c : body_es (ts1 ++ c :: ts2) = body_es ts1 ++ entries c.2 ++ body_es ts2.
  Proof. unfold body_es. by rewrite !fmap_app, concat_app. Qed.

  (** a rearrangement followed by the recursive call *)
  Lemma finish d : del_ok d -> forall fuel t t1 l nx (ks ks' : list (K * V)) J' ts ts1 c ts2 JC' k w,
    d < fuel -> 2 <= degree t -> rearranged t t1 l ts (ts1 ++ c :: ts2) ->
    body (degree t) (hp t1) d l nx ks' J' (ts1 ++ c :: ts2) JC' ->
    num (hp t l) = length ks -> length ks <= S (length ks') ->
    degree t <= num (hp t1 c.1.1) ->
    entries w = body_es ts ->
    (body_es (ts1 ++ c :: ts2) = body_es ts \/ (d = 0 /\ overwrite (body_es ts) (body_es (ts1 ++ c :: ts2)))) ->
    delete_non_one comp fuel c.1.1 k t1 = Panic
    \/ exists t' fp' w', delete_non_one comp fuel c.1.1 k t1 = Ok t' /\ del_res (S d) k t t' l (body_fp l ts) w fp' w'.
  Proof.
    intros IH fuel t t1 l nx ks ks' J' ts ts1 c ts2 JC' k w Hf HM (A1 & A2 & A3 & A4 & (A5 & A6 & A7)) B Hn Hks Hc Hw He.
    rewrite <-A6 in B, HM, Hc.
    destruct (descend_del comp d IH fuel t1 l nx ks' J' ts1 c ts2 JC' k Hf HM B Hc A1) as [HP|(t' & c' & E & B' & N' & I1 & I2 & I3 & I4 & I5 & I6 & I7)]; [by left|right].
    destruct (body_reads _ _ _ _ _ _ _ _ _ B') as [R' Hes]. rewrite A6 in *.
    exists t', (body_fp l (ts1 ++ c' :: ts2)), (weave (cw <$> ts1 ++ c' :: ts2) ks'). split; [done|].
    unfold BPlus_Proofs8.del_res. splits; try done; try congruence.
    - auto.
    - intros x Hx. rewrite I2; [by apply A3|]. intros H. by apply Hx, A2.
    - destruct B' as (EB & _). rewrite EB, Hn. cbn [num]. lia.
    - rewrite Hes, Hw. rewrite A5 in I7. destruct He as [He|[-> He]].
      + rewrite <-He. by apply del_effect_S.
      + by eapply del_effect_over.
  Qed.

  Theorem delete_non_one_ok d : del_ok d.
  Proof.
    induction d as [|d IH]; [exact del_leaf|].
    intros fuel t l fp w k Hf HM R ND [_ Rm]. specialize (Rm ltac:(lia)).
    destruct fuel as [|fuel]; [lia|]. assert (Hf' : d < fuel) by lia.
    cbn [reads] in R. destruct R as (nx&ks&J&ts&JC&E&N1&N2&L1&L2&->&->&F).
    assert (B : body (degree t) (hp t) d l nx ks J ts JC) by (unfold body; splits; done).
    assert (Hw : entries (weave (cw <$> ts) ks) = body_es ts) by by eapply body_reads.
    change (l :: concat (cfp <$> ts)) with (body_fp l ts) in *.
    cbn [delete_non_one]. rewrite E. cbn [num vals leaf kids].
    destruct (up_pos_ok comp k [] ks J) as (ks1 & ks2 & -> & EU & F1). cbn [app length Nat.add] in EU. rewrite EU. cbn [rbind].
    rewrite app_length in N2, N1. rewrite app_length.
    destruct (length_split (length ks1) (S (length ks2)) ts) as (ts1 & ts2' & -> & Lt1 & Lt2); [lia|].
    destruct ts2' as [|cy ts2]; [done|]. simpl in Lt2. injection Lt2 as Lt2.
    assert (EK : ((caddr <$> ts1 ++ cy :: ts2) ++ JC) = (caddr <$> ts1) ++ Some cy.1.1 :: (caddr <$> ts2) ++ JC).
    { rewrite fmap_app, <-app_assoc. done. }
    rewrite EK in *.
    rewrite aget_app by (rewrite fmap_length; lia). cbn [rbind].
    pose proof F as F'. apply Forall_app in F' as [Fa [[Fyn Fy] Fb]%Forall_cons].
    assert (Hnum : num (hp t l) = length (ks1 ++ ks2)) by by rewrite E.
    (* the three neighbours *)
    assert (EZ : (if decide (length ks1 < length ks1 + length ks2)
                  then aget ((caddr <$> ts1) ++ Some cy.1.1 :: (caddr <$> ts2) ++ JC) (length ks1 + 1) else Ok None)
                 = Ok (match ts2 with cz :: _ => Some cz.1.1 | [] => None end)).
    { destruct ts2 as [|cz ts2]; simpl in Lt2.
      - by rewrite decide_False by lia.
      - rewrite decide_True by lia. cbn [fmap list_fmap app].
        replace ((caddr <$> ts1) ++ Some cy.1.1 :: Some cz.1.1 :: (caddr <$> ts2) ++ JC) with (((caddr <$> ts1) ++ [Some cy.1.1]) ++ Some cz.1.1 :: (caddr <$> ts2) ++ JC) by by rewrite <-app_assoc.
        apply aget_app. rewrite app_length, fmap_length. simpl. lia. }
    rewrite EZ. cbn [rbind].
    assert (ET : (if decide (0 < length ks1)
                  then aget ((caddr <$> ts1) ++ Some cy.1.1 :: (caddr <$> ts2) ++ JC) (length ks1 - 1) else Ok None)
                 = Ok (match last ts1 with Some cl => Some cl.1.1 | None => None end)).
    { destruct ts1 as [|cl ts1 _] using rev_ind; simpl in Lt1.
      - by rewrite decide_False by lia.
      - rewrite app_length in Lt1. simpl in Lt1. rewrite decide_True by lia. rewrite last_snoc, fmap_app. cbn [fmap list_fmap]. rewrite <-app_assoc. cbn [app].
        apply aget_app. rewrite fmap_length. lia. }
    rewrite ET. cbn [rbind deref].
    destruct (decide (num (hp t cy.1.1) = degree t - 1)) as [Ny|Ny]; cycle 1.
    { (* no rearrangement *)
      destruct (body_reads _ _ _ _ _ _ _ _ _ B) as [RB _].
      eapply (finish d IH fuel t t l nx (ks1 ++ ks2) (ks1 ++ ks2) J); try done; [lia|lia|by left]. }
    (* with a left neighbour *)
    assert (Left : 0 < length ks1 -> exists ks1' kl ts1' cl, ks1 = ks1' ++ [kl] /\ ts1 = ts1' ++ [cl] /\ length ts1' = length ks1' /\ length ks1 - 1 = length ks1').
    { intros H0. destruct (snoc_of9 ks1 (length ks1 - 1)) as (ks1' & kl & -> & H1); [lia|].
      destruct (snoc_of9 ts1 (length ts1 - 1)) as (ts1' & cl & -> & H2); [lia|]. exists ks1', kl, ts1', cl. splits; try done; lia. }
    assert (EA : (if decide (0 < length ks1) then let! l0 := deref (match last ts1 with Some cl => Some cl.1.1 | None => None end) in Ok (bool_decide (degree t - 1 < num (hp t l0))) else Ok false)
       = Ok (match last ts1 with Some cl => bool_decide (degree t - 1 < num (hp t cl.1.1)) | None => false end)).
    { destruct (decide (0 < length ks1)) as [H0|H0].
      - destruct (Left H0) as (?&?&?&?&->&->&?&?). by rewrite last_snoc.
      - destruct ts1; [done|]. simpl in Lt1. lia. }
    rewrite EA. cbn [rbind]. clear EA.
    destruct (match last ts1 with Some cl => bool_decide (degree t - 1 < num (hp t cl.1.1)) | None => false end) eqn:HA.
    { (* borrow from the left *)
      destruct (decide (0 < length ks1)) as [H0|H0]; [|destruct ts1; [done|simpl in Lt1; lia]].
      destruct (Left H0) as (ks1' & kl & ts1' & cl & -> & -> & H1 & H2). rewrite last_snoc in HA |- *. apply bool_decide_eq_true in HA.
      cbn [deref rbind]. rewrite H2. clear EZ ET Left H2.
      rewrite <-!app_assoc in B. cbn [app] in B. rewrite <-(app_assoc ts1') in *. cbn [app] in *.
      destruct (pair_facts t l nx ks1' ks2 J kl ts1' ts2 cl cy JC d HM B H1 ND) as (P1 & P2 & P3 & P4 & P5 & P6 & P7).
      destruct (shift_to_right_ok t l cl.1.1 cy.1.1 nx ks1' ks2 J kl _ _ JC d cl.1.2 cy.1.2 cl.2 cy.2 HM P1 P2 P3 P4 P5 P6 HA Ny)
        as (t1 & k' & fpy' & wy' & fpz' & wz' & ES & S1 & S2 & S3 & S4 & S5 & S6 & S7 & S8 & S9 & S10).
      rewrite ES. cbn [rbind].
      destruct (after_shift t l nx ks1' ks2 J kl ts1' ts2 cl cy JC d HM B H1 ND t1 k' fpy' wy' fpz' wz' S1 S2 S3 S4 S5 S6 S7 ltac:(lia) S9) as [B1 RA].
      set (cl' := (cl.1.1, fpy', wy') : child) in *. set (cy' := (cy.1.1, fpz', wz') : child) in *.
      change cy.1.1 with cy'.1.1.
      replace (ts1' ++ cl' :: cy' :: ts2) with ((ts1' ++ [cl']) ++ cy' :: ts2) in B1, RA by by rewrite <-app_assoc.
      eapply (finish d IH fuel t t1 l nx _ _ J); try done.
      { rewrite !app_length. simpl. lia. }
      rewrite <-app_assoc. cbn [app]. rewrite !body_es_pair. cbn [snd cl' cy'].
      destruct S10 as [->|[-> (a & b & z0 & c & Ea & Eb)]]; [by left|right]. split; [done|].
      exists (body_es ts1' ++ a), b, z0, (c ++ body_es ts2). rewrite Ea, Eb. by rewrite <-!app_assoc. }
    assert (EB : (if decide (length ks1 < length ks1 + length ks2) then let! z := deref (match ts2 with cz :: _ => Some cz.1.1 | [] => None end) in Ok (bool_decide (degree t - 1 < num (hp t z))) else Ok false)
       = Ok (match ts2 with cz :: _ => bool_decide (degree t - 1 < num (hp t cz.1.1)) | [] => false end)).
    { destruct ts2 as [|cz ts2]; simpl in Lt2; [by rewrite decide_False by lia|by rewrite decide_True by lia]. }
    rewrite EB. cbn [rbind]. clear EB.
    destruct (match ts2 with cz :: _ => bool_decide (degree t - 1 < num (hp t cz.1.1)) | [] => false end) eqn:HB.
    { (* borrow from the right *)
      destruct ts2 as [|cz ts2]; [done|]. apply bool_decide_eq_true in HB. destruct ks2 as [|kr ks2]; [done|].
      cbn [deref rbind].
      destruct (pair_facts t l nx ks1 ks2 J kr ts1 ts2 cy cz JC d HM B Lt1 ND) as (P1 & P2 & P3 & P4 & P5 & P6 & P7).
      destruct (shift_to_left_ok t l cy.1.1 cz.1.1 nx ks1 ks2 J kr _ _ JC d cy.1.2 cz.1.2 cy.2 cz.2 HM P1 P2 P3 P4 P5 P6 Ny HB)
        as (t1 & k' & fpy' & wy' & fpz' & wz' & ES & S1 & S2 & S3 & S4 & S5 & S6 & S7 & S8 & S9 & S10).
      rewrite ES. cbn [rbind].
      destruct (after_shift t l nx ks1 ks2 J kr ts1 ts2 cy cz JC d HM B Lt1 ND t1 k' fpy' wy' fpz' wz' S1 S2 S3 S4 S5 S6 ltac:(lia) S8 S9) as [B1 RA].
      set (cy' := (cy.1.1, fpy', wy') : child) in *. set (cz' := (cz.1.1, fpz', wz') : child) in *.
      change cy.1.1 with cy'.1.1.
      eapply (finish d IH fuel t t1 l nx _ _ J); try done.
      { rewrite !app_length. simpl. lia. }
      left. rewrite !body_es_pair. cbn [snd cy' cz']. by rewrite S10. }
    destruct (decide (0 < length ks1)) as [H0|H0].
    - (* merge with the left neighbour *)
      destruct (Left H0) as (ks1' & kl & ts1' & cl & -> & -> & H1 & H2). rewrite last_snoc in HA |- *. apply bool_decide_eq_false in HA.
      cbn [deref rbind]. rewrite H2. clear EZ ET Left H2.
      rewrite <-!app_assoc in B. cbn [app] in B. rewrite <-(app_assoc ts1') in *. cbn [app] in *.
      destruct (pair_facts t l nx ks1' ks2 J kl ts1' ts2 cl cy JC d HM B H1 ND) as (P1 & P2 & P3 & P4 & P5 & P6 & P7).
      assert (Nl : num (hp t cl.1.1) = degree t - 1).
      { apply Forall_app in F as [_ [[F _] _]%Forall_cons]. lia. }
      destruct (merge_child_ok t l cl.1.1 cy.1.1 nx ks1' ks2 J kl _ _ JC d cl.1.2 cy.1.2 cl.2 cy.2 HM P1 P2 P3 P4 P5 P6 Nl Ny)
        as (t1 & u & uc & fp' & w' & ES & S1 & S2 & S3 & S4 & S5 & S6 & S7 & S8 & S9).
      rewrite ES. cbn [rbind].
      assert (Hk2 : 2 <= length (ks1' ++ kl :: ks2)).
      { destruct (decide (2 <= length (ks1' ++ kl :: ks2))) as [|Hlt]; [done|exfalso].
        rewrite app_length in Hlt. simpl in Hlt. destruct ks1'; [|simpl in Hlt; lia]. destruct ks2; [|simpl in Hlt; lia].
        destruct ts1'; [|done]. rewrite P1 in Rm. cbn [num kids length Nat.add] in Rm. by apply (Rm eq_refl cl.1.1 cy.1.1). }
      destruct (after_merge t l nx ks1' ks2 J kl ts1' ts2 cl cy JC d HM B H1 ND t1 u uc fp' w' Hk2 S1 S2 S3 S4 S5 S6 S7 S8) as [B1 RA].
      set (cl' := (cl.1.1, fp', w') : child) in *. change cl.1.1 with cl'.1.1.
      eapply (finish d IH fuel t t1 l nx _ _ (u :: J)); try done.
      { rewrite !app_length. simpl. lia. }
      left. rewrite body_es_pair, body_es_one. cbn [snd cl']. by rewrite S9.
    - (* merge with the right neighbour *)
      destruct ks1; [|simpl in H0; lia]. destruct ts1; [|done]. simpl in N1.
      destruct ts2 as [|cz ts2]; [simpl in Lt2; lia|]. destruct ks2 as [|kr ks2]; [done|]. apply bool_decide_eq_false in HB.
      cbn [deref rbind].
      destruct (pair_facts t l nx [] ks2 J kr [] ts2 cy cz JC d HM B Lt1 ND) as (P1 & P2 & P3 & P4 & P5 & P6 & P7).
      assert (Nr : num (hp t cz.1.1) = degree t - 1).
      { apply Forall_cons in Fb as [[Fb _] _]. lia. }
      destruct (merge_child_ok t l cy.1.1 cz.1.1 nx [] ks2 J kr _ _ JC d cy.1.2 cz.1.2 cy.2 cz.2 HM P1 P2 P3 P4 P5 P6 Ny Nr)
        as (t1 & u & uc & fp' & w' & ES & S1 & S2 & S3 & S4 & S5 & S6 & S7 & S8 & S9).
      rewrite ES. cbn [rbind].
      assert (Hk2 : 2 <= length ([] ++ kr :: ks2)).
      { destruct (decide (2 <= length ([] ++ kr :: ks2))) as [|Hlt]; [done|exfalso].
        simpl in Hlt. destruct ks2; [|simpl in Hlt; lia].
        rewrite P1 in Rm. cbn [num kids length Nat.add] in Rm. by apply (Rm eq_refl cy.1.1 cz.1.1). }
      destruct (after_merge t l nx [] ks2 J kr [] ts2 cy cz JC d HM B Lt1 ND t1 u uc fp' w' Hk2 S1 S2 S3 S4 S5 S6 S7 S8) as [B1 RA].
      set (cl' := (cy.1.1, fp', w') : child) in *. change cy.1.1 with cl'.1.1.
      eapply (finish d IH fuel t t1 l nx _ _ (u :: J)); try done.
      { left. change ([] ++ cy :: cz :: ts2) with ([] ++ cy :: cz :: ts2). rewrite (body_es_pair [] ts2 cy cz), (body_es_one [] ts2 cl'). cbn [snd cl']. by rewrite S9. }
  Qed.
End del.
