(** Proofs for C75: an abandoned deletion. *)
From Verif Require Import Base BPlus_Model BPlus_Spec BPlus_Proofs BPlus_Proofs2 BPlus_Proofs3 BPlus_Proofs4 BPlus_Proofs5 BPlus_Proofs6 BPlus_Proofs7 BPlus_Proofs8 BPlus_Proofs9 BPlus_Proofs10.
From Verif Require Import PanicComp_Model PanicComp_Spec PanicComp_Proofs PanicCompBP_Model PanicCompBP_Spec PanicCompBP_Proofs PanicCompBP_Proofs2 PanicCompBP_Proofs3.

Section del.
  Context {K V : Type} (comp : K -> K -> Z).
  Implicit Types (t : @tree K V) (w : list (@item K V)) (h : nat -> @node K V).
  Notation child := (nat * list nat * list (@item K V))%type.
  Notation caddr := (fun c : child => Some c.1.1).
  Notation cfp := (fun c : child => c.1.2).
  Notation cw := (fun c : child => c.2).

  (** what an abandoned deletion may have done *)
  Definition dcut (d : nat) (es es' : list (K * V)) : Prop := es' = es \/ (0 < d /\ overwrite es es').
  Lemma dcut_ctx d a b es es' : dcut d es es' -> dcut d (a ++ es ++ b) (a ++ es' ++ b).
  Proof.
    intros [->|(Hd & p & x & y & q & -> & ->)]; [by left|right]. split; [done|].
    exists (a ++ p), x, y, (q ++ b). by rewrite <-!app_assoc.
  Qed.
  Lemma dcut_S d es es' : dcut d es es' -> dcut (S d) es es'.
  Proof. intros [->|[? ?]]; [by left|right]. split; [lia|done]. Qed.
  Lemma dcut_over es0 es es' : overwrite es0 es -> dcut 0 es es' -> dcut 1 es0 es'.
  Proof. intros O [->|[H _]]; [|lia]. right. split; [lia|done]. Qed.
  Definition dcut_res d t t' (l : nat) (fp : list nat) w (fp' : list nat) w' : Prop :=
    reads (degree t) (hp t') d l fp' w' /\ NoDup fp' /\ (forall x, x ∈ fp' -> x ∈ fp)
    /\ (forall x, x ∉ fp -> hp t' x = hp t x) /\ num (hp t l) <= S (num (hp t' l))
    /\ brk t' = brk t /\ degree t' = degree t /\ root t' = root t
    /\ dcut d (entries w) (entries w') /\ size t' = size t.
  Lemma dcut_same d t l fp w : reads (degree t) (hp t) d l fp w -> NoDup fp -> dcut_res d t t l fp w fp w.
  Proof. intros R ND. unfold dcut_res. splits; try done; [lia|by left]. Qed.
  Definition dcut_ok d : Prop := forall fuel t l fp w k n t',
    d < fuel -> 2 <= degree t -> reads (degree t) (hp t) d l fp w -> NoDup fp -> roomy t l d ->
    delete_non_one_c comp fuel l k t n = Crash t' ->
    exists fp' w', dcut_res d t t' l fp w fp' w'.
  Lemma dcut_leaf : dcut_ok 0.
  Proof.
    intros fuel t l fp w k n t' Hf HM R ND _ HC. destruct fuel as [|fuel]; [lia|].
    assert (t' = t) as ->; [|eexists _, _; by apply dcut_same].
    cbn [reads] in R. destruct R as (nx&es&jk&cs&E&L1&L2&->&->).
    cbn [delete_non_one_c] in HC. rewrite E in HC. cbn [num vals leaf] in HC.
    apply bind_crash in HC as [HC|(i & n1 & _ & HC)]; [by destruct (ab_up_pos comp t _ k _ 0 _ _ HC)|].
    apply bind_crash in HC as [HC|(x & n2 & _ & HC)]; [by destruct (ab_cl (fun _ => False) _ _ _ HC)|].
    apply bind_crash in HC as [HC|(c & n3 & _ & HC)].
    - destruct n2; [|discriminate]. cbn in HC. by injection HC as <-.
    - destruct (_ =? _)%Z; [by destruct (ab_cl (fun _ => False) _ _ _ HC)|discriminate].
  Qed.

  (** recursion into one child *)
  Lemma descend_dcut d : dcut_ok d -> forall fuel t l nx ks J ts1 c ts2 JC k n t',
    d < fuel -> 2 <= degree t -> body (degree t) (hp t) d l nx ks J (ts1 ++ c :: ts2) JC ->
    degree t <= num (hp t c.1.1) -> NoDup (body_fp l (ts1 ++ c :: ts2)) ->
    delete_non_one_c comp fuel c.1.1 k t n = Crash t' ->
    exists c',
          body (degree t) (hp t') d l nx ks J (ts1 ++ c' :: ts2) JC
      /\ NoDup (body_fp l (ts1 ++ c' :: ts2))
      /\ (forall x, x ∈ body_fp l (ts1 ++ c' :: ts2) -> x ∈ body_fp l (ts1 ++ c :: ts2))
      /\ (forall x, x ∉ body_fp l (ts1 ++ c :: ts2) -> hp t' x = hp t x)
      /\ hp t' l = hp t l
      /\ brk t' = brk t /\ degree t' = degree t /\ root t' = root t
      /\ dcut d (body_es (ts1 ++ c :: ts2)) (body_es (ts1 ++ c' :: ts2)) /\ size t' = size t.
  Proof.
    intros IH fuel t l nx ks J ts1 [[c fpc] wc] ts2 JC k n t' Hf HM B Hn ND HC. cbn [fst snd] in *.
    pose proof B as (E & N1 & N2 & L1 & L2 & F). apply Forall_app in F as [F1 [[F2n F2] F3]%Forall_cons]. cbn [fst snd] in *.
    unfold body_fp in *. rewrite fmap_app, concat_app in ND. cbn [fmap list_fmap concat fst snd] in ND.
    pose proof ND as ND0.
    apply NoDup_cons in ND as [NDl ND]. apply NoDup_app in ND as (NDa & NDb & ND). apply NoDup_app in ND as (NDc & NDd & NDe).
    assert (Rm : roomy t c d). { split; [lia|]. intros _ ? . lia. }
    destruct (IH fuel t c fpc wc k n t' Hf HM F2 NDc Rm HC) as (fpc' & wc' & R1 & N' & Hin & Hfr & Hnum & Hbrk & Hdeg & Hrt & Heff & Hsz).
    set (c' := (c, fpc', wc') : child). exists c'.
    assert (Hl : hp t' l = hp t l).
    { apply Hfr. intros H. apply NDl. rewrite !elem_of_app. auto. }
    assert (HF : forall ts, (forall x, x ∈ concat (cfp <$> ts) -> x ∉ fpc) ->
      Forall (fun cc : child => degree t - 1 <= num (hp t cc.1.1) /\ reads (degree t) (hp t) d cc.1.1 cc.1.2 cc.2) ts ->
      Forall (fun cc : child => degree t - 1 <= num (hp t' cc.1.1) /\ reads (degree t) (hp t') d cc.1.1 cc.1.2 cc.2) ts).
    { intros ts Hts. by apply (kids_frame _ _ _ _ _ fpc). }
    splits; try done.
    - unfold body. rewrite Hl, E. splits; try done.
      + by rewrite !fmap_app.
      + rewrite app_length in *. done.
      + rewrite app_length in *. done.
      + apply Forall_app. split; [apply HF; [|done]|apply Forall_cons; split; [|apply HF; [|done]]].
        * intros x Hx Hxc. apply (NDb x); [done|]. apply elem_of_app. by left.
        * unfold c'. cbn [fst snd]. split; [lia|done].
        * intros x Hx Hxc. by apply (NDd x).
    - rewrite fmap_app, concat_app. cbn [fmap list_fmap concat]. unfold c'. cbn [fst snd].
      apply NoDup_cons. split.
      + rewrite !elem_of_app in NDl |- *. intros [H|[H|H]]; [by auto| |by auto]. apply Hin in H. auto.
      + apply NoDup_app. splits; [done| |].
        * intros x Hx. rewrite !elem_of_app. intros [H|H]; apply (NDb x Hx); rewrite elem_of_app; [left; by apply Hin|by right].
        * apply NoDup_app. splits; [done| |done]. intros x Hx. apply NDd. by apply Hin.
    - intros x. rewrite !fmap_app, !concat_app. cbn [fmap list_fmap concat]. unfold c'. cbn [fst snd].
      rewrite !elem_of_cons, !elem_of_app. intros [H|[H|[H|H]]]; auto.
    - intros x. rewrite fmap_app, concat_app. cbn [fmap list_fmap concat fst snd]. intros Hx. apply Hfr. intros H. apply Hx.
      rewrite elem_of_cons, !elem_of_app. auto.
    - unfold body_es. rewrite !fmap_app, !concat_app. unfold c'. cbn [fmap list_fmap concat fst snd]. by apply dcut_ctx.
  Qed.

  (** a rearrangement followed by the recursive call *)
  Lemma finish_cut d : dcut_ok d -> forall fuel t t1 l nx (ks ks' : list (K * V)) J' ts ts1 c ts2 JC' k w n t',
    d < fuel -> 2 <= degree t -> rearranged t t1 l ts (ts1 ++ c :: ts2) ->
    body (degree t) (hp t1) d l nx ks' J' (ts1 ++ c :: ts2) JC' ->
    num (hp t l) = length ks -> length ks <= S (length ks') ->
    degree t <= num (hp t1 c.1.1) ->
    entries w = body_es ts ->
    (body_es (ts1 ++ c :: ts2) = body_es ts \/ (d = 0 /\ overwrite (body_es ts) (body_es (ts1 ++ c :: ts2)))) ->
    delete_non_one_c comp fuel c.1.1 k t1 n = Crash t' ->
    exists fp' w', dcut_res (S d) t t' l (body_fp l ts) w fp' w'.
  Proof.
    intros IH fuel t t1 l nx ks ks' J' ts ts1 c ts2 JC' k w n t' Hf HM (A1 & A2 & A3 & A4 & (A5 & A6 & A7)) B Hn Hks Hc Hw He HC.
    rewrite <-A6 in B, HM, Hc.
    destruct (descend_dcut d IH fuel t1 l nx ks' J' ts1 c ts2 JC' k n t' Hf HM B Hc A1 HC) as (c' & B' & N' & I1 & I2 & I3 & I4 & I5 & I6 & I7 & I8).
    destruct (body_reads _ _ _ _ _ _ _ _ _ B') as [R' Hes]. rewrite A6 in *.
    exists (body_fp l (ts1 ++ c' :: ts2)), (weave (cw <$> ts1 ++ c' :: ts2) ks').
    unfold dcut_res. splits; try done; try congruence.
    - auto.
    - intros x Hx. rewrite I2; [by apply A3|]. intros H. by apply Hx, A2.
    - destruct B' as (EB & _). rewrite EB, Hn. cbn [num]. lia.
    - rewrite Hes, Hw. destruct He as [He|[-> He]].
      + rewrite <-He. by apply dcut_S.
      + by eapply dcut_over.
  Qed.

  Theorem delete_cut d : dcut_ok d.
  Proof.
    induction d as [|d IH]; [exact dcut_leaf|].
    intros fuel t l fp w k n t' Hf HM R ND [_ Rm] HC. specialize (Rm ltac:(lia)).
    destruct fuel as [|fuel]; [lia|]. assert (Hf' : d < fuel) by lia.
    cbn [reads] in R. destruct R as (nx&ks&J&ts&JC&E&N1&N2&L1&L2&->&->&F).
    assert (B : body (degree t) (hp t) d l nx ks J ts JC) by (unfold body; splits; done).
    assert (Hw : entries (weave (cw <$> ts) ks) = body_es ts) by by eapply body_reads.
    change (l :: concat (cfp <$> ts)) with (body_fp l ts) in *.
    cbn [delete_non_one_c] in HC. rewrite E in HC. cbn [num vals leaf kids] in HC.
    destruct (up_pos_ok comp k [] ks J) as (ks1 & ks2 & -> & EU & F1). cbn [app length Nat.add] in EU.
    apply bind_crash in HC as [HC|(i & n1 & EI & HC)].
    { destruct (ab_up_pos comp t _ k _ 0 _ _ HC). eexists _, _. apply dcut_same; [|done]. eapply body_reads. exact B. }
    apply (rec_done _ _ _ _ _ (rec_up_pos comp t _ k _ 0)) in EI. rewrite EU in EI. injection EI as <-.
    rewrite app_length in N2, N1. rewrite app_length in HC.
    destruct (length_split (length ks1) (S (length ks2)) ts) as (ts1 & ts2' & -> & Lt1 & Lt2); [lia|].
    destruct ts2' as [|cy ts2]; [done|]. simpl in Lt2. injection Lt2 as Lt2.
    assert (EK : ((caddr <$> ts1 ++ cy :: ts2) ++ JC) = (caddr <$> ts1) ++ Some cy.1.1 :: (caddr <$> ts2) ++ JC).
    { rewrite fmap_app, <-app_assoc. done. }
    rewrite EK in *.
    rewrite aget_app in HC by (rewrite fmap_length; lia). unfold cbnd at 1 in HC. cbn [cl] in HC.
    pose proof F as F'. apply Forall_app in F' as [Fa [[Fyn Fy] Fb]%Forall_cons].
    assert (Hnum : num (hp t l) = length (ks1 ++ ks2)) by by rewrite E.
    (* the three neighbours *)
    assert (EZ : (if decide (length ks1 < length ks1 + length ks2)
                  then aget ((caddr <$> ts1) ++ Some cy.1.1 :: (caddr <$> ts2) ++ JC) (length ks1 + 1) else Ok None)
                 = Ok (match ts2 with cz :: _ => Some cz.1.1 | [] => None end)).
    { destruct ts2 as [|cz ts2]; simpl in Lt2.
      - by rewrite decide_False by lia.
      - rewrite decide_True by lia. cbn [fmap list_fmap app].
        replace ((caddr <$> ts1) ++ Some cy.1.1 :: Some cz.1.1 :: (caddr <$> ts2) ++ JC) with (((caddr <$> ts1) ++ [Some cy.1.1]) ++ Some cz.1.1 :: (caddr <$> ts2) ++ JC) by by rewrite <-app_assoc.
        apply aget_app. rewrite app_length, fmap_length. simpl. lia. }
    rewrite EZ in HC. unfold cbnd at 1 in HC. cbn [cl] in HC.
    assert (ET : (if decide (0 < length ks1)
                  then aget ((caddr <$> ts1) ++ Some cy.1.1 :: (caddr <$> ts2) ++ JC) (length ks1 - 1) else Ok None)
                 = Ok (match last ts1 with Some cL => Some cL.1.1 | None => None end)).
    { destruct ts1 as [|cL ts1 _] using rev_ind; simpl in Lt1.
      - by rewrite decide_False by lia.
      - rewrite app_length in Lt1. simpl in Lt1. rewrite decide_True by lia. rewrite last_snoc, fmap_app. cbn [fmap list_fmap]. rewrite <-app_assoc. cbn [app].
        apply aget_app. rewrite fmap_length. lia. }
    rewrite ET in HC. unfold cbnd at 1 in HC. cbn [cl] in HC. unfold cbnd at 1 in HC. cbn [cl deref] in HC.
    destruct (decide (num (hp t cy.1.1) = degree t - 1)) as [Ny|Ny]; cycle 1.
    { (* no rearrangement *)
      destruct (body_reads _ _ _ _ _ _ _ _ _ B) as [RB _].
      eapply (finish_cut d IH fuel t t l nx (ks1 ++ ks2) (ks1 ++ ks2) J); try done; [lia|lia|by left]. }
    (* with a left neighbour *)
    assert (Left : 0 < length ks1 -> exists ks1' kl ts1' cL, ks1 = ks1' ++ [kl] /\ ts1 = ts1' ++ [cL] /\ length ts1' = length ks1' /\ length ks1 - 1 = length ks1').
    { intros H0. destruct (snoc_of9 ks1 (length ks1 - 1)) as (ks1' & kl & -> & H1); [lia|].
      destruct (snoc_of9 ts1 (length ts1 - 1)) as (ts1' & cL & -> & H2); [lia|]. exists ks1', kl, ts1', cL. splits; try done; lia. }
    assert (EA : (if decide (0 < length ks1) then let! l0 := deref (match last ts1 with Some cL => Some cL.1.1 | None => None end) in Ok (bool_decide (degree t - 1 < num (hp t l0))) else Ok false)
       = Ok (match last ts1 with Some cL => bool_decide (degree t - 1 < num (hp t cL.1.1)) | None => false end)).
    { destruct (decide (0 < length ks1)) as [H0|H0].
      - destruct (Left H0) as (?&?&?&?&->&->&?&?). by rewrite last_snoc.
      - destruct ts1; [done|]. simpl in Lt1. lia. }
    rewrite EA in HC. unfold cbnd at 1 in HC. cbn [cl] in HC. clear EA.
    destruct (match last ts1 with Some cL => bool_decide (degree t - 1 < num (hp t cL.1.1)) | None => false end) eqn:HA.
    { (* borrow from the left *)
      destruct (decide (0 < length ks1)) as [H0|H0]; [|destruct ts1; [done|simpl in Lt1; lia]].
      destruct (Left H0) as (ks1' & kl & ts1' & cL & -> & -> & H1 & H2). rewrite last_snoc in HA, HC. apply bool_decide_eq_true in HA.
      unfold cbnd at 1 in HC. cbn [cl deref] in HC. rewrite H2 in HC. clear EZ ET Left H2.
      rewrite <-!app_assoc in B. cbn [app] in B. rewrite <-(app_assoc ts1') in *. cbn [app] in *.
      destruct (pair_facts t l nx ks1' ks2 J kl ts1' ts2 cL cy JC d HM B H1 ND) as (P1 & P2 & P3 & P4 & P5 & P6 & P7).
      destruct (shift_to_right_ok t l cL.1.1 cy.1.1 nx ks1' ks2 J kl _ _ JC d cL.1.2 cy.1.2 cL.2 cy.2 HM P1 P2 P3 P4 P5 P6 HA Ny)
        as (t1 & k' & fpy' & wy' & fpz' & wz' & ES & S1 & S2 & S3 & S4 & S5 & S6 & S7 & S8 & S9 & S10).
      rewrite ES in HC. unfold cbnd at 1 in HC. cbn [cl] in HC.
      destruct (after_shift t l nx ks1' ks2 J kl ts1' ts2 cL cy JC d HM B H1 ND t1 k' fpy' wy' fpz' wz' S1 S2 S3 S4 S5 S6 S7 ltac:(lia) S9) as [B1 RA].
      set (cL' := (cL.1.1, fpy', wy') : child) in *. set (cy' := (cy.1.1, fpz', wz') : child) in *.
      change cy.1.1 with cy'.1.1 in HC.
      replace (ts1' ++ cL' :: cy' :: ts2) with ((ts1' ++ [cL']) ++ cy' :: ts2) in B1, RA by by rewrite <-app_assoc.
      eapply (finish_cut d IH fuel t t1 l nx _ _ J); try done.
      { rewrite !app_length. simpl. lia. }
      rewrite <-app_assoc. cbn [app]. rewrite !body_es_pair. cbn [snd cL' cy'].
      destruct S10 as [->|[-> (a & b & z0 & c & Ea & Eb)]]; [by left|right]. split; [done|].
      exists (body_es ts1' ++ a), b, z0, (c ++ body_es ts2). rewrite Ea, Eb. by rewrite <-!app_assoc. }
    assert (EB : (if decide (length ks1 < length ks1 + length ks2) then let! z := deref (match ts2 with cz :: _ => Some cz.1.1 | [] => None end) in Ok (bool_decide (degree t - 1 < num (hp t z))) else Ok false)
       = Ok (match ts2 with cz :: _ => bool_decide (degree t - 1 < num (hp t cz.1.1)) | [] => false end)).
    { destruct ts2 as [|cz ts2]; simpl in Lt2; [by rewrite decide_False by lia|by rewrite decide_True by lia]. }
    rewrite EB in HC. unfold cbnd at 1 in HC. cbn [cl] in HC. clear EB.
    destruct (match ts2 with cz :: _ => bool_decide (degree t - 1 < num (hp t cz.1.1)) | [] => false end) eqn:HB.
    { (* borrow from the right *)
      destruct ts2 as [|cz ts2]; [done|]. apply bool_decide_eq_true in HB. destruct ks2 as [|kr ks2]; [done|].
      unfold cbnd at 1 in HC. cbn [cl deref] in HC.
      destruct (pair_facts t l nx ks1 ks2 J kr ts1 ts2 cy cz JC d HM B Lt1 ND) as (P1 & P2 & P3 & P4 & P5 & P6 & P7).
      destruct (shift_to_left_ok t l cy.1.1 cz.1.1 nx ks1 ks2 J kr _ _ JC d cy.1.2 cz.1.2 cy.2 cz.2 HM P1 P2 P3 P4 P5 P6 Ny HB)
        as (t1 & k' & fpy' & wy' & fpz' & wz' & ES & S1 & S2 & S3 & S4 & S5 & S6 & S7 & S8 & S9 & S10).
      rewrite ES in HC. unfold cbnd at 1 in HC. cbn [cl] in HC.
      destruct (after_shift t l nx ks1 ks2 J kr ts1 ts2 cy cz JC d HM B Lt1 ND t1 k' fpy' wy' fpz' wz' S1 S2 S3 S4 S5 S6 ltac:(lia) S8 S9) as [B1 RA].
      set (cy' := (cy.1.1, fpy', wy') : child) in *. set (cz' := (cz.1.1, fpz', wz') : child) in *.
      change cy.1.1 with cy'.1.1 in HC.
      eapply (finish_cut d IH fuel t t1 l nx _ _ J); try done.
      { rewrite !app_length. simpl. lia. }
      left. rewrite !body_es_pair. cbn [snd cy' cz']. by rewrite S10. }
    destruct (decide (0 < length ks1)) as [H0|H0].
    - (* merge with the left neighbour *)
      destruct (Left H0) as (ks1' & kl & ts1' & cL & -> & -> & H1 & H2). rewrite last_snoc in HA, HC. apply bool_decide_eq_false in HA.
      unfold cbnd at 1 in HC. cbn [cl deref] in HC. rewrite H2 in HC. clear EZ ET Left H2.
      rewrite <-!app_assoc in B. cbn [app] in B. rewrite <-(app_assoc ts1') in *. cbn [app] in *.
      destruct (pair_facts t l nx ks1' ks2 J kl ts1' ts2 cL cy JC d HM B H1 ND) as (P1 & P2 & P3 & P4 & P5 & P6 & P7).
      assert (Nl : num (hp t cL.1.1) = degree t - 1).
      { apply Forall_app in F as [_ [[F _] _]%Forall_cons]. lia. }
      destruct (merge_child_ok t l cL.1.1 cy.1.1 nx ks1' ks2 J kl _ _ JC d cL.1.2 cy.1.2 cL.2 cy.2 HM P1 P2 P3 P4 P5 P6 Nl Ny)
        as (t1 & u & uc & fp' & w' & ES & S1 & S2 & S3 & S4 & S5 & S6 & S7 & S8 & S9).
      rewrite ES in HC. unfold cbnd at 1 in HC. cbn [cl] in HC.
      assert (Hk2 : 2 <= length (ks1' ++ kl :: ks2)).
      { destruct (decide (2 <= length (ks1' ++ kl :: ks2))) as [|Hlt]; [done|exfalso].
        rewrite app_length in Hlt. simpl in Hlt. destruct ks1'; [|simpl in Hlt; lia]. destruct ks2; [|simpl in Hlt; lia].
        destruct ts1'; [|done]. rewrite P1 in Rm. cbn [num kids length Nat.add] in Rm. by apply (Rm eq_refl cL.1.1 cy.1.1). }
      destruct (after_merge t l nx ks1' ks2 J kl ts1' ts2 cL cy JC d HM B H1 ND t1 u uc fp' w' Hk2 S1 S2 S3 S4 S5 S6 S7 S8) as [B1 RA].
      set (cL' := (cL.1.1, fp', w') : child) in *. change cL.1.1 with cL'.1.1 in HC.
      eapply (finish_cut d IH fuel t t1 l nx _ _ (u :: J)); try done.
      { rewrite !app_length. simpl. lia. }
      left. rewrite body_es_pair, body_es_one. cbn [snd cL']. by rewrite S9.
    - (* merge with the right neighbour *)
      destruct ks1; [|simpl in H0; lia]. destruct ts1; [|done]. simpl in N1.
      destruct ts2 as [|cz ts2]; [simpl in Lt2; lia|]. destruct ks2 as [|kr ks2]; [done|]. apply bool_decide_eq_false in HB.
      unfold cbnd at 1 in HC. cbn [cl deref] in HC.
      destruct (pair_facts t l nx [] ks2 J kr [] ts2 cy cz JC d HM B Lt1 ND) as (P1 & P2 & P3 & P4 & P5 & P6 & P7).
      assert (Nr : num (hp t cz.1.1) = degree t - 1).
      { apply Forall_cons in Fb as [[Fb _] _]. lia. }
      destruct (merge_child_ok t l cy.1.1 cz.1.1 nx [] ks2 J kr _ _ JC d cy.1.2 cz.1.2 cy.2 cz.2 HM P1 P2 P3 P4 P5 P6 Ny Nr)
        as (t1 & u & uc & fp' & w' & ES & S1 & S2 & S3 & S4 & S5 & S6 & S7 & S8 & S9).
      rewrite ES in HC. unfold cbnd at 1 in HC. cbn [cl] in HC.
      assert (Hk2 : 2 <= length ([] ++ kr :: ks2)).
      { destruct (decide (2 <= length ([] ++ kr :: ks2))) as [|Hlt]; [done|exfalso].
        simpl in Hlt. destruct ks2; [|simpl in Hlt; lia].
        rewrite P1 in Rm. cbn [num kids length Nat.add] in Rm. by apply (Rm eq_refl cy.1.1 cz.1.1). }
      destruct (after_merge t l nx [] ks2 J kr [] ts2 cy cz JC d HM B Lt1 ND t1 u uc fp' w' Hk2 S1 S2 S3 S4 S5 S6 S7 S8) as [B1 RA].
      set (cL' := (cy.1.1, fp', w') : child) in *. change cy.1.1 with cL'.1.1 in HC.
      eapply (finish_cut d IH fuel t t1 l nx _ _ (u :: J)); try done.
      { left. change ([] ++ cy :: cz :: ts2) with ([] ++ cy :: cz :: ts2). rewrite (body_es_pair [] ts2 cy cz), (body_es_one [] ts2 cL'). cbn [snd cL']. by rewrite S9. }
  Qed.
End del.
