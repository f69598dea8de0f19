(** Deletion: the structure of the tree survives, and the effect on the
    stored entries is limited. *)
From Verif Require Import Base BPlus_Model BPlus_Spec BPlus_Proofs BPlus_Proofs2 BPlus_Proofs3 BPlus_Proofs4 BPlus_Proofs5 BPlus_Proofs6 BPlus_Proofs7.

Section del.
  Context {K V : Type} (comp : K -> K -> Z).
  Implicit Types (t : @tree K V) (w : list (@item K V)) (h : nat -> @node K V).
  Notation child := (nat * list nat * list (@item K V))%type.
  Notation caddr := (fun c : child => Some c.1.1).
  Notation cfp := (fun c : child => c.1.2).
  Notation cw := (fun c : child => c.2).

  Lemma up_pos_ok k (pre es J : list (K * V)) :
    exists es1 es2, es = es1 ++ es2 /\ up_pos comp (length es) k (length pre) (pre ++ es ++ J) = Ok (length pre + length es1)
      /\ Forall (fun x => (comp x.1 k < 0)%Z) es1.
  Proof.
    revert pre. induction es as [|x es IH]; intros pre.
    { exists [], []. splits; [done|cbn; f_equal; lia|constructor]. }
    cbn [length up_pos app]. rewrite aget_app by done. cbn [rbind].
    destruct (Z.ltb_spec (comp x.1 k) 0) as [L|L].
    - destruct (IH (pre ++ [x])) as (es1 & es2 & -> & E & F). exists (x :: es1), es2.
      rewrite (app_length pre), <-(app_assoc pre) in E. cbn [length app] in E. splits; [done| |by constructor].
      rewrite E. f_equal. cbn. lia.
    - exists [], (x :: es). splits; [done|cbn; f_equal; lia|constructor].
  Qed.

  Definition body (M : nat) h d l nx (ks J : list (K * V)) (ts : list child) (JC : list (option nat)) : Prop :=
    h l = Node nx (ks ++ J) ((caddr <$> ts) ++ JC) (length ks) false
    /\ 1 <= length ks /\ length ts = S (length ks)
    /\ length (ks ++ J) = 2 * M - 1 /\ length ts + length JC = 2 * M
    /\ Forall (fun c => M - 1 <= num (h c.1.1) /\ reads M h d c.1.1 c.1.2 c.2) ts.
  Definition body_fp (l : nat) (ts : list child) : list nat := l :: concat (cfp <$> ts).
  Definition body_es (ts : list child) : list (K * V) := concat (entries <$> (cw <$> ts)).

  Lemma body_reads M h d l nx ks J ts JC : body M h d l nx ks J ts JC ->
    reads M h (S d) l (body_fp l ts) (weave (cw <$> ts) ks) /\ entries (weave (cw <$> ts) ks) = body_es ts.
  Proof.
    intros (E & N1 & N2 & L1 & L2 & F). split.
    - cbn [reads]. exists nx, ks, J, ts, JC. done.
    - apply entries_weave. by rewrite fmap_length.
  Qed.

  (** one deletion: optionally an overwrite (never inside a single leaf), then
      optionally the removal of an entry not greater than the key *)
  Definition del_effect (d : nat) (k : K) (es es' : list (K * V)) (sz sz' : Z) : Prop :=
    exists es1, (es1 = es \/ (0 < d /\ overwrite es es1))
      /\ ((es' = es1 /\ sz' = sz)
          \/ (removed (fun x => comp k x.1 = 0%Z \/ (comp x.1 k < 0)%Z) es1 es' /\ sz' = (sz - 1)%Z)).

  Lemma del_effect_ctx d k a b es es' sz sz' :
    del_effect d k es es' sz sz' -> del_effect d k (a ++ es ++ b) (a ++ es' ++ b) sz sz'.
  Proof.
    intros (es1 & H1 & H2). exists (a ++ es1 ++ b). split.
    - destruct H1 as [->|(Hd & p & x & y & q & -> & ->)]; [by left|right]. split; [done|].
      exists (a ++ p), x, y, (q ++ b). by rewrite <-!app_assoc.
    - destruct H2 as [[-> ->]|((p & x & q & -> & -> & Hx) & ->)]; [by left|right]. split; [|done].
      exists (a ++ p), x, (q ++ b). by rewrite <-!app_assoc.
  Qed.
  Lemma del_effect_S d k es es' sz sz' : del_effect d k es es' sz sz' -> del_effect (S d) k es es' sz sz'.
  Proof. intros (es1 & H1 & H2). exists es1. split; [|done]. destruct H1 as [->|[? ?]]; [by left|right]. split; [lia|done]. Qed.
  Lemma del_effect_over k es0 es es' sz sz' : overwrite es0 es -> del_effect 0 k es es' sz sz' -> del_effect 1 k es0 es' sz sz'.
  Proof.
    intros O (es1 & H1 & H2). destruct H1 as [->|[H _]]; [|lia]. exists es. split; [|done]. right. split; [lia|done].
  Qed.

  Definition del_res d (k : K) t t' (l : nat) (fp : list nat) w (fp' : list nat) w' : Prop :=
    reads (degree t) (hp t') d l fp' w' /\ NoDup fp' /\ (forall x, x ∈ fp' -> x ∈ fp)
    /\ (forall x, x ∉ fp -> hp t' x = hp t x) /\ num (hp t l) <= S (num (hp t' l))
    /\ brk t' = brk t /\ degree t' = degree t /\ root t' = root t
    /\ del_effect d k (entries w) (entries w') (size t) (size t').

  (** enough keys to survive the loss of one *)
  Definition roomy t (l : nat) (d : nat) : Prop :=
    1 <= num (hp t l) /\ (0 < d -> num (hp t l) = 1 -> forall y z,
      kids (hp t l) !! 0 = Some (Some y) -> kids (hp t l) !! 1 = Some (Some z) ->
      num (hp t y) = degree t - 1 -> num (hp t z) = degree t - 1 -> False).

  Definition del_ok d : Prop := forall fuel t l fp w k,
    d < fuel -> 2 <= degree t -> reads (degree t) (hp t) d l fp w -> NoDup fp -> roomy t l d ->
    delete_non_one comp fuel l k t = Panic
    \/ exists t' fp' w', delete_non_one comp fuel l k t = Ok t' /\ del_res d k t t' l fp w fp' w'.

  Lemma elem_kids (ts : list child) c x : c ∈ ts -> x ∈ c.1.2 -> x ∈ concat (cfp <$> ts).
  Proof. intros Hc Hx. apply elem_concat. exists c.1.2. split; [done|]. apply elem_of_list_fmap. by exists c. Qed.

  (** recursion into one child *)
  Lemma descend_del d : del_ok d -> forall fuel t l nx ks J ts1 c ts2 JC k,
    d < fuel -> 2 <= degree t -> body (degree t) (hp t) d l nx ks J (ts1 ++ c :: ts2) JC ->
    degree t <= num (hp t c.1.1) -> NoDup (body_fp l (ts1 ++ c :: ts2)) ->
    delete_non_one comp fuel c.1.1 k t = Panic
    \/ exists t' c' , delete_non_one comp fuel c.1.1 k t = Ok t'
      /\ body (degree t) (hp t') d l nx ks J (ts1 ++ c' :: ts2) JC
      /\ NoDup (body_fp l (ts1 ++ c' :: ts2))
      /\ (forall x, x ∈ body_fp l (ts1 ++ c' :: ts2) -> x ∈ body_fp l (ts1 ++ c :: ts2))
      /\ (forall x, x ∉ body_fp l (ts1 ++ c :: ts2) -> hp t' x = hp t x)
      /\ hp t' l = hp t l
      /\ brk t' = brk t /\ degree t' = degree t /\ root t' = root t
      /\ del_effect d k (body_es (ts1 ++ c :: ts2)) (body_es (ts1 ++ c' :: ts2)) (size t) (size t').
  Proof.
    intros IH fuel t l nx ks J ts1 [[c fpc] wc] ts2 JC k Hf HM B Hn ND. cbn [fst snd] in *.
    pose proof B as (E & N1 & N2 & L1 & L2 & F). apply Forall_app in F as [F1 [[F2n F2] F3]%Forall_cons]. cbn [fst snd] in *.
    unfold body_fp in *. rewrite fmap_app, concat_app in ND. cbn [fmap list_fmap concat fst snd] in ND.
    pose proof ND as ND0.
    apply NoDup_cons in ND as [NDl ND]. apply NoDup_app in ND as (NDa & NDb & ND). apply NoDup_app in ND as (NDc & NDd & NDe).
    destruct (IH fuel t c fpc wc k Hf HM F2 NDc) as [HP|(t' & fpc' & wc' & ET & R1 & N' & Hin & Hfr & Hnum & Hbrk & Hdeg & Hrt & Heff)]; [|by left|right].
    { split; [lia|]. intros _ ? . lia. }
    set (c' := (c, fpc', wc') : child). exists t', c'. split; [done|].
    assert (Hl : hp t' l = hp t l).
    { apply Hfr. intros H. apply NDl. rewrite !elem_of_app. auto. }
    assert (HF : forall ts, (forall x, x ∈ concat (cfp <$> ts) -> x ∉ fpc) ->
      Forall (fun cc : child => degree t - 1 <= num (hp t cc.1.1) /\ reads (degree t) (hp t) d cc.1.1 cc.1.2 cc.2) ts ->
      Forall (fun cc : child => degree t - 1 <= num (hp t' cc.1.1) /\ reads (degree t) (hp t') d cc.1.1 cc.1.2 cc.2) ts).
    { intros ts Hts. by apply (kids_frame _ _ _ _ _ fpc). }
    splits; try done.
    - unfold body. rewrite Hl, E. splits; try done.
      + by rewrite !fmap_app.
      + rewrite app_length in *. done.
      + rewrite app_length in *. done.
      + apply Forall_app. split; [apply HF; [|done]|apply Forall_cons; split; [|apply HF; [|done]]].
        * intros x Hx Hxc. apply (NDb x); [done|]. apply elem_of_app. by left.
        * unfold c'. cbn [fst snd]. split; [lia|done].
        * intros x Hx Hxc. by apply (NDd x).
    - rewrite fmap_app, concat_app. cbn [fmap list_fmap concat]. unfold c'. cbn [fst snd].
      apply NoDup_cons. split.
      + rewrite !elem_of_app in NDl |- *. intros [H|[H|H]]; [by auto| |by auto]. apply Hin in H. auto.
      + apply NoDup_app. splits; [done| |].
        * intros x Hx. rewrite !elem_of_app. intros [H|H]; apply (NDb x Hx); rewrite elem_of_app; [left; by apply Hin|by right].
        * apply NoDup_app. splits; [done| |done]. intros x Hx. apply NDd. by apply Hin.
    - intros x. rewrite !fmap_app, !concat_app. cbn [fmap list_fmap concat]. unfold c'. cbn [fst snd].
      rewrite !elem_of_cons, !elem_of_app. intros [H|[H|[H|H]]]; auto.
    - intros x. rewrite fmap_app, concat_app. cbn [fmap list_fmap concat fst snd]. intros Hx. apply Hfr. intros H. apply Hx.
      rewrite elem_of_cons, !elem_of_app. auto.
    - unfold body_es. rewrite !fmap_app, !concat_app. unfold c'. cbn [fmap list_fmap concat fst snd]. by apply del_effect_ctx.
  Qed.

  (** a rearrangement of the children of [l] that keeps the tree well formed *)
  Definition rearranged t t' (l : nat) (ts ts' : list child) : Prop :=
    NoDup (body_fp l ts') /\ (forall x, x ∈ body_fp l ts' -> x ∈ body_fp l ts)
    /\ (forall x, x ∉ body_fp l ts -> hp t' x = hp t x)
    /\ brk t' = brk t /\ same_meta t t'.

  Section pair.
    Context (t : @tree K V) (l : nat) (nx : option nat) (ks1 ks2 J : list (K * V)) (k : K * V)
            (ts1 ts2 : list child) (cy cz : child) (JC : list (option nat)) (d : nat).
    Hypothesis HM : 2 <= degree t.
    Hypothesis B : body (degree t) (hp t) d l nx (ks1 ++ k :: ks2) J (ts1 ++ cy :: cz :: ts2) JC.
    Hypothesis L1 : length ts1 = length ks1.
    Hypothesis ND : NoDup (body_fp l (ts1 ++ cy :: cz :: ts2)).

    Lemma pair_facts :
      hp t l = Node nx (ks1 ++ k :: ks2 ++ J) ((caddr <$> ts1) ++ Some cy.1.1 :: Some cz.1.1 :: (caddr <$> ts2) ++ JC) (S (length ks1 + length ks2)) false
      /\ length (caddr <$> ts1) = length ks1 /\ length (caddr <$> ts2) = length ks2
      /\ reads (degree t) (hp t) d cy.1.1 cy.1.2 cy.2 /\ reads (degree t) (hp t) d cz.1.1 cz.1.2 cz.2
      /\ NoDup (l :: cy.1.2 ++ cz.1.2)
      /\ length ts2 = length ks2.
    Proof.
      destruct B as (E & N1 & N2 & A1 & A2 & F). apply Forall_app in F as [F1 [[F2n F2] [[F3n F3] F4]%Forall_cons]%Forall_cons].
      rewrite !app_length in N2. simpl in N2. rewrite !fmap_length. splits; try done; try lia.
      - rewrite E, fmap_app. cbn [fmap list_fmap]. rewrite <-!app_assoc. cbn [app]. f_equal. rewrite app_length. simpl. lia.
      - unfold body_fp in ND. rewrite fmap_app, concat_app in ND. cbn [fmap list_fmap concat] in ND.
        apply NoDup_cons in ND as [X Y]. apply NoDup_app in Y as (_ & _ & Y). rewrite app_assoc in Y. apply NoDup_app in Y as (Y & _).
        apply NoDup_cons. split; [|done]. intros H. apply X. apply elem_of_app in H. rewrite !elem_of_app. tauto.
    Qed.

    Lemma pair_sib x : x ∈ concat (cfp <$> ts1) \/ x ∈ concat (cfp <$> ts2) -> x <> l /\ x ∉ cy.1.2 /\ x ∉ cz.1.2.
    Proof.
      unfold body_fp in ND. rewrite fmap_app, concat_app in ND. cbn [fmap list_fmap concat] in ND.
      apply NoDup_cons in ND as [X Y]. apply NoDup_app in Y as (_ & Y1 & Y). apply NoDup_app in Y as (_ & Y2 & Y). apply NoDup_app in Y as (_ & Y3 & _).
      intros Hx. splits.
      - intros ->. apply X. rewrite !elem_of_app. tauto.
      - intros H. destruct Hx as [Hx|Hx]; [apply (Y1 x Hx)|apply (Y2 x H)]; rewrite !elem_of_app; auto.
      - intros H. destruct Hx as [Hx|Hx]; [apply (Y1 x Hx)|apply (Y3 x H)]; rewrite ?elem_of_app; auto.
    Qed.

    (** after one of the two shifts *)
    Lemma after_shift t' k' fpy' wy' fpz' wz' :
      same_meta t t' -> brk t' = brk t ->
      hp t' l = Node nx (ks1 ++ k' :: ks2 ++ J) ((caddr <$> ts1) ++ Some cy.1.1 :: Some cz.1.1 :: (caddr <$> ts2) ++ JC) (S (length ks1 + length ks2)) false ->
      reads (degree t) (hp t') d cy.1.1 fpy' wy' -> reads (degree t) (hp t') d cz.1.1 fpz' wz' -> fpy' ++ fpz' ≡ₚ cy.1.2 ++ cz.1.2 ->
      degree t - 1 <= num (hp t' cy.1.1) -> degree t - 1 <= num (hp t' cz.1.1) ->
      (forall x, x <> l -> x <> cy.1.1 -> x <> cz.1.1 -> hp t' x = hp t x) ->
      let ts' := ts1 ++ (cy.1.1, fpy', wy') :: (cz.1.1, fpz', wz') :: ts2 in
      body (degree t) (hp t') d l nx (ks1 ++ k' :: ks2) J ts' JC /\ rearranged t t' l (ts1 ++ cy :: cz :: ts2) ts'.
    Proof.
      intros MT Eb El R1 R2 Pm Ny Nz Fr ts'. destruct pair_facts as (Hl & C1 & C2 & Ry & Rz & ND2 & L2).
      pose proof (reads_in _ _ _ _ _ _ Ry) as Hyin. pose proof (reads_in _ _ _ _ _ _ Rz) as Hzin.
      destruct B as (E & N1 & N2 & A1 & A2 & F). apply Forall_app in F as [F1 [[F2n F2] [[F3n F3] F4]%Forall_cons]%Forall_cons].
      assert (HF : forall ts, (forall x, x ∈ concat (cfp <$> ts) -> x ∈ concat (cfp <$> ts1) \/ x ∈ concat (cfp <$> ts2)) ->
        Forall (fun cc : child => degree t - 1 <= num (hp t cc.1.1) /\ reads (degree t) (hp t) d cc.1.1 cc.1.2 cc.2) ts ->
        Forall (fun cc : child => degree t - 1 <= num (hp t' cc.1.1) /\ reads (degree t) (hp t') d cc.1.1 cc.1.2 cc.2) ts).
      { intros ts Hts. apply (kids_frame _ _ _ _ _ [l; cy.1.1; cz.1.1]).
        - intros x. rewrite !elem_of_cons, elem_of_nil. intros Hx. apply Fr; tauto.
        - intros x Hx%Hts. destruct (pair_sib x Hx) as (X1 & X2 & X3). rewrite !elem_of_cons, elem_of_nil.
          intros [->|[->|[->|[]]]]; done. }
      split.
      - unfold body. splits.
        + rewrite El. unfold ts'. rewrite fmap_app. cbn [fmap list_fmap fst snd]. rewrite <-!app_assoc. cbn [app]. f_equal. rewrite app_length. simpl. lia.
        + rewrite app_length. simpl. lia.
        + unfold ts'. rewrite !app_length in *. simpl in *. lia.
        + rewrite !app_length in *. simpl in *. lia.
        + unfold ts'. rewrite !app_length in *. simpl in *. lia.
        + apply Forall_app. split; [apply HF; [auto|done]|]. repeat (apply Forall_cons; split; [by split|]). apply HF; [auto|done].
      - assert (PF : body_fp l ts' ≡ₚ body_fp l (ts1 ++ cy :: cz :: ts2)).
        { unfold body_fp, ts'. rewrite !fmap_app, !concat_app. cbn [fmap list_fmap concat fst snd].
          constructor. apply Permutation_app_head. rewrite !(app_assoc _ _ (concat _)). by rewrite Pm. }
        unfold rearranged. splits; try done.
        + by rewrite PF.
        + intros x Hx. by rewrite PF in Hx.
        + intros x Hx. unfold body_fp in Hx. rewrite fmap_app, concat_app in Hx. cbn [fmap list_fmap concat] in Hx.
          rewrite elem_of_cons, !elem_of_app in Hx. apply Fr; [tauto|intros ->; tauto|intros ->; tauto].
    Qed.

    Lemma after_merge t' u uc fp' w' :
      2 <= length (ks1 ++ k :: ks2) ->
      same_meta t t' -> brk t' = brk t ->
      hp t' l = Node nx (ks1 ++ ks2 ++ u :: J) ((caddr <$> ts1) ++ Some cy.1.1 :: (caddr <$> ts2) ++ uc :: JC) (length ks1 + length ks2) false ->
      reads (degree t) (hp t') d cy.1.1 fp' w' -> NoDup fp' -> (forall x, x ∈ fp' -> x ∈ cy.1.2 ++ cz.1.2) ->
      degree t <= num (hp t' cy.1.1) ->
      (forall x, x <> l -> x <> cy.1.1 -> hp t' x = hp t x) ->
      let ts' := ts1 ++ (cy.1.1, fp', w') :: ts2 in
      body (degree t) (hp t') d l nx (ks1 ++ ks2) (u :: J) ts' (uc :: JC) /\ rearranged t t' l (ts1 ++ cy :: cz :: ts2) ts'.
    Proof.
      intros Hk MT Eb El R1 N' Hin Ny Fr ts'. destruct pair_facts as (Hl & C1 & C2 & Ry & Rz & ND2 & L2).
      pose proof (reads_in _ _ _ _ _ _ Ry) as Hyin.
      destruct B as (E & N1 & N2 & A1 & A2 & F). apply Forall_app in F as [F1 [[F2n F2] [[F3n F3] F4]%Forall_cons]%Forall_cons].
      assert (HF : forall ts, (forall x, x ∈ concat (cfp <$> ts) -> x ∈ concat (cfp <$> ts1) \/ x ∈ concat (cfp <$> ts2)) ->
        Forall (fun cc : child => degree t - 1 <= num (hp t cc.1.1) /\ reads (degree t) (hp t) d cc.1.1 cc.1.2 cc.2) ts ->
        Forall (fun cc : child => degree t - 1 <= num (hp t' cc.1.1) /\ reads (degree t) (hp t') d cc.1.1 cc.1.2 cc.2) ts).
      { intros ts Hts. apply (kids_frame _ _ _ _ _ [l; cy.1.1]).
        - intros x. rewrite !elem_of_cons, elem_of_nil. intros Hx. apply Fr; tauto.
        - intros x Hx%Hts. destruct (pair_sib x Hx) as (X1 & X2 & X3). rewrite !elem_of_cons, elem_of_nil.
          intros [->|[->|[]]]; done. }
      split.
      - unfold body. splits.
        + rewrite El. unfold ts'. rewrite fmap_app. cbn [fmap list_fmap fst snd]. rewrite <-!app_assoc. cbn [app]. f_equal. rewrite app_length. simpl. lia.
        + rewrite app_length in *. simpl in *. lia.
        + unfold ts'. rewrite !app_length in *. simpl in *. lia.
        + rewrite !app_length in *. simpl in *. lia.
        + unfold ts'. rewrite !app_length in *. simpl in *. lia.
        + apply Forall_app. split; [apply HF; [auto|done]|]. apply Forall_cons. split; [split; [cbn [fst]; lia|done]|]. apply HF; [auto|done].
      - assert (Hsub : forall x, x ∈ body_fp l ts' -> x ∈ body_fp l (ts1 ++ cy :: cz :: ts2)).
        { intros x. unfold body_fp, ts'. rewrite !fmap_app, !concat_app. cbn [fmap list_fmap concat fst snd].
          rewrite !elem_of_cons, !elem_of_app. intros [H|[H|[H|H]]]; auto. apply Hin, elem_of_app in H. tauto. }
        unfold rearranged. splits; try done.
        + pose proof ND as ND'. unfold body_fp, ts' in *. rewrite !fmap_app, !concat_app in ND' |- *. cbn [fmap list_fmap concat fst snd] in ND' |- *.
          apply NoDup_cons in ND' as [X Y]. apply NoDup_app in Y as (Y0 & Y1 & Y). rewrite app_assoc in Y. apply NoDup_app in Y as (Y2 & Y3 & Y4).
          apply NoDup_cons. split.
          * rewrite !elem_of_app in X. rewrite !elem_of_app. intros [H|[H|H]]; [tauto| |tauto]. apply Hin, elem_of_app in H. tauto.
          * apply NoDup_app. splits; [done| |].
            -- intros x Hx. rewrite elem_of_app. intros [H|H]; apply (Y1 x Hx); rewrite !elem_of_app; [|by auto]. apply Hin, elem_of_app in H. tauto.
            -- apply NoDup_app. splits; [done| |done]. intros x Hx. apply Y3. by apply Hin.
        + intros x Hx. unfold body_fp in Hx. rewrite fmap_app, concat_app in Hx. cbn [fmap list_fmap concat] in Hx.
          rewrite elem_of_cons, !elem_of_app in Hx. apply Fr; [tauto|intros ->; tauto].
    Qed.
  End pair.
End del.
