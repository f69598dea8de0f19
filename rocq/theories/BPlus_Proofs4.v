(** Insertion into a node that is not full. *)
From Verif Require Import Base BPlus_Model BPlus_Spec BPlus_Proofs BPlus_Proofs2 BPlus_Proofs3.

Lemma NoDup_ctx (a x x' b : list nat) n :
  NoDup (a ++ x ++ b) -> NoDup x' -> (forall y, y ∈ x' -> y ∈ x \/ n <= y) ->
  (forall y, y ∈ a ++ x ++ b -> y < n) -> NoDup (a ++ x' ++ b).
Proof.
  intros N N' Hx Hb. apply NoDup_app in N as (N1 & N2 & N3). apply NoDup_app in N3 as (N3 & N4 & N5).
  apply NoDup_app. splits; [done| |].
  - intros y Hy [H|H]%elem_of_app.
    + destruct (Hx y H) as [H'|H']; [apply (N2 y Hy), elem_of_app; by left|].
      specialize (Hb y). rewrite elem_of_app in Hb. specialize (Hb (or_introl Hy)). lia.
    + apply (N2 y Hy), elem_of_app. by right.
  - apply NoDup_app. splits; [done| |done]. intros y Hy Hyb. destruct (Hx y Hy) as [H|H]; [by apply (N4 y H)|].
    specialize (Hb y). rewrite !elem_of_app in Hb. specialize (Hb (or_intror (or_intror Hyb))). lia.
Qed.

Section ins.
  Context {K V : Type} (kzero : K) (vzero : V) (comp : K -> K -> Z).
  Implicit Types (t : @tree K V) (w pre post : list (@item K V)).
  Notation insert_non_full := (insert_non_full kzero vzero comp).
  Notation child := (nat * list nat * list (@item K V))%type.
  Notation caddr := (fun c : child => Some c.1.1).
  Notation cfp := (fun c : child => c.1.2).
  Notation cw := (fun c : child => c.2).

  Lemma fits_pre (p : K * V) ws ks w :
    cmp_ok comp -> length ws = length ks -> in_order comp (wpre ws ks ++ w) ->
    (forall x, last ks = Some x -> (comp x.1 p.1 <= 0)%Z) ->
    forall x, x ∈ wpre ws ks -> (comp (item_key x) p.1 <= 0)%Z.
  Proof.
    intros C L S H x Hx. destruct ks as [|k ks _] using rev_ind.
    { destruct ws; [|done]. by apply elem_of_nil in Hx. }
    destruct ws as [|w' ws _] using rev_ind; [by rewrite app_length in L; simpl in L; lia|].
    rewrite !app_length in L. simpl in L. rewrite wpre_snoc in Hx, S by lia.
    specialize (H k). rewrite last_snoc in H. specialize (H eq_refl).
    unfold in_order in S. rewrite app_assoc in S, Hx. apply strong_app in S as (S & _).
    apply elem_of_app in Hx as [Hx|Hx].
    - apply strong_app in S as (_ & _ & S). specialize (S x (Sep k) Hx ltac:(by left)). cbn in S.
      by eapply (cmp_trans _ C).
    - apply elem_of_list_singleton in Hx as ->. done.
  Qed.
  Lemma fits_post (p : K * V) ws ks w :
    cmp_ok comp -> length ws = length ks -> in_order comp (w ++ wpost ks ws) ->
    (forall x, head ks = Some x -> (comp p.1 x.1 <= 0)%Z) ->
    forall x, x ∈ wpost ks ws -> (comp p.1 (item_key x) <= 0)%Z.
  Proof.
    intros C L S H x Hx. destruct ks as [|k ks]; [by apply elem_of_nil in Hx|].
    destruct ws as [|w' ws]; [done|]. rewrite wpost_cons in Hx, S. specialize (H k eq_refl).
    unfold in_order in S. apply strong_app in S as (_ & S & _). inversion S as [|?? S1 S2]; subst.
    rewrite Forall_forall in S2. apply elem_of_cons in Hx as [->|Hx]; [done|].
    specialize (S2 x Hx). cbn in S2. by eapply (cmp_trans _ C).
  Qed.

  (** the body of [reads] for an inner node, with one child singled out *)
  Definition focus (M : nat) (h : nat -> @node K V) d l nx ks1 ks2 (J : list (K * V)) (ts1 : list child) c ts2 (JC : list (option nat)) : Prop :=
    h l = Node nx ((ks1 ++ ks2) ++ J) ((caddr <$> ts1 ++ c :: ts2) ++ JC) (length (ks1 ++ ks2)) false
    /\ 1 <= length (ks1 ++ ks2) /\ length ts1 = length ks1 /\ length ts2 = length ks2
    /\ length ((ks1 ++ ks2) ++ J) = 2 * M - 1 /\ length (ts1 ++ c :: ts2) + length JC = 2 * M
    /\ Forall (fun c => M - 1 <= num (h c.1.1) /\ reads M h d c.1.1 c.1.2 c.2) (ts1 ++ c :: ts2).
  Definition focus_fp l (ts1 : list child) (c : child) ts2 := (l :: concat (cfp <$> ts1)) ++ c.1.2 ++ concat (cfp <$> ts2).
  Definition focus_w ks1 ks2 (ts1 : list child) (c : child) ts2 := wpre (cw <$> ts1) ks1 ++ c.2 ++ wpost ks2 (cw <$> ts2).

  Lemma focus_reads M h d l nx ks1 ks2 J ts1 c ts2 JC :
    focus M h d l nx ks1 ks2 J ts1 c ts2 JC ->
    reads M h (S d) l (focus_fp l ts1 c ts2) (focus_w ks1 ks2 ts1 c ts2).
  Proof.
    intros (E & L0 & L1 & L2 & L3 & L4 & F). cbn [reads].
    exists nx, (ks1 ++ ks2), J, (ts1 ++ c :: ts2), JC. splits; try done.
    - rewrite !app_length. simpl. lia.
    - unfold focus_fp. rewrite fmap_app, concat_app. done.
    - unfold focus_w. rewrite fmap_app. cbn [fmap list_fmap]. rewrite weave_focus; [done| |]; by rewrite fmap_length.
  Qed.

  Definition ins_res (p : K * V) t t' (l d : nat) (fp : list nat) w (fp' : list nat) w' : Prop :=
    reads (degree t) (hp t') d l fp' w' /\ grows comp (degree t) p w w' /\ NoDup fp'
    /\ (forall x, x ∈ fp' -> x ∈ fp \/ brk t <= x < brk t')
    /\ (forall x, x ∉ fp -> x < brk t -> hp t' x = hp t x)
    /\ num (hp t l) <= num (hp t' l) /\ brk t <= brk t'
    /\ size t' = (size t + 1)%Z /\ degree t' = degree t /\ root t' = root t.
  Definition ins_ok d : Prop := forall fuel t l fp w p,
    d < fuel -> 2 <= degree t -> reads (degree t) (hp t) d l fp w -> num (hp t l) < 2 * degree t - 1 ->
    NoDup fp -> Forall (fun x => x < brk t) fp ->
    exists t' fp' w', insert_non_full fuel l p t = Ok t' /\ ins_res p t t' l d fp w fp' w'.

  Lemma descend d : ins_ok d ->
    forall fuel t l nx ks1 ks2 J ts1 c ts2 JC p,
    d < fuel -> 2 <= degree t ->
    focus (degree t) (hp t) d l nx ks1 ks2 J ts1 c ts2 JC ->
    num (hp t c.1.1) < 2 * degree t - 1 ->
    NoDup (focus_fp l ts1 c ts2) -> Forall (fun x => x < brk t) (focus_fp l ts1 c ts2) ->
    (cmp_ok comp -> in_order comp (focus_w ks1 ks2 ts1 c ts2) -> fits comp p (wpre (cw <$> ts1) ks1) (wpost ks2 (cw <$> ts2))) ->
    exists t' fp' w', insert_non_full fuel c.1.1 p t = Ok t'
      /\ ins_res p t t' l (S d) (focus_fp l ts1 c ts2) (focus_w ks1 ks2 ts1 c ts2) fp' w'.
  Proof.
    intros IH fuel t l nx ks1 ks2 J ts1 [[c fpc] wc] ts2 JC p Hf HM Foc Hn ND Hb Hfit. cbn [fst snd] in *.
    pose proof Foc as (E & L0 & L1 & L2 & L3 & L4 & F).
    apply Forall_app in F as [F1 [[F2n F2] F3]%Forall_cons]. cbn [fst snd] in *.
    assert (NDc : NoDup fpc). { unfold focus_fp in ND. cbn [fst snd] in ND. apply NoDup_app in ND as (_ & _ & ND). by apply NoDup_app in ND as (? & _). }
    assert (Hbc : Forall (fun x => x < brk t) fpc). { unfold focus_fp in Hb. cbn [fst snd] in Hb. apply Forall_app in Hb as [_ Hb]. by apply Forall_app in Hb as [? _]. }
    destruct (IH fuel t c fpc wc p Hf HM F2 Hn NDc Hbc) as (t' & fpc' & wc' & ET & R1 & G & N' & Hin & Hfr & Hnum & Hbrk & Hsz & Hdeg & Hrt).
    set (c' := (c, fpc', wc')).
    exists t', (focus_fp l ts1 c' ts2), (focus_w ks1 ks2 ts1 c' ts2). split; [done|].
    rewrite Forall_forall in Hb.
    (* the footprint outside the child is untouched *)
    assert (Hlc : l ∉ fpc).
    { intros Hl. unfold focus_fp in ND. cbn [fst snd app] in ND. apply NoDup_cons in ND as [ND _]. apply ND.
      rewrite !elem_of_app. auto. }
    assert (Hsib : forall cc x, cc ∈ ts1 ++ ts2 -> x ∈ cc.1.2 -> x ∉ fpc /\ x < brk t).
    { intros cc x Hcc Hx. split.
      - intros Hxc. unfold focus_fp in ND. cbn [fst snd app] in ND. apply NoDup_cons in ND as [_ ND].
        apply NoDup_app in ND as (_ & ND1 & ND2). apply NoDup_app in ND2 as (_ & ND2 & _).
        apply elem_of_app in Hcc as [Hcc|Hcc].
        + apply (ND1 x); [|apply elem_of_app; by left]. apply elem_concat. exists cc.1.2. split; [done|]. apply elem_of_list_fmap. by exists cc.
        + apply (ND2 x); [done|]. apply elem_concat. exists cc.1.2. split; [done|]. apply elem_of_list_fmap. by exists cc.
      - apply Hb. unfold focus_fp. cbn [fst snd app]. apply elem_of_cons. right. rewrite !elem_of_app.
        apply elem_of_app in Hcc as [Hcc|Hcc]; [left|right; right]; apply elem_concat; exists cc.1.2; (split; [done|]); apply elem_of_list_fmap; by exists cc. }
    assert (Hl : hp t' l = hp t l).
    { apply Hfr; [done|]. apply Hb. left. }
    assert (HF : forall ts, (forall cc, cc ∈ ts -> cc ∈ ts1 ++ ts2) ->
      Forall (fun cc => degree t - 1 <= num (hp t cc.1.1) /\ reads (degree t) (hp t) d cc.1.1 cc.1.2 cc.2) ts ->
      Forall (fun cc => degree t - 1 <= num (hp t' cc.1.1) /\ reads (degree t) (hp t') d cc.1.1 cc.1.2 cc.2) ts).
    { intros ts Hts. rewrite !Forall_forall. intros H cc Hcc. destruct (H cc Hcc) as [H1 H2].
      assert (forall x, x ∈ cc.1.2 -> hp t' x = hp t x).
      { intros x Hx. destruct (Hsib cc x (Hts cc Hcc) Hx). by apply Hfr. }
      split; [|by eapply reads_frame]. rewrite H0; [done|]. by eapply reads_in. }
    unfold ins_res. splits; try done.
    - apply (focus_reads _ _ _ _ nx ks1 ks2 J ts1 c' ts2 JC). unfold focus. rewrite Hl, E. splits; try done.
      + rewrite !fmap_app. done.
      + rewrite app_length in L4 |- *. exact L4.
      + apply Forall_app. split; [apply HF; [intros; apply elem_of_app; by left|done]|].
        apply Forall_cons. split; [|apply HF; [intros; apply elem_of_app; by right|done]].
        unfold c'; cbn [fst snd]. split; [lia|done].
    - apply grows_ctx; done.
    - unfold focus_fp. cbn [fst snd]. unfold focus_fp in ND, Hb. cbn [fst snd] in ND, Hb.
      eapply NoDup_ctx; [exact ND|done| |exact Hb]. intros y Hy. destruct (Hin y Hy); [by left|right; lia].
    - intros x. unfold focus_fp. cbn [fst snd]. rewrite !elem_of_app. intros [H|[H|H]]; [by auto| |by auto].
      destruct (Hin x H); auto.
    - intros x Hx Hxb. apply Hfr; [|done]. intros Hxc. apply Hx. unfold focus_fp. cbn [fst snd]. rewrite !elem_of_app. auto.
    - rewrite Hl. lia.
  Qed.
End ins.
