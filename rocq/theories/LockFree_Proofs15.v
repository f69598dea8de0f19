(** Lock-free skip list: the exact rank when calls do not overlap. *)
From stdpp Require Import functions.
From stdpp Require Import list relations.
From Verif Require Import Base Lin_Spec Lin_Proofs Lin_Hindsight LockFree_Model LockFree_Spec LockFree_Proofs LockFree_Proofs2 LockFree_Proofs3 LockFree_Proofs4 LockFree_Proofs5 LockFree_Proofs6 LockFree_Proofs7 LockFree_Proofs8 LockFree_Proofs9 LockFree_Proofs10 LockFree_Proofs13 LockFree_Proofs14.

Lemma exec_app_inv {C E : Type} (st : C -> option E -> C -> Prop) c h1 h2 c2 : exec st c (h1 ++ h2) c2 -> exists c1, exec st c h1 c1 /\ exec st c1 h2 c2.
Proof.
  intros X. remember (h1 ++ h2) as h eqn:Eh. revert h1 h2 Eh. induction X as [c|c c1 h c2 X IH St|c c1 h e c2 X IH St]; intros h1 h2 Eh.
  - symmetry in Eh. apply app_nil in Eh as [-> ->]. exists c. split; constructor.
  - destruct (IH _ _ Eh) as (d & X1 & X2). exists d. split; [done|]. by eapply exec_silent.
  - destruct (decide (length h2 = 0)) as [L|L].
    + apply nil_length_inv in L as ->. rewrite app_nil_r in Eh. subst h1. exists c2. split; [by eapply exec_event|constructor].
    + destruct (exists_last (l := h2)) as (h2' & e' & ->); [by intros ->|]. rewrite app_assoc in Eh. apply app_inj_tail in Eh as [-> ->].
      destruct (IH _ _ eq_refl) as (d & X1 & X2). exists d. split; [done|]. by eapply exec_event.
Qed.

(** ** Peaks *)
Lemma peaks_low hs c D : (forall b, b ∈ hs -> b < c) -> peaks (hs ++ c :: D) = peaks (c :: D).
Proof.
  induction hs as [|a hs IH]; intros F; [done|]. cbn [app peaks]. rewrite decide_False; [by rewrite IH by (intros b Hb; apply F; by right)|].
  intros G. rewrite Forall_forall in G. specialize (G c). assert (a < c) by (apply F; left). specialize (G ltac:(apply elem_of_app; right; left)). lia.
Qed.
Lemma peaks_top c D : (forall b, b ∈ D -> b <= c) -> peaks (c :: D) = S (peaks D).
Proof. intros F. cbn [peaks]. rewrite decide_True; [done|]. by apply Forall_forall. Qed.
Lemma peaks_le hs : peaks hs <= length hs.
Proof. induction hs as [|a hs IH]; [done|]. cbn [peaks length]. destruct (decide _); lia. Qed.
Lemma peaks_all hs : peaks hs = length hs <-> StronglySorted (fun a b => b <= a) hs.
Proof.
  induction hs as [|a hs IH]; [split; [constructor|done]|]. cbn [peaks length]. pose proof (peaks_le hs). destruct (decide _) as [F|F]; split.
  - intros E. constructor; [apply IH; lia|done].
  - intros S. inversion S; subst. assert (peaks hs = length hs) by (by apply IH). lia.
  - lia.
  - intros S. inversion S; subst. done.
Qed.

(** ** Sorted lists *)
Lemma sorted_ext {A : Type} (R : A -> A -> Prop) (a b : list A) : (forall x, ~ R x x) -> (forall x y z, R x y -> R y z -> R x z) ->
  StronglySorted R a -> StronglySorted R b -> (forall x, x ∈ a <-> x ∈ b) -> a = b.
Proof.
  intros Irr Tr Sa. revert b. induction Sa as [|x a Sa IH Fa]; intros b Sb M.
  - destruct b as [|y b]; [done|]. exfalso. apply (not_elem_of_nil y). apply M. left.
  - destruct Sb as [|y b Sb Fb]; [exfalso; apply (not_elem_of_nil x), M; left|]. rewrite Forall_forall in Fa, Fb.
    assert (x = y) as ->.
    { assert (Hx : x ∈ y :: b) by (apply M; left). assert (Hy : y ∈ x :: a) by (apply M; left).
      apply elem_of_cons in Hx as [->|Hx]; [done|]. apply elem_of_cons in Hy as [->|Hy]; [done|].
      destruct (Irr x). eapply Tr; [by apply Fa|by apply Fb]. }
    f_equal. apply IH; [done|]. intros z. split; intros Hz.
    + assert (Hz' : z ∈ y :: b) by (apply M; by right). apply elem_of_cons in Hz' as [->|]; [|done]. destruct (Irr y). by apply Fa.
    + assert (Hz' : z ∈ y :: a) by (apply M; by right). apply elem_of_cons in Hz' as [->|]; [|done]. destruct (Irr y). by apply Fb.
Qed.
Lemma sorted_filter {A : Type} (R : A -> A -> Prop) (P : A -> Prop) `{!forall x, Decision (P x)} (a : list A) : StronglySorted R a -> StronglySorted R (filter P a).
Proof.
  induction 1 as [|x a S IH F]; [constructor|]. rewrite filter_cons. destruct (decide (P x)); [|done]. constructor; [done|].
  rewrite Forall_forall in F |- *. intros y Hy. apply F. by apply elem_of_list_filter in Hy as [_ ?].
Qed.
Lemma sorted_split {A : Type} (R : A -> A -> Prop) (a b : list A) x : StronglySorted R (a ++ x :: b) -> (forall y, y ∈ a -> R y x) /\ (forall y, y ∈ b -> R x y).
Proof.
  induction a as [|z a IH]; cbn [app]; intros S; inversion S as [|? ? S' F]; subst; rewrite Forall_forall in F.
  - split; [|done]. intros y Hy. by apply elem_of_nil in Hy.
  - destruct (IH S') as [I1 I2]. split; [|done]. intros y Hy. apply elem_of_cons in Hy as [->|Hy]; [|by apply I1]. apply F. apply elem_of_app. right. left.
Qed.

Section lf.
  Context {T : Type} (zero : T) (comp : T -> T -> Z) (H : cmp_ok comp).
  Notation node := (node T).
  Notation heap_t := (list node).
  Notation HI := (HI comp).
  Notation elt := (elt comp).
  Notation GI := (GI comp).
  Notation R := (R zero comp).
  Notation step := (step comp).
  Notation tstep := (tstep comp).
  Notation ok := (ok zero comp).
  Notation SQ := (SQ comp).

  (** ** Histories whose calls do not overlap *)
  Lemma init_onl l i : onl (heap (new_list zero)) l i -> i = 0 \/ i = 1.
  Proof. revert i. apply onl_ind; [by left|]. intros i j _ [m E] _. apply new_lk in E as (_ & [[_ [= -> _]]|[_ [=]]]). by right. Qed.
  Lemma init_GI : GI (heap (new_list zero)) none2 /\ UI (heap (new_list zero)) none1.
  Proof.
    split.
    - constructor.
      + intros l i j _ [m E]. apply new_lk in E as (_ & [[-> [= -> _]]|[_ [=]]]). done.
      + intros l i j k _ [m E] [_ O] _ _ Lt _. apply new_lk in E as (_ & [[-> [= -> _]]|[_ [=]]]). destruct (init_onl _ _ O) as [->| ->]; [|done]. by cbn in Lt.
    - intros k l j _ _ E. apply new_lk in E as (_ & [[_ [=]]|[_ [=]]]).
  Qed.
  Lemma quiet_stays x y : quiet x -> exec step x [] y -> y = x.
  Proof. intros Q E. destruct (solo_exec comp x 0 Len (fun _ _ => True) Q Logic.I (fun _ _ _ _ _ _ _ _ _ => Logic.I) _ _ E) as (F & _). by apply F. Qed.
  Lemma quiet_ok n h x t o : exec step (sys_init zero n) h x -> quiet x -> t < length (pcs x) -> ok (shared x) (start o).
  Proof.
    intros E Q Lt. destruct (reach zero comp H _ _ _ E) as (ms & s & ph & past & _ & Rx). destruct (R_stored zero comp H _ _ _ _ Rx) as (ids & P & Es & _).
    destruct (quiet_seqI zero comp H _ _ _ _ _ o E Q (ex_intro _ ids (conj P Es)) Lt) as (s1 & ph1 & past1 & (pub & ch & Rr) & _).
    exists (<[t := start o]> (pcs x)), t, s1, ph1, past1, pub, ch. split; [done|]. by apply list_lookup_insert.
  Qed.
  Lemma oat_GI n h : one_at_a_time h -> forall x, exec step (sys_init zero n) h x -> quiet x /\ GI (heap (shared x)) none2 /\ UI (heap (shared x)) none1.
  Proof.
    assert (Q0 : quiet (sys_init zero n)) by (intros t p Ep; cbn in Ep; by apply lookup_replicate in Ep as [-> _]).
    induction 1 as [|h t o r Hh IH]; intros x E.
    - rewrite (quiet_stays _ _ Q0 E). split; [done|]. apply init_GI.
    - apply exec_app_inv in E as (x1 & E1 & E2). destruct (IH _ E1) as (Q & G & U). pose proof (call_in_range comp _ _ _ _ _ E2 Q) as Lt.
      destruct (reach zero comp H _ _ _ E1) as (ms & s & ph & past & _ & (pub & ch & Rr)). pose proof (r_heap _ _ _ _ _ _ _ _ _ Rr) as I.
      destruct (solo_exec comp x1 t o (fun m p => ok m p /\ SQ m p) Q) with (h := [Call t o; Return t r] : list (event (op T) (ret T))) (y := x) as (_ & _ & F); [| |done|].
      + split; [by eapply quiet_ok|]. by eapply SQ_start.
      + intros m p top m' p' [O S] Hr Ht Es. split; [by eapply ok_step|by eapply (SQ_step zero comp H)].
      + destruct (F r eq_refl) as ((_ & S) & Ep). unfold quiet. rewrite Ep. split; [done|]. exact S.
  Qed.

  (** ** The elements and their heights *)
  Definition lt1 (a b : T * nat) : Prop := (comp a.1 b.1 < 0)%Z.
  Definition TW (h : heap_t) (tw : list (T * nat)) : Prop :=
    StronglySorted lt1 tw /\ forall w a, (w, a) ∈ tw <-> exists k, live h k /\ k <> 0 /\ k <> 1 /\ key h k = EVal w /\ lvl h k = a.
  Lemma tower_spec (h : heap_t) k w a : k <> 0 -> k <> 1 -> tower h k = Some (w, a) <-> alive h k /\ key h k = EVal w /\ lvl h k = a.
  Proof.
    intros N0 N1. unfold tower, alive, lk, key, lvl. rewrite !decide_False by done. destruct (h !! k) as [n|]; cbn [mbind option_bind].
    - destruct (nexts n !! 0) as [[j [|]]|]; cbn [mbind option_bind is_marked snd fmap option_fmap option_map default from_option id]; split; try done; try (by intros [[? [=]] _]).
      + intros [= <- <-]. splits; [by exists j|done|done].
      + by intros (_ & [= <-] & <-).
    - split; [done|]. by intros [[? [=]] _].
  Qed.
  Lemma towers_sorted h pub ch : HI h pub ch -> forall ids i, pub i -> seg h i ids -> 1 ∉ ids -> 0 ∉ ids ->
    StronglySorted lt1 (omap (tower h) ids) /\ forall w, w ∈ omap (tower h) ids -> elt (key h i) (EVal w.1).
  Proof.
    intros I. induction ids as [|j ids IH]; intros i Pi S N1 N0.
    { split; [constructor|]. intros w Hw. by apply elem_of_nil in Hw. }
    apply not_elem_of_cons in N1 as [N1 N1']. apply not_elem_of_cons in N0 as [N0 N0'].
    pose proof (seg_sorted _ H _ _ _ _ I _ Pi S) as F. apply Forall_cons in F as [[F1 Pj] _]. destruct S as [_ S].
    destruct (IH j Pj S N1' N0') as [IH1 IH2]. cbn [omap list_omap].
    assert (G : forall w, w ∈ omap (tower h) ids -> elt (key h i) (EVal w.1)) by (intros w Hw; eapply (elt_trans _ H); [exact F1|by apply IH2]).
    destruct (tower h j) as [[w a]|] eqn:Et; [|done].
    apply tower_spec in Et as (_ & K & _); [|done..]. split.
    - constructor; [done|]. apply Forall_forall. intros w' Hw. specialize (IH2 _ Hw). by rewrite K in IH2.
    - intros w' Hw. apply elem_of_cons in Hw as [->|Hw]; [|by apply G]. cbn [fst]. by rewrite <-K.
  Qed.
  Lemma towers_TW h pub ch ids : HI h pub ch -> path h 0 0 ids -> TW h (omap (tower h) ids).
  Proof.
    intros I P. destruct (chain_ids comp H _ _ _ I) as (ids' & Ech & N1 & N0). pose proof (hi_seg _ _ _ _ I) as S. rewrite Ech in S.
    pose proof (seg_path _ _ _ S N1) as P'. rewrite (path_det _ _ _ _ _ P P'). clear P. apply seg_app in S as [S _]. split; [apply (towers_sorted _ _ _ I _ _ (hi_pub0 _ _ _ _ I) S N1 N0)|].
    intros w a. rewrite elem_of_list_omap. split.
    - intros (k & Hk & Et). assert (k <> 0) by (by intros ->). assert (k <> 1) by (by intros ->). apply tower_spec in Et as (A & K & L); [|done..].
      exists k. splits; try done. split; [done|]. eapply seg_onl; [apply onl_0|exact S|done].
    - intros (k & Lk & Nk0 & Nk1 & K & L). exists k. split; [|apply tower_spec; [done|done|]; splits; try done; apply Lk].
      pose proof (hi_live _ _ _ _ I k (live_pub comp _ _ _ _ I Lk) (proj1 Lk)) as [?|Hk]%elem_of_cons; [done|]. rewrite Ech in Hk.
      apply elem_of_app in Hk as [|Hk]; [done|]. by apply elem_of_list_singleton in Hk.
  Qed.
  Lemma tower_values (h : heap_t) ids : omap (unmarked_value h) ids = (omap (tower h) ids).*1.
  Proof.
    induction ids as [|i ids IH]; [done|]. cbn [omap list_omap]. unfold unmarked_value, tower. destruct (h !! i) as [n|]; cbn [mbind option_bind]; [|exact IH].
    destruct (nexts n !! 0) as [x|]; cbn [mbind option_bind]; [|exact IH]. destruct (is_marked x); [exact IH|]. cbn [fmap list_fmap fst]. f_equal. exact IH.
  Qed.
  Lemma TW_ext (h h' : heap_t) tw : (forall k, live h' k <-> live h k) -> (forall k, key h' k = key h k) -> (forall k, lvl h' k = lvl h k) -> TW h tw -> TW h' tw.
  Proof.
    intros E1 E2 E3 [S M]. split; [done|]. intros w a. rewrite M. split; intros (k & A & B & C & D & F); exists k; rewrite ?E1, ?E2, ?E3 in *; splits; try done; by apply E1.
  Qed.

  (** ** Rank *)
  Definition below (v : T) (tw : list (T * nat)) : list (T * nat) := filter (fun w => (comp w.1 v < 0)%Z) tw.
  Local Instance above_dec (K : ekey) (w : T * nat) : Decision (elt K (EVal w.1)).
  Proof. destruct (elt_dec comp K (EVal w.1)); [by left|by right]. Defined.
  Definition suf (K : ekey) (v : T) (tw : list (T * nat)) : list (T * nat) := filter (fun w => elt K (EVal w.1)) (below v tw).
  Definition rank_of (v : T) (tw : list (T * nat)) : Z :=
    if decide (length tw <= 1) then Z.of_nat (length tw) else (1 + Z.of_nat (peaks (below v tw).*2))%Z.

  Lemma suf_start (v : T) tw : suf EMin v tw = below v tw.
  Proof. unfold suf. generalize (below v tw). intros B. induction B as [|x B IH]; [done|]. rewrite filter_cons, decide_True by done. by rewrite IH. Qed.
  (** nothing between a node and its successor is as high *)
  Lemma suf_gap h pub ch tw l i c v w a : HI h pub ch -> GI h none2 -> TW h tw -> onl h l i -> nxt h l i c -> (w, a) ∈ suf (key h i) v tw ->
    ~ elt (key h c) (EVal w) -> l < a -> key h c = EVal w /\ lvl h c = a.
  Proof.
    intros I G [_ M] O E Hw Ge L. apply elem_of_list_filter in Hw as [Lt Hw]. apply elem_of_list_filter in Hw as [_ Hw]. apply M in Hw as (k & Lk & _ & _ & K & <-).
    cbn [fst] in Lt. rewrite <-K in Lt, Ge. rewrite (g_gap _ _ _ G l i c k O E Lk L (fun x => x) Lt Ge) in *. done.
  Qed.
  Lemma suf_hop h pub ch tw l i c v r : HI h pub ch -> GI h none2 -> TW h tw -> onl h l i -> nxt h l i c -> live h c -> l < lvl h c -> elt (key h c) (EVal v) ->
    c <> 0 -> c <> 1 ->
    (forall b, b ∈ suf (key h i) v tw -> b.2 <= S l) -> (r + Z.of_nat (peaks (suf (key h i) v tw).*2) = 1 + Z.of_nat (peaks (below v tw).*2))%Z ->
    (forall b, b ∈ suf (key h c) v tw -> b.2 <= S l) /\ (r + 1 + Z.of_nat (peaks (suf (key h c) v tw).*2) = 1 + Z.of_nat (peaks (below v tw).*2))%Z.
  Proof.
    intros I G W O E Lc Ll Lv N0 N1 Hb Hr. pose proof (g_ord _ _ _ G _ _ _ O E) as Lic.
    destruct (key_val h c N0 N1 (hi_pub _ _ _ _ I _ (live_pub comp _ _ _ _ I Lc))) as [w K].
    assert (Hin : (w, lvl h c) ∈ below v tw).
    { apply elem_of_list_filter. split; [rewrite K in Lv; exact Lv|]. apply W. exists c. done. }
    assert (Sb : StronglySorted lt1 (below v tw)) by (apply sorted_filter, W).
    assert (Es : exists A, suf (key h i) v tw = A ++ (w, lvl h c) :: suf (key h c) v tw /\ forall b, b ∈ A -> lt1 b (w, lvl h c)).
    { apply elem_of_list_split in Hin as (A & D & EB). rewrite EB in Sb. destruct (sorted_split _ _ _ _ Sb) as [HA HD].
      unfold suf. rewrite EB, !filter_app, !filter_cons. exists (filter (fun x => elt (key h i) (EVal x.1)) A).
      rewrite decide_True by (cbn [fst]; by rewrite <-K). rewrite (decide_False (P := elt (key h c) (EVal (w, lvl h c).1))) by (cbn [fst]; rewrite <-K; apply (elt_irrefl _ H)).
      assert (filter (fun x => elt (key h c) (EVal x.1)) A = []) as ->.
      { destruct (filter (fun x => elt (key h c) (EVal x.1)) A) as [|y Y] eqn:EY; [done|]. exfalso.
        assert (Hy : y ∈ filter (fun x => elt (key h c) (EVal x.1)) A) by (rewrite EY; left). apply elem_of_list_filter in Hy as [Hy1 Hy2].
        specialize (HA _ Hy2). rewrite K in Hy1. unfold lt1 in HA. cbn [fst] in HA. apply (elt_irrefl _ H (EVal w)). eapply (elt_trans _ H); [exact Hy1|exact HA]. }
      cbn [app]. split.
      - f_equal. f_equal. assert (X : forall K', (forall y, y ∈ D -> elt K' (EVal y.1)) -> filter (fun x => elt K' (EVal x.1)) D = D).
        { clear. intros K'. induction D as [|y D IH]; intros F; [done|]. rewrite filter_cons, decide_True by (apply F; left). f_equal. apply IH. intros z Hz. apply F. by right. }
        rewrite !X; [done| |].
        + intros y Hy. specialize (HD _ Hy). rewrite K. exact HD.
        + intros y Hy. specialize (HD _ Hy). eapply (elt_trans _ H); [exact Lic|]. rewrite K. exact HD.
      - intros b Hb'. apply HA. by apply elem_of_list_filter in Hb' as [_ ?]. }
    destruct Es as (A & Es & HA). assert (Lc' : lvl h c = S l).
    { assert (lvl h c <= S l); [|lia]. apply (Hb (w, lvl h c)). rewrite Es. apply elem_of_app. right. left. }
    assert (Hb2 : forall b, b ∈ suf (key h c) v tw -> b.2 <= S l) by (intros b Hb'; apply Hb; rewrite Es; apply elem_of_app; right; by right).
    split; [done|]. rewrite Es in Hr. rewrite fmap_app in Hr. cbn [fmap list_fmap snd] in Hr. rewrite peaks_low, peaks_top in Hr.
    - lia.
    - intros b Hb'. apply elem_of_list_fmap in Hb' as (y & -> & Hy). rewrite Lc'. by apply Hb2.
    - intros b Hb'. apply elem_of_list_fmap in Hb' as ([w' a] & -> & Hy). cbn [snd]. rewrite Lc'.
      destruct (decide (l < a)) as [La|]; [|lia]. exfalso. pose proof (HA _ Hy) as Lw. unfold lt1 in Lw. cbn [fst] in Lw.
      destruct (suf_gap h pub ch tw l i c v w' a I G W O E) as [K' _].
      + rewrite Es. apply elem_of_app. by left.
      + rewrite K. intros F. apply (elt_irrefl _ H (EVal w)). eapply (elt_trans _ H); [exact F|exact Lw].
      + done.
      + rewrite K in K'. injection K' as ->. apply (elt_irrefl _ H (EVal w')). exact Lw.
  Qed.

  Definition rankX (v : T) (tw : list (T * nat)) (m : mem T) (p : pc T) : Prop :=
    match p with
    | Ready r => r = RInt (rank_of v tw)
    | RankLoad v' => v' = v /\ ok m p /\ SQ m p /\ TW (heap m) tw /\ size m = Z.of_nat (length tw)
    | Find (ForRank r) v' prevs succs q => v' = v /\ ok m p /\ SQ m p /\ TW (heap m) tw /\ 1 < length tw /\
        exists i, prev_of q = Some i /\ (r + Z.of_nat (peaks (suf (key (heap m) i) v tw).*2) = 1 + Z.of_nat (peaks (below v tw).*2))%Z /\
          forall b, b ∈ suf (key (heap m) i) v tw -> b.2 <= S (pos_level q)
    | _ => False
    end.
  Lemma TW_height h pub ch tw w a : HI h pub ch -> TW h tw -> (w, a) ∈ tw -> 1 <= a <= max_level.
  Proof.
    intros I [_ M] Hw. apply M in Hw as (k & Lk & _ & _ & _ & <-). eapply (hi_lvl comp); [done|]. eapply hi_pub; [done|]. by eapply live_pub.
  Qed.
  Lemma suf_in K v tw b : b ∈ suf K v tw -> b ∈ tw /\ elt K (EVal b.1) /\ elt (EVal b.1) (EVal v).
  Proof. intros Hb. apply elem_of_list_filter in Hb as [A Hb]. apply elem_of_list_filter in Hb as [B Hb]. done. Qed.
  Lemma rankX_step v tw m p top m' p' : rankX v tw m p -> running p = true -> random_level top -> tstep m p top = Ok (m', p') -> rankX v tw m' p'.
  Proof.
    intros X Hr Ht E. destruct p as [|k v' prevs succs q|v' new prevs succs|l v' new prevs succs| |v' l nd|v' l nd next| | |v'|r]; try done.
    - destruct k as [|l new| | | |r]; try done. destruct X as (-> & O & S & W & L1 & (i & Ei & Hpk & Hh)).
      pose proof (ok_step zero comp H _ _ _ _ _ O Hr Ht E) as O'. pose proof (SQ_step zero comp H _ _ _ _ _ O S Hr Ht E) as S'.
      destruct (ok_TI _ _ _ _ O) as (pub & ch & past & f & I & (Hk & Ha & Hpos)). destruct S as (G & U & _ & _ & Cl & (i0 & Ei0 & On)). rewrite Ei in Ei0. injection Ei0 as <-.
      destruct q as [l prev|l prev cur|l prev cur next]; cbn [prev_of pos_level] in *; subst prev.
      + destruct Cl as (? & j & [= <-] & El). cbn [LockFree_Model.tstep] in E. rewrite (load_next_ok _ _ _ _ El) in E. cbn [rbind] in E. injection E as <- <-.
        cbn [rankX]. splits; try done. by exists i.
      + destruct Hpos as (Ll & ? & c & [= <-] & -> & (Pi & Ni & Li & Oi) & _ & Pc & Nc & Lc & _). destruct Cl as (? & [= <-] & El).
        destruct (hi_lk _ _ _ _ c l I Lc) as [[n b] Ec]. cbn [LockFree_Model.tstep] in E. rewrite (load_next_ok _ _ _ _ Ec) in E. cbn [rbind is_marked snd] in E. destruct b.
        { injection E as <- <-. cbn [rankX]. splits; try done. by exists i. }
        assert (En : nxt (heap m) l i c) by (by exists false).
        destruct (less_ok comp (heap m) c v (hi_pub _ _ _ _ I _ Pc)) as (b & Eb & Hb). rewrite Eb in E. cbn [rbind fst] in E. destruct b.
        * injection E as <- <-. cbn [hop] in *. destruct Hb as [Hb _]. specialize (Hb eq_refl). assert (Nc1 : c <> 1) by (by intros ->).
          destruct (alive_of_unmarked comp _ _ _ _ _ _ I Pc Ec) as [j0 E0]. assert (Lv : live (heap m) c) by (eapply pub_live; [done|done|by exists j0]).
          destruct (suf_hop _ _ _ tw l i c v r I G W On En Lv Lc Hb Nc Nc1 Hh Hpk) as [Hh' Hpk']. cbn [rankX]. splits; try done. by exists c.
        * assert (Gc : ~ elt (key (heap m) c) (EVal v)) by (intros F; destruct Hb as [_ Hb]; by specialize (Hb F)).
          assert (Low : forall b, b ∈ suf (key (heap m) i) v tw -> b.2 <= l).
          { intros [w a] Hw. cbn [snd]. destruct (decide (l < a)) as [La|]; [|lia]. exfalso. destruct (suf_in _ _ _ _ Hw) as (_ & _ & Lw). cbn [fst] in Lw.
            destruct (suf_gap _ _ _ tw l i c v w a I G W On En Hw) as [K _]; [|done|].
            - intros F. apply Gc. by eapply (elt_trans _ H).
            - apply Gc. by rewrite K. }
          destruct l as [|l].
          -- cbn [found] in E. injection E as <- <-. cbn [rankX]. assert (suf (key (heap m) i) v tw = []) as Es.
             { destruct (suf (key (heap m) i) v tw) as [|[w a] B] eqn:Es; [done|]. exfalso. assert (Hw : (w, a) ∈ suf (key (heap m) i) v tw) by (rewrite Es; left).
               rewrite <-Es in Low. specialize (Low _ Hw). destruct (suf_in _ _ _ _ Hw) as (Hin & _). pose proof (TW_height _ _ _ _ _ _ I W Hin). cbn in Low. lia. }
             rewrite Es in Hpk. cbn in Hpk. unfold rank_of. rewrite decide_False by lia. f_equal. lia.
          -- injection E as <- <-. cbn [rankX]. splits; try done. exists i. splits; try done. 
      + destruct Hpos as (Ll & ? & c & [= <-] & -> & (Pi & Ni & Li & Oi) & _ & Pc & Nc & Nc1 & Ec & Mn). destruct Cl as (? & [= <-] & El).
        cbn [LockFree_Model.tstep] in E. rewrite (cas_ok _ _ _ _ _ El) in E. cbn [rbind] in E. injection E as <- <-.
        destruct (hi_link _ _ _ _ I c l _ Pc Nc1 Ec) as (n & En & Pn & _). destruct next as [? b]. cbn in En, Mn. subst. cbn [get_unmarked fst] in *.
        cbn [rankX]. splits; try done.
        * cbn [heap]. eapply TW_ext; [|intros; apply upd_key|intros; apply upd_lvl|exact W]. intros k. by eapply (snip_live comp H).
        * exists i. cbn [heap]. rewrite upd_key. done.
    - destruct X as (-> & O & S & W & Es). pose proof (ok_step zero comp H _ _ _ _ _ O Hr Ht E) as O'. pose proof (SQ_step zero comp H _ _ _ _ _ O S Hr Ht E) as S'.
      destruct (ok_TI _ _ _ _ O) as (pub & ch & past & f & I & _).
      cbn [LockFree_Model.tstep] in E. cbv zeta in E. rewrite Es in E. destruct (decide _) as [L|L]; injection E as <- <-.
      + cbn [rankX]. unfold rank_of. rewrite decide_True by lia. done.
      + cbn [rankX find_start prev_of pos_level]. splits; try done; [lia|]. exists 0. assert (key (heap m) 0 = EMin) as -> by done. rewrite suf_start. splits; [done|done|].
        intros [w a] Hb. apply elem_of_list_filter in Hb as [_ Hb]. pose proof (TW_height _ _ _ _ _ _ I W Hb). cbn [snd]. unfold max_level in *. lia.
  Qed.
  Lemma rank_exact n h x tw t v r y : exec step (sys_init zero n) h x -> one_at_a_time h -> towers x tw -> (Z.of_nat (length tw) < 2 ^ 31)%Z ->
    exec step x [Call t (Rank v); Return t r] y -> r = RInt (rank_of v tw).
  Proof.
    intros E OA (ids & P & ->) L E2. destruct (oat_GI n h OA x E) as (Q & G & U). pose proof (call_in_range comp _ _ _ _ _ E2 Q) as Lt.
    destruct (reach zero comp H _ _ _ E) as (ms & s & ph & past & _ & (pub & ch & Rr)). pose proof (r_heap _ _ _ _ _ _ _ _ _ Rr) as I.
    assert (Hs : stored x (omap (unmarked_value (heap (shared x))) ids)) by (by exists ids).
    pose proof (size_quiet zero comp H _ _ _ _ E Hs Q) as Sz. rewrite tower_values, fmap_length, to_int32_small in Sz by lia.
    destruct (solo_exec comp x t (Rank v) (rankX v (omap (tower (heap (shared x))) ids)) Q) with (h := [Call t (Rank v); Return t r] : list (event (op T) (ret T))) (y := y) as (_ & _ & F); [| |done|].
    - cbn [rankX start]. splits; [done|by apply (quiet_ok n h x t (Rank v))| | |done].
      + by eapply (SQ_start comp (shared x) _ _ (Rank v)).
      + by eapply towers_TW.
    - intros m p top m' p'. apply rankX_step.
    - by destruct (F r eq_refl) as [F1 _].
  Qed.
  Lemma rank_position n h x tw t v r y : exec step (sys_init zero n) h x -> one_at_a_time h -> towers x tw -> (Z.of_nat (length tw) < 2 ^ 31)%Z -> 1 < length tw ->
    exec step x [Call t (Rank v); Return t r] y ->
    r = RInt (1 + Z.of_nat (length (below v tw))) <-> StronglySorted (fun a b => b <= a) (below v tw).*2.
  Proof.
    intros E OA Hw L L1 E2. rewrite (rank_exact _ _ _ _ _ _ _ _ E OA Hw L E2). unfold rank_of. rewrite decide_False by lia. rewrite <-peaks_all, fmap_length. split; [intros [= F]; lia|intros ->; done].
  Qed.

  (** ** The upper levels *)
  Lemma path_sorted h pub ch l : HI h pub ch -> GI h none2 -> l < max_level -> forall i ids, path h l i ids -> onl h l i ->
    StronglySorted lt1 (omap (tower h) ids) /\ (forall w, w ∈ omap (tower h) ids -> elt (key h i) (EVal w.1)) /\ forall k, k ∈ ids <-> (rtc (nxt h l) i k /\ k <> i /\ k <> 1).
  Proof.
    intros I G Ll i ids P. induction P as [i n m En El|i n m j ids En El Nj P IH]; intros O.
    - cbn. splits; [constructor|intros w Hw; by apply elem_of_nil in Hw|]. intros k. split; [intros Hk; by apply elem_of_nil in Hk|]. intros (Rk & N & N1). exfalso.
      inversion Rk as [|? c ? E' R']; subst; [done|]. assert (E1 : nxt h l i 1) by (exists m; apply lk_node; eauto). rewrite (nxt_det _ _ _ _ _ E' E1) in R'.
      inversion R' as [|? c' ? [m' F] _]; subst; [done|]. by apply (hi_tailnil _ _ _ _ I) in F.
    - assert (E1 : nxt h l i j) by (exists m; apply lk_node; eauto). pose proof (onl_S _ _ _ _ O E1) as Oj. destruct (IH Oj) as (S & B & M). pose proof (g_ord _ _ _ G _ _ _ O E1) as Lij.
      destruct (onl_link comp _ _ _ _ _ _ I (onl_pub comp _ _ _ _ _ I O) E1) as (Pj & N0 & _).
      assert (B' : forall w, w ∈ omap (tower h) ids -> elt (key h i) (EVal w.1)) by (intros w Hw; eapply (elt_trans _ H); [exact Lij|by apply B]).
      splits.
      + cbn [omap list_omap]. destruct (tower h j) as [[w a]|] eqn:Et; [|done]. apply tower_spec in Et as (_ & K & _); [|done..].
        constructor; [done|]. apply Forall_forall. intros w' Hw. specialize (B _ Hw). by rewrite K in B.
      + cbn [omap list_omap]. destruct (tower h j) as [[w a]|] eqn:Et; [|done]. apply tower_spec in Et as (_ & K & _); [|done..].
        intros w' Hw. apply elem_of_cons in Hw as [->|Hw]; [|by apply B']. cbn [fst]. by rewrite <-K.
      + intros k. rewrite elem_of_cons, M. split.
        * intros [->|(Rk & N & N1)]; [splits; [by apply rtc_once| |done]|splits; [by eapply rtc_l| |done]].
          -- intros ->. by apply (elt_irrefl _ H) in Lij.
          -- intros ->. destruct (chain_le comp H _ _ _ _ _ G Oj Rk) as [->|F]; [done|]. apply (elt_irrefl _ H (key h i)). by eapply (elt_trans _ H).
        * intros (Rk & N & N1). destruct (decide (k = j)) as [->|Nk]; [by left|]. right. inversion Rk as [|? c ? E' R']; subst; [done|].
          rewrite (nxt_det _ _ _ _ _ E1 E'). splits; try done. by rewrite <-(nxt_det _ _ _ _ _ E1 E').
  Qed.
  Lemma level_exact n h x tw l ids : exec step (sys_init zero n) h x -> one_at_a_time h -> towers x tw -> l < max_level ->
    path (heap (shared x)) l head ids -> omap (tower (heap (shared x))) ids = filter (fun w => l < w.2) tw.
  Proof.
    intros E OA (ids0 & P0 & ->) Ll P. destruct (oat_GI n h OA x E) as (Q & G & U).
    destruct (reach zero comp H _ _ _ E) as (ms & s & ph & past & _ & (pub & ch & Rr)). pose proof (r_heap _ _ _ _ _ _ _ _ _ Rr) as I.
    destruct (towers_TW _ _ _ _ I P0) as [S0 M0]. destruct (path_sorted _ _ _ l I G Ll _ _ P (onl_0 _ _)) as (S1 & _ & M1).
    eapply (sorted_ext lt1); [| |done|by apply sorted_filter|].
    - intros a F. apply (elt_irrefl _ H (EVal a.1)). exact F.
    - intros a b c F1 F2. exact (elt_trans _ H (EVal a.1) (EVal b.1) (EVal c.1) F1 F2).
    - intros [w a]. rewrite elem_of_list_filter, M0, elem_of_list_omap. cbn [snd]. split.
      + intros (k & Hk & Et). apply M1 in Hk as (Ok & N0 & N1). apply tower_spec in Et as (A & K & <-); [|done..]. split; [by eapply (onl_lvl comp)|].
        exists k. splits; try done. eapply pub_live; [done|by eapply onl_pub|done].
      + intros (La & k & Lk & N0 & N1 & K & <-). exists k. split; [|apply tower_spec; [done|done|]; splits; try done; apply Lk]. apply M1. splits; try done.
        eapply (GI_full comp H); [done|exact G|done|done|intros []].
  Qed.
End lf.
