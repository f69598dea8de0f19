(** Lock-free skip list: the shape of memory. *)
From stdpp Require Import functions.
From stdpp Require Import list.
From Verif Require Import Base Lin_Spec Lin_Proofs Lin_Hindsight LockFree_Model LockFree_Spec LockFree_Proofs LockFree_Proofs2 LockFree_Proofs3 LockFree_Proofs4 LockFree_Proofs5 LockFree_Proofs6.

Section lf.
  Context {T : Type} (zero : T) (comp : T -> T -> Z) (H : cmp_ok comp).
  Notation node := (node T).
  Notation heap_t := (list node).
  Notation HI := (HI comp).
  Notation RI := (RI zero comp).
  Notation R := (R zero comp).
  Notation elt := (elt comp).
  Notation step := (step comp).

  Lemma lk_node (h : heap_t) i l x : lk h i l = Some x <-> exists n, h !! i = Some n /\ nexts n !! l = Some x.
  Proof. unfold lk. destruct (h !! i) as [n|]; cbn; split; [eauto|by intros (? & [= <-] & ?)|done|by intros (? & [=] & _)]. Qed.

  Lemma path_det (h : heap_t) l i a b : path h l i a -> path h l i b -> a = b.
  Proof.
    intros Pa. revert b. induction Pa as [i n m En El|i n m j ids En El Nj Pa IH]; intros b Pb; inversion Pb as [? n' m' En' El'|? n' m' j' ids' En' El' Nj' Pb']; subst;
      rewrite En in En'; injection En' as <-; rewrite El in El'; injection El' as; subst; try done. f_equal. by apply IH.
  Qed.
  Lemma stored_det (x : sys T) a b : stored x a -> stored x b -> a = b.
  Proof. intros (i & Pi & ->) (j & Pj & ->). by rewrite (path_det _ _ _ _ _ Pi Pj). Qed.

  Lemma seg_path (h : heap_t) ids : forall i, seg h i (ids ++ [1]) -> 1 ∉ ids -> path h 0 i ids.
  Proof.
    induction ids as [|j ids IH]; intros i S N; cbn [app seg] in S; destruct S as [[m E] S]; apply lk_node in E as (n & En & El).
    - by eapply path_end.
    - apply not_elem_of_cons in N as [N1 N2]. eapply path_hop; eauto.
  Qed.
  Lemma chain_ids h pub ch : HI h pub ch -> exists ids, ch = ids ++ [1] /\ 1 ∉ ids /\ 0 ∉ ids.
  Proof.
    intros I. pose proof (hi_last _ _ _ _ I) as Hl. apply last_Some in Hl. destruct Hl as [ids ->]. exists ids. split; [done|].
    pose proof (chain_nodup _ H _ _ _ I) as N. apply NoDup_cons in N as [N0 N]. apply NoDup_app in N as (_ & N & _). split.
    - intros F. apply (N 1 F). left.
    - intros F. apply N0. apply elem_of_app. by left.
  Qed.
  Lemma cell_unmarked (h : heap_t) i : i <> 1 -> cell h i = unmarked_value h i.
  Proof.
    intros N. unfold cell, unmarked_value. destruct (decide (i <> 1 /\ alive h i)) as [[_ [j A]]|A].
    - apply lk_node in A as (n & -> & El). cbn [mbind option_bind]. by rewrite El.
    - destruct (h !! i) as [n|] eqn:E; [|done]. cbn [mbind option_bind]. destruct (nexts n !! 0) as [[j [|]]|] eqn:El; [done| |done]. exfalso. apply A. split; [done|]. exists j. apply lk_node. eauto.
  Qed.
  Lemma omap_ext_in {A B : Type} (f g : A -> option B) (l : list A) : (forall x, x ∈ l -> f x = g x) -> omap f l = omap g l.
  Proof.
    induction l as [|a l IH]; intros E; [done|]. cbn. rewrite (E a) by left. rewrite IH; [done|]. intros x Hx. apply E. by right.
  Qed.
  Lemma absv_stored h pub ch ids : HI h pub ch -> ch = ids ++ [1] -> 1 ∉ ids -> absv h ch = omap (unmarked_value h) ids.
  Proof.
    intros I -> N. unfold absv. rewrite omap_app. assert (omap (cell h) [1] = []) as -> by (cbn; unfold cell; rewrite decide_False; [done|tauto]).
    rewrite app_nil_r. apply omap_ext_in. intros i Hi. apply cell_unmarked. by intros ->.
  Qed.
  Lemma values_sorted h pub ch : HI h pub ch -> forall ids i, pub i -> seg h i ids -> 1 ∉ ids -> 0 ∉ ids ->
    StronglySorted (fun a b => (comp a b < 0)%Z) (values h ids) /\ forall w, w ∈ values h ids -> elt (key h i) (EVal w).
  Proof.
    intros I. induction ids as [|j ids IH]; intros i Pi S N1 N0; cbn [values omap list_omap].
    { split; [constructor|]. intros w Hw. by apply elem_of_nil in Hw. }
    apply not_elem_of_cons in N1 as [N1 N1']. apply not_elem_of_cons in N0 as [N0 N0'].
    pose proof (seg_sorted _ H _ _ _ _ I _ Pi S) as F. apply Forall_cons in F as [[F1 Pj] _]. destruct S as [_ S].
    destruct (IH j Pj S N1' N0') as [IH1 IH2]. destruct (lookup_lt_is_Some_2 _ _ (hi_pub _ _ _ _ I _ Pj)) as [n En]. rewrite En. cbn [fmap option_fmap option_map].
    assert (K : key h j = EVal (value n)) by (unfold key; rewrite !decide_False by done; by rewrite En). rewrite K in *. split.
    - constructor; [done|]. apply List.Forall_forall. intros w Hw. apply elem_of_list_In in Hw. by apply IH2.
    - intros w Hw. apply elem_of_cons in Hw as [->|Hw]; [done|]. eapply (elt_trans _ H); [done|]. by apply IH2.
  Qed.
  Lemma R_stored x s ph past : R x s ph past -> exists ids, path (heap (shared x)) 0 head ids /\ s = omap (unmarked_value (heap (shared x))) ids /\
    StronglySorted (fun a b => (comp a b < 0)%Z) (values (heap (shared x)) ids).
  Proof.
    intros (pub & ch & Rr). pose proof (r_heap _ _ _ _ _ _ _ _ _ Rr) as I. destruct (chain_ids _ _ _ I) as (ids & E & N1 & N0). exists ids.
    pose proof (hi_seg _ _ _ _ I) as S. rewrite E in S. splits.
    - by apply seg_path.
    - rewrite (r_set _ _ _ _ _ _ _ _ _ Rr). by eapply absv_stored.
    - apply seg_app in S as [S _]. eapply values_sorted; [exact I| |exact S|done|done]. apply I.
  Qed.
  Lemma reaches_pub h pub ch i : HI h pub ch -> reaches h 0 i -> pub i.
  Proof.
    intros I Hr. remember 0 as z eqn:Ez. induction Hr as [i|i j k n l m Hr IH En El]; subst; [apply I|]. specialize (IH eq_refl).
    assert (E : lk h j l = Some (Some k, m)) by (apply lk_node; eauto). destruct (decide (j = 1)) as [->|N]; [by apply (hi_tailnil _ _ _ _ I) in E|].
    by destruct (hi_link _ _ _ _ I j l _ IH N E) as (? & [= <-] & ? & _).
  Qed.

  (** ** A measure that decreases along links *)
  Definition beats (h : heap_t) (i k : nat) : Prop := elt (key h i) (key h k) \/ (~ elt (key h k) (key h i) /\ k < i).
  Global Instance beats_dec h i k : Decision (beats h i k).
  Proof. unfold beats. destruct (elt_dec comp (key h i) (key h k)); [left; by left|]. destruct (elt_dec comp (key h k) (key h i)); [right; tauto|]. destruct (decide (k < i)); [left; by right|right; tauto]. Defined.
  Definition depth (h : heap_t) (i : nat) : nat := length (filter (beats h i) (seq 0 (length h))).
  Lemma filter_lt {A : Type} (P Q : A -> Prop) `{!forall x, Decision (P x), !forall x, Decision (Q x)} (l : list A) :
    (forall x, P x -> Q x) -> length (filter P l) <= length (filter Q l) /\ (forall x, x ∈ l -> Q x -> ~ P x -> length (filter P l) < length (filter Q l)).
  Proof.
    intros PQ. induction l as [|a l [IH1 IH2]]; [split; [done|]; intros x Hx; by apply elem_of_nil in Hx|].
    rewrite !filter_cons. split.
    - destruct (decide (P a)); [rewrite decide_True by auto; cbn; lia|]. destruct (decide (Q a)); cbn; lia.
    - intros x Hx HQ HP. apply elem_of_cons in Hx as [->|Hx].
      + rewrite decide_False by done. rewrite decide_True by done. cbn. lia.
      + specialize (IH2 x Hx HQ HP). destruct (decide (P a)); [rewrite decide_True by auto; cbn; lia|]. destruct (decide (Q a)); cbn; lia.
  Qed.
  Lemma depth_lt h l i j : ord comp h l i j -> j < length h -> depth h j < depth h i.
  Proof.
    intros O Lj. unfold depth. assert (B : beats h i j) by (destruct O as [O|(_ & O1 & _ & O2)]; [by left|by right]).
    apply (filter_lt (beats h j) (beats h i)) with (x := j).
    - intros k Bk. destruct B as [B|[B1 B2]], Bk as [C|[C1 C2]].
      + left. by eapply (elt_trans _ H).
      + left. by eapply (elt_le_trans _ H).
      + left. by eapply (le_elt_trans _ H).
      + right. split; [|lia]. intros F. apply C1. by eapply (elt_le_trans _ H).
    - apply elem_of_seq. lia.
    - done.
    - intros [F|[_ F]]; [by apply (elt_irrefl _ H) in F|lia].
  Qed.
  Lemma depth_le (h : heap_t) i : depth h i <= length h.
  Proof. unfold depth. etrans; [apply filter_length|]. by rewrite seq_length. Qed.
  Lemma depth_upd (h : heap_t) i l x k : depth (upd h i l x) k = depth h k.
  Proof.
    unfold depth. rewrite upd_length. f_equal. apply list_filter_iff. intros j. unfold beats. by rewrite !upd_key.
  Qed.
  (** the links of any level lead to the tail *)
  Lemma path_exists h pub ch l i : HI h pub ch -> pub i -> i <> 1 -> l < lvl h i -> exists ids, path h l i ids.
  Proof.
    intros I. remember (depth h i) as d eqn:Ed. revert i Ed. induction (lt_wf d) as [d _ IH]. intros i -> P N L.
    destruct (hi_lk _ _ _ _ i l I L) as [x E]. destruct (hi_link _ _ _ _ I i l x P N E) as (j & Ej & Pj & Nj & Lj & O).
    destruct x as [? m]. cbn in Ej. subst. apply lk_node in E as (n & En & El). destruct (decide (j = 1)) as [->|N1].
    - exists []. by eapply path_end.
    - destruct (IH (depth h j)) with (i := j) as [ids Pi]; [by eapply depth_lt, I|done|done|done|done|]. exists (j :: ids). by eapply path_hop.
  Qed.
End lf.
