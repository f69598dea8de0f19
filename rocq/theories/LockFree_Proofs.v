(** Lock-free skip list: keys, links, and the heap invariant. *)
From stdpp Require Import functions.
From stdpp Require Import list.
From Verif Require Import Base Lin_Spec LockFree_Model LockFree_Spec.

Section lf.
  Context {T : Type} (zero : T) (comp : T -> T -> Z) (H : cmp_ok comp).
  Notation node := (node T).
  Notation heap_t := (list node).

  (** ** Keys, with head below and tail above everything *)
  Inductive ekey := EMin | EVal (x : T) | EMax.
  Definition elt (a b : ekey) : Prop :=
    match a, b with
    | EMax, _ => False
    | _, EMin => False
    | EMin, _ => True
    | EVal _, EMax => True
    | EVal x, EVal y => (comp x y < 0)%Z
    end.
  Lemma elt_irrefl a : ~ elt a a.
  Proof. destruct a as [|x|]; cbn; [tauto| |tauto]. rewrite (cmp_refl comp H). lia. Qed.
  Lemma elt_trans a b c : elt a b -> elt b c -> elt a c.
  Proof. destruct a, b, c; cbn; try tauto. apply cmp_lt_trans; done. Qed.
  Lemma elt_le_trans a b c : elt a b -> ~ elt c b -> elt a c.
  Proof.
    destruct a as [|x|], b as [|y|], c as [|z|]; cbn; try tauto. intros H1 H2. apply (cmp_lt_le_trans comp H x y z); [done|].
    destruct (cmp_lt_gt comp H z y). pose proof (cmp_anti _ H y z). lia.
  Qed.
  Lemma le_elt_trans a b c : ~ elt b a -> elt b c -> elt a c.
  Proof.
    destruct a as [|x|], b as [|y|], c as [|z|]; cbn; try tauto. intros H1 H2. apply (cmp_le_lt_trans comp H x y z); [|done].
    pose proof (cmp_anti _ H x y). lia.
  Qed.
  Lemma le_trans a b c : ~ elt b a -> ~ elt c b -> ~ elt c a.
  Proof. intros H1 H2 H3. apply H2. by eapply elt_le_trans. Qed.
  Lemma elt_dec a b : {elt a b} + {~ elt a b}.
  Proof. destruct a, b; cbn; try (by left); try (by right; tauto). apply Z_lt_dec. Qed.
  Lemma eeq_val w v : ~ elt (EVal w) (EVal v) -> ~ elt (EVal v) (EVal w) -> comp w v = 0%Z.
  Proof. cbn. intros H1 H2. pose proof (cmp_anti _ H w v). lia. Qed.
  Lemma val_eeq w v : comp w v = 0%Z -> ~ elt (EVal w) (EVal v) /\ ~ elt (EVal v) (EVal w).
  Proof. cbn. intros E. pose proof (cmp_anti _ H w v). lia. Qed.

  (** ** Links *)
  Definition lk (h : heap_t) (i l : nat) : option link := h !! i ≫= fun n => nexts n !! l.
  Definition lvl (h : heap_t) (i : nat) : nat := default 0 (level <$> h !! i).
  Definition key (h : heap_t) (i : nat) : ekey :=
    if decide (i = 0) then EMin else if decide (i = 1) then EMax
    else match h !! i with Some n => EVal (value n) | None => EMax end.
  Definition alive (h : heap_t) (i : nat) : Prop := exists j, lk h i 0 = Some (j, false).
  Definition dead (h : heap_t) (i : nat) : Prop := exists j, lk h i 0 = Some (j, true).
  Global Instance alive_dec h i : Decision (alive h i).
  Proof.
    destruct (lk h i 0) as [[j [|]]|] eqn:E; [right|left|right]; unfold alive; rewrite E.
    - by intros [? ?].
    - by exists j.
    - by intros [? ?].
  Defined.
  Lemma alive_not_dead h i : alive h i -> dead h i -> False.
  Proof. intros [j E] [k F]. rewrite E in F. done. Qed.

  Definition upd (h : heap_t) (i l : nat) (x : link) : heap_t :=
    alter (fun n => Node (level n) (<[l := x]> (nexts n)) (value n)) i h.
  Lemma upd_length h i l x : length (upd h i l x) = length h.
  Proof. apply alter_length. Qed.
  Lemma upd_lookup h i l x i' : upd h i l x !! i' = (if decide (i' = i) then (fun n => Node (level n) (<[l := x]> (nexts n)) (value n)) <$> h !! i' else h !! i').
  Proof. unfold upd. destruct (decide (i' = i)) as [->|N]; [by rewrite list_lookup_alter|by rewrite list_lookup_alter_ne]. Qed.
  Lemma upd_lvl h i l x i' : lvl (upd h i l x) i' = lvl h i'.
  Proof. unfold lvl. rewrite upd_lookup. destruct (decide (i' = i)); [|done]. by destruct (h !! i'). Qed.
  Lemma upd_key h i l x i' : key (upd h i l x) i' = key h i'.
  Proof. unfold key. rewrite upd_lookup. destruct (decide (i' = 0)), (decide (i' = 1)); try done. destruct (decide (i' = i)); [|done]. by destruct (h !! i'). Qed.
  Lemma upd_lk h i l x i' l' : lk (upd h i l x) i' l' = (if decide (i' = i /\ l' = l) then (fun _ => x) <$> lk h i' l' else lk h i' l').
  Proof.
    unfold lk. rewrite upd_lookup. destruct (decide (i' = i)) as [->|N].
    - destruct (h !! i) as [n|] eqn:E; cbn; [|by destruct (decide _)].
      destruct (decide (l' = l)) as [->|N'].
      + rewrite decide_True by done. destruct (nexts n !! l) eqn:F; cbn.
        * apply list_lookup_insert. by eapply lookup_lt_Some.
        * apply lookup_ge_None in F. rewrite list_insert_ge by lia. by apply lookup_ge_None.
      + rewrite decide_False by tauto. by rewrite list_lookup_insert_ne.
    - rewrite decide_False by tauto. done.
  Qed.
  Lemma upd_lk_same h i l x y : lk h i l = Some y -> lk (upd h i l x) i l = Some x.
  Proof. intros E. rewrite upd_lk, decide_True, E by done. done. Qed.
  Lemma upd_lk_ne h i l x i' l' : i' <> i \/ l' <> l -> lk (upd h i l x) i' l' = lk h i' l'.
  Proof. intros N. rewrite upd_lk, decide_False by tauto. done. Qed.

  Lemma load_next_ok h i l x : lk h i l = Some x -> load_next h (Some i) l = Ok x.
  Proof. unfold lk, load_next. cbn. destruct (h !! i) as [n|]; cbn; [|done]. by intros ->. Qed.
  Lemma cas_ok h i l e d : lk h i l = Some e -> cas_next h (Some i) l e d = Ok (true, upd h i l d).
  Proof.
    unfold lk, cas_next. cbn. destruct (h !! i) as [n|] eqn:E; cbn; [|done]. intros ->. cbn. rewrite decide_True by done.
    do 2 f_equal. apply list_eq. intros k. rewrite upd_lookup. destruct (decide (k = i)) as [->|N].
    - rewrite E. cbn. apply list_lookup_insert. by eapply lookup_lt_Some.
    - by rewrite list_lookup_insert_ne.
  Qed.
  Lemma cas_fail h i l x e d : lk h i l = Some x -> x <> e -> cas_next h (Some i) l e d = Ok (false, h).
  Proof. unfold lk, cas_next. cbn. destruct (h !! i) as [n|] eqn:E; cbn; [|done]. intros -> N. cbn. by rewrite decide_False. Qed.
  Lemma less_ok h i v : i < length h -> exists b, less comp h (Some i) v = Ok b /\ (b = true <-> elt (key h i) (EVal v)).
  Proof.
    intros L. unfold less, key. destruct (decide (i = 0)) as [->|N0]; [by exists true|]. rewrite (decide_False (P := Some i = Some head)) by (intros [=]; done).
    destruct (decide (i = 1)) as [->|N1]; [by exists false|]. rewrite decide_False by (intros [=]; done).
    destruct (lookup_lt_is_Some_2 _ _ L) as [n E]. cbn. rewrite E. cbn. eexists. split; [done|]. by rewrite bool_decide_eq_true.
  Qed.
  Lemma equals_ok h i v : i < length h -> exists b, equals comp h (Some i) v = Ok b /\ (b = true <-> ~ elt (key h i) (EVal v) /\ ~ elt (EVal v) (key h i)).
  Proof.
    intros L. unfold equals, key. destruct (decide (i = 0)) as [->|N0]; [exists false; split; [done|]; cbn; split; [done|tauto]|].
    destruct (decide (i = 1)) as [->|N1]; [exists false; split; [done|]; cbn; split; [done|tauto]|].
    rewrite decide_False by (intros [[=]|[=]]; done).
    destruct (lookup_lt_is_Some_2 _ _ L) as [n E]. cbn. rewrite E. cbn. eexists. split; [done|]. rewrite bool_decide_eq_true.
    pose proof (cmp_anti _ H (value n) v). lia.
  Qed.

  (** ** The invariant of the heap: [pub] are the nodes that have been linked
      at level 0, [ch] the nodes from the successor of head to tail *)
  Definition ord (h : heap_t) (l i j : nat) : Prop :=
    elt (key h i) (key h j) \/ (0 < l /\ ~ elt (key h j) (key h i) /\ dead h j /\ j < i).
  Fixpoint seg (h : heap_t) (i : nat) (ids : list nat) : Prop :=
    match ids with
    | [] => True
    | j :: ids => (exists m, lk h i 0 = Some (Some j, m)) /\ seg h j ids
    end.
  Record HI (h : heap_t) (pub : nat -> Prop) (ch : list nat) : Prop := {
    hi_head : lvl h 0 = max_level;
    hi_tail : lvl h 1 = max_level;
    hi_len : forall i n, h !! i = Some n -> length (nexts n) = level n /\ 1 <= level n <= max_level;
    hi_pub0 : pub 0;
    hi_pub1 : pub 1;
    hi_pub : forall i, pub i -> i < length h;
    hi_tailnil : forall l x, lk h 1 l = Some x -> x = (None, false);
    hi_headlive : forall l x, lk h 0 l = Some x -> x.2 = false;
    hi_link : forall i l x, pub i -> i <> 1 -> lk h i l = Some x ->
      exists j, x.1 = Some j /\ pub j /\ j <> 0 /\ l < lvl h j /\ ord h l i j;
    hi_mark : forall i l l' x y, pub i -> lk h i l = Some (x, true) -> l <= l' -> lk h i l' = Some y -> y.2 = true;
    hi_seg : seg h 0 ch;
    hi_last : last ch = Some 1;
    hi_chpub : forall i, i ∈ ch -> pub i;
    hi_live : forall i, pub i -> alive h i -> i ∈ 0 :: ch;
  }.

  Lemma lk_some h i l : (forall n, h !! i = Some n -> length (nexts n) = level n) -> l < lvl h i -> exists x, lk h i l = Some x.
  Proof.
    unfold lvl, lk. intros L Hl. destruct (h !! i) as [n|] eqn:E; cbn in *; [|lia]. rewrite <-(L n) in Hl by done.
    by apply lookup_lt_is_Some_2.
  Qed.
  Lemma lk_lvl h i l x : (forall n, h !! i = Some n -> length (nexts n) = level n) -> lk h i l = Some x -> l < lvl h i.
  Proof.
    unfold lvl, lk. intros L Hl. destruct (h !! i) as [n|] eqn:E; cbn in *; [|done]. rewrite <-(L n) by done. by eapply lookup_lt_Some.
  Qed.
  Lemma hi_lk h pub ch i l : HI h pub ch -> l < lvl h i -> exists x, lk h i l = Some x.
  Proof. intros I. apply lk_some. intros n E. by destruct (hi_len _ _ _ I i n E). Qed.
  Lemma hi_lklvl h pub ch i l x : HI h pub ch -> lk h i l = Some x -> l < lvl h i.
  Proof. intros I. apply lk_lvl. intros n E. by destruct (hi_len _ _ _ I i n E). Qed.
  Lemma hi_lvl h pub ch i : HI h pub ch -> i < length h -> 1 <= lvl h i <= max_level.
  Proof. intros I L. unfold lvl. destruct (lookup_lt_is_Some_2 _ _ L) as [n E]. rewrite E. cbn. by destruct (hi_len _ _ _ I i n E). Qed.
  Lemma alive_or_dead h pub ch i : HI h pub ch -> i < length h -> alive h i \/ dead h i.
  Proof.
    intros I L. destruct (hi_lk _ _ _ i 0 I) as [[j [|]] E]; [pose proof (hi_lvl _ _ _ _ I L); lia| |]; [right|left]; by exists j.
  Qed.

  (** ** Sortedness of the chain *)
  Lemma seg_sorted h pub ch i : HI h pub ch -> forall ids, pub i -> seg h i ids -> Forall (fun j => elt (key h i) (key h j) /\ pub j) ids.
  Proof.
    intros I ids. revert i. induction ids as [|j ids IH]; intros i Pi S; [constructor|]. destruct S as [[m E] S].
    destruct (decide (i = 1)) as [->|N1]; [by apply (hi_tailnil _ _ _ I) in E|].
    destruct (hi_link _ _ _ I i 0 _ Pi N1 E) as (j' & [= <-] & Pj & _ & _ & [O|[O _]]); [|lia].
    constructor; [done|]. specialize (IH j Pj S). eapply Forall_impl; [exact IH|]. intros x [Hx ?]. split; [|done]. by eapply elt_trans.
  Qed.
  Lemma seg_app h i a b : seg h i (a ++ b) <-> seg h i a /\ seg h (default i (last a)) b.
  Proof.
    revert i. induction a as [|x a IH]; intros i; [cbn; tauto|]. cbn [app seg]. rewrite IH.
    assert (default i (last (x :: a)) = default x (last a)) as ->; [|tauto].
    destruct a as [|y a]; [done|]. rewrite last_cons_cons. destruct (last (y :: a)) eqn:E; [done|]. by apply last_None in E.
  Qed.
  (** a node of the chain that is not the tail, with its neighbours *)
  Lemma chain_split h pub ch i : HI h pub ch -> i ∈ 0 :: ch -> i <> 1 ->
    exists a j b, ch = a ++ j :: b /\ default 0 (last a) = i /\ (exists m, lk h i 0 = Some (Some j, m)).
  Proof.
    intros I Hi N. assert (exists a b, ch = a ++ b /\ default 0 (last a) = i) as (a & b & E & L).
    { apply elem_of_cons in Hi as [->|Hi]; [by exists [], ch|]. apply elem_of_list_split in Hi as (a & b & ->).
      exists (a ++ [i]), b. rewrite <-app_assoc. split; [done|]. by rewrite last_snoc. }
    destruct b as [|j b].
    { rewrite app_nil_r in E. subst a. rewrite (hi_last _ _ _ I) in L. cbn in L. congruence. }
    exists a, j, b. splits; [done|done|]. pose proof (hi_seg _ _ _ I) as S. rewrite E in S. apply seg_app in S as [_ S]. rewrite L in S. apply S.
  Qed.
  Lemma seg_last_sorted h pub ch a : HI h pub ch -> forall i, pub i -> seg h i a -> forall x, x ∈ i :: a ->
    x = default i (last a) \/ elt (key h x) (key h (default i (last a))).
  Proof.
    intros I. induction a as [|y a IH]; intros i Pi S x Hx.
    { apply elem_of_list_singleton in Hx as ->. by left. }
    pose proof (seg_sorted _ _ _ _ I _ Pi S) as F. apply Forall_cons in F as [[F1 Py] F].
    destruct S as [_ S]. assert (D : default i (last (y :: a)) = default y (last a)).
    { destruct a as [|z a]; [done|]. rewrite last_cons_cons. destruct (last (z :: a)) eqn:E; [done|]. by apply last_None in E. }
    rewrite D. specialize (IH y Py S). apply elem_of_cons in Hx as [->|Hx]; [|by apply IH].
    destruct (IH y ltac:(left)) as [G|G]; [rewrite <-G; by right|]. right. by eapply elt_trans.
  Qed.
  (** between a node of the chain and its successor there is nothing *)
  Lemma chain_gap h pub ch i j m x : HI h pub ch -> i ∈ 0 :: ch -> lk h i 0 = Some (Some j, m) -> x ∈ 0 :: ch ->
    x = i \/ elt (key h x) (key h i) \/ x = j \/ elt (key h j) (key h x).
  Proof.
    intros I Hi E Hx. assert (N : i <> 1). { intros ->. by apply (hi_tailnil _ _ _ I) in E. }
    destruct (chain_split _ _ _ _ I Hi N) as (a & j' & b & Ech & L & [m' E']). rewrite E in E'. injection E' as <- <-.
    pose proof (hi_seg _ _ _ I) as S. rewrite Ech in S. apply seg_app in S as [Sa Sb]. rewrite L in Sb.
    rewrite Ech in Hx. rewrite app_comm_cons in Hx. apply elem_of_app in Hx as [Hx|Hx].
    - destruct (seg_last_sorted _ _ _ a I 0 (hi_pub0 _ _ _ I) Sa x Hx) as [G|G]; rewrite L in G; tauto.
    - apply elem_of_cons in Hx as [->|Hx]; [tauto|]. do 3 right. destruct Sb as [_ Sb].
      assert (Pj : pub j). { apply (hi_chpub _ _ _ I). rewrite Ech. apply elem_of_app. right. left. }
      pose proof (seg_sorted _ _ _ _ I _ Pj Sb) as F. rewrite Forall_forall in F. by apply F.
  Qed.
  Lemma chain_nodup h pub ch : HI h pub ch -> NoDup (0 :: ch).
  Proof.
    intros I. assert (G : forall ids i, pub i -> seg h i ids -> NoDup (i :: ids)).
    { induction ids as [|j ids IH]; intros i Pi S; [apply NoDup_singleton|].
      pose proof (seg_sorted _ _ _ _ I _ Pi S) as F. constructor.
      - intros Hi. rewrite Forall_forall in F. destruct (F i Hi) as [F1 _]. by apply elt_irrefl in F1.
      - apply Forall_cons in F as [[_ Pj] _]. destruct S as [_ S]. by apply IH. }
    apply G; apply I.
  Qed.
  Lemma chain_pub h pub ch i : HI h pub ch -> i ∈ 0 :: ch -> pub i.
  Proof. intros I [->|Hi]%elem_of_cons; [apply I|by apply (hi_chpub _ _ _ I)]. Qed.
  Lemma chain_inj h pub ch i j : HI h pub ch -> i ∈ 0 :: ch -> j ∈ 0 :: ch -> ~ elt (key h i) (key h j) -> ~ elt (key h j) (key h i) -> i = j.
  Proof.
    intros I Hi Hj N1 N2. apply elem_of_list_split in Hi as (a & b & E).
    assert (G : forall ids i, pub i -> seg h i ids -> ForallOrdPairs (fun x y => elt (key h x) (key h y)) (i :: ids)).
    { induction ids as [|k ids IH]; intros k' Pi S; [repeat constructor|].
      pose proof (seg_sorted _ _ _ _ I _ Pi S) as F. constructor.
      - eapply List.Forall_impl; [|exact F]. by intros ? [].
      - apply Forall_cons in F as [[_ Pj] _]. destruct S as [_ S]. by apply IH. }
    specialize (G ch 0 (hi_pub0 _ _ _ I) (hi_seg _ _ _ I)). rewrite E in G, Hj.
    apply elem_of_app in Hj as [Hj|Hj].
    - exfalso. apply N2. clear -G Hj. induction a as [|x a IH]; [by apply elem_of_nil in Hj|]. inversion G as [|? ? F G']; subst.
      apply elem_of_cons in Hj as [->|Hj]; [|by apply IH]. rewrite List.Forall_forall in F. apply F. apply List.in_app_iff. right. by left.
    - apply elem_of_cons in Hj as [->|Hj]; [done|]. exfalso. apply N1.
      assert (G' : ForallOrdPairs (fun x y => elt (key h x) (key h y)) (i :: b)).
      { clear -G. induction a as [|x a IH]; [done|]. inversion G; subst. by apply IH. }
      inversion G' as [|? ? F _]; subst. rewrite List.Forall_forall in F. apply F. by apply elem_of_list_In.
  Qed.

  (** ** The abstract set *)
  Definition cell (h : heap_t) (i : nat) : option T :=
    if decide (i <> 1 /\ alive h i) then value <$> h !! i else None.
  Definition absv (h : heap_t) (ch : list nat) : list T := omap (cell h) ch.
  Lemma ch_no0 h pub ch : HI h pub ch -> 0 ∉ ch.
  Proof. intros I. pose proof (chain_nodup _ _ _ I) as N. by apply NoDup_cons in N as [? _]. Qed.
  Lemma cell_spec h i w : i <> 0 -> cell h i = Some w <-> i <> 1 /\ alive h i /\ key h i = EVal w /\ i < length h.
  Proof.
    intros N0. unfold cell, key. rewrite (decide_False (P := i = 0)) by done. destruct (decide (i = 1)) as [->|N1].
    { rewrite decide_False by (intros [? _]; done). split; [done|]. by intros [? _]. }
    destruct (decide (alive h i)) as [A|A].
    - rewrite decide_True by done. destruct (h !! i) as [n|] eqn:E; cbn.
      + split; [intros [= <-]; splits; try done; by eapply lookup_lt_Some|by intros (_ & _ & [= ->] & _)].
      + split; [done|]. intros (_ & _ & ? & L). apply lookup_lt_is_Some_2 in L as [? L]. by rewrite E in L.
    - rewrite decide_False by tauto. split; [done|tauto].
  Qed.
  Lemma elem_absv h pub ch w : HI h pub ch -> w ∈ absv h ch <-> exists i, i ∈ ch /\ i <> 1 /\ alive h i /\ key h i = EVal w.
  Proof.
    intros I. unfold absv. rewrite elem_of_list_omap. split.
    - intros (i & Hi & E). assert (N : i <> 0) by (intros ->; by apply (ch_no0 _ _ _ I)). apply cell_spec in E; [|done]. exists i. tauto.
    - intros (i & Hi & N1 & A & K). assert (N : i <> 0) by (intros ->; by apply (ch_no0 _ _ _ I)). exists i. split; [done|].
      apply cell_spec; [done|]. splits; try done. apply I. by apply (hi_chpub _ _ _ I).
  Qed.
  Lemma key_val h i : i <> 0 -> i <> 1 -> i < length h -> exists w, key h i = EVal w.
  Proof. intros N0 N1 L. unfold key. rewrite !decide_False by done. destruct (lookup_lt_is_Some_2 _ _ L) as [n E]. rewrite E. by eexists. Qed.
  Lemma alive_in_abs h pub ch i : HI h pub ch -> pub i -> alive h i -> i <> 0 -> i <> 1 -> exists w, key h i = EVal w /\ w ∈ absv h ch.
  Proof.
    intros I P A N0 N1. destruct (key_val h i N0 N1 (hi_pub _ _ _ I _ P)) as [w E]. exists w. split; [done|].
    apply (elem_absv _ _ _ _ I). exists i. splits; try done. pose proof (hi_live _ _ _ I i P A) as [?|?]%elem_of_cons; [done|done].
  Qed.
End lf.
