(** Lock-free skip list: every kind of write keeps the heap invariant. *)
From stdpp Require Import functions.
From stdpp Require Import list.
From Verif Require Import Base Lin_Spec LockFree_Model LockFree_Spec LockFree_Proofs.

Section lf.
  Context {T : Type} (zero : T) (comp : T -> T -> Z) (H : cmp_ok comp).
  Notation node := (node T).
  Notation heap_t := (list node).
  Notation HI := (HI comp).
  Notation ord := (ord comp).
  Notation elt := (elt comp).

  (** ** Simple updates *)
  Lemma upd_alive (h : heap_t) i l x i' : 0 < l -> alive (upd h i l x) i' <-> alive h i'.
  Proof. intros L. unfold alive. by rewrite upd_lk_ne by lia. Qed.
  Lemma upd_dead (h : heap_t) i l x i' : 0 < l -> dead (upd h i l x) i' <-> dead h i'.
  Proof. intros L. unfold dead. by rewrite upd_lk_ne by lia. Qed.
  Lemma seg_frame (h h' : heap_t) i ids : (forall x, x ∈ removelast (i :: ids) -> lk h' x 0 = lk h x 0) -> seg h i ids -> seg h' i ids.
  Proof.
    revert i. induction ids as [|j ids IH]; intros i F S; [done|]. destruct S as [S1 S2]. cbn [removelast] in F. split.
    - rewrite F; [done|]. left.
    - apply IH; [|done]. intros x Hx. apply F. by right.
  Qed.
  Lemma seg_frame_all (h h' : heap_t) i ids : (forall x, lk h' x 0 = lk h x 0) -> seg h i ids -> seg h' i ids.
  Proof. intros F. apply seg_frame. intros; apply F. Qed.
  Lemma absv_ext (h h' : heap_t) ch : (forall i, i ∈ ch -> cell h' i = cell h i) -> absv h' ch = absv h ch.
  Proof.
    unfold absv. induction ch as [|i ch IH]; intros F; [done|]. cbn. rewrite F by left.
    assert (omap (cell h') ch = omap (cell h) ch) as E by (apply IH; intros; apply F; by right).
    unfold omap, list_omap in E |- *. by rewrite E.
  Qed.
  Lemma upd_value (h : heap_t) i l x i' : value <$> (upd h i l x : heap_t) !! i' = value <$> h !! i'.
  Proof. rewrite upd_lookup. destruct (decide (i' = i)); [|done]. by destruct (h !! i'). Qed.
  Lemma cell_upd (h : heap_t) i l x i' : (alive (upd h i l x) i' <-> alive h i') -> cell (upd h i l x : heap_t) i' = cell h i'.
  Proof. intros A. unfold cell. rewrite upd_value. destruct (decide (i' <> 1 /\ alive h i')); [rewrite decide_True by tauto|rewrite decide_False by tauto]; done. Qed.
  Lemma upd_len (h : heap_t) i l x pub ch : HI h pub ch -> forall i' n, upd h i l x !! i' = Some n -> length (nexts n) = level n /\ 1 <= level n <= max_level.
  Proof.
    intros I i' n E. rewrite upd_lookup in E. destruct (decide (i' = i)).
    - destruct (h !! i') as [n'|] eqn:E'; [|done]. injection E as <-. cbn. rewrite insert_length. by apply (hi_len _ _ _ _ I i').
    - by apply (hi_len _ _ _ _ I i').
  Qed.
  Lemma ord_mono (h h' : heap_t) l i j : key h' i = key h i -> key h' j = key h j -> (dead h j -> dead h' j) -> ord h l i j -> ord h' l i j.
  Proof. intros E1 E2 D [O|(O1 & O2 & O3 & O4)]; unfold LockFree_Proofs.ord; rewrite E1, E2; [by left|right; splits; auto]. Qed.
  Lemma ord_trans (h : heap_t) l i j k : ord h l i j -> ord h l j k -> ord h l i k.
  Proof.
    intros [O|(O1 & O2 & O3 & O4)] [P|(P1 & P2 & P3 & P4)].
    - left. by eapply elt_trans.
    - left. by eapply elt_le_trans.
    - left. by eapply le_elt_trans.
    - right. splits; try done; [|lia]. by eapply le_trans.
  Qed.

  (** ** Writing an unmarked link on an upper level *)
  Lemma HI_write (h : heap_t) pub ch i l x j : HI h pub ch -> 0 < l -> pub i -> i <> 1 -> lk h i l = Some (x, false) ->
    pub j -> j <> 0 -> l < lvl h j -> ord h l i j -> HI (upd h i l (Some j, false)) pub ch.
  Proof.
    intros I L Pi N1 E Pj Nj Lj O. constructor.
    - rewrite upd_lvl. apply I.
    - rewrite upd_lvl. apply I.
    - by eapply upd_len.
    - apply I.
    - apply I.
    - intros i' P. rewrite upd_length. by apply I.
    - intros l' y. rewrite upd_lk_ne by (left; congruence). apply I.
    - intros l' y. rewrite upd_lk. destruct (decide _) as [[<- ->]|N]; [|by apply I]. rewrite E. by intros [= <-].
    - intros i' l' y P N F. assert (M : forall a b, ord h l' a b -> ord (upd h i l (Some j, false)) l' a b).
      { intros a b. apply ord_mono; [apply upd_key..|]. by rewrite upd_dead. }
      rewrite upd_lk in F. destruct (decide _) as [[-> ->]|N'].
      + rewrite E in F. injection F as <-. exists j. cbn. rewrite upd_lvl. splits; auto.
      + destruct (hi_link _ _ _ _ I i' l' y P N F) as (j' & ? & ? & ? & ? & ?). exists j'. rewrite upd_lvl. splits; auto.
    - intros i' l1 l2 a b P F Hl G. rewrite upd_lk in F. destruct (decide _) as [[-> ->]|N']; [by rewrite E in F|].
      rewrite upd_lk in G. destruct (decide _) as [[-> ->]|N'']; [|by eapply (hi_mark _ _ _ _ I)].
      exfalso. pose proof (hi_mark _ _ _ _ I i l1 l _ _ P F Hl E). done.
    - eapply seg_frame_all; [|apply I]. intros y. apply upd_lk_ne. lia.
    - apply I.
    - apply I.
    - intros i' P A. rewrite upd_alive in A by done. by apply (hi_live _ _ _ _ I).
  Qed.
  Lemma absv_upper (h : heap_t) ch i l x : 0 < l -> absv (upd h i l x : heap_t) ch = absv h ch.
  Proof. intros L. apply absv_ext. intros i' _. apply cell_upd. by apply upd_alive. Qed.

  (** ** Marking a link on an upper level *)
  Lemma HI_mark (h : heap_t) pub ch i l x : HI h pub ch -> 0 < l -> pub i -> i <> 0 -> i <> 1 -> lk h i l = Some (x, false) ->
    (forall l' y, l < l' -> lk h i l' = Some y -> y.2 = true) -> HI (upd h i l (x, true)) pub ch.
  Proof.
    intros I L Pi N0 N1 E U. constructor.
    - rewrite upd_lvl. apply I.
    - rewrite upd_lvl. apply I.
    - by eapply upd_len.
    - apply I.
    - apply I.
    - intros i' P. rewrite upd_length. by apply I.
    - intros l' y. rewrite upd_lk_ne by (left; congruence). apply I.
    - intros l' y. rewrite upd_lk_ne by (left; congruence). apply I.
    - intros i' l' y P N F. assert (M : forall a b, ord h l' a b -> ord (upd h i l (x, true)) l' a b).
      { intros a b. apply ord_mono; [apply upd_key..|]. by rewrite upd_dead. }
      rewrite upd_lk in F. destruct (decide _) as [[-> ->]|N'].
      + rewrite E in F. injection F as <-. destruct (hi_link _ _ _ _ I i l _ P N E) as (j' & ? & ? & ? & ? & ?). exists j'. rewrite upd_lvl. splits; auto.
      + destruct (hi_link _ _ _ _ I i' l' y P N F) as (j' & ? & ? & ? & ? & ?). exists j'. rewrite upd_lvl. splits; auto.
    - intros i' l1 l2 a b P F Hl G. rewrite upd_lk in G. destruct (decide _) as [[-> ->]|N']; [rewrite E in G; by injection G as <-|].
      rewrite upd_lk in F. destruct (decide _) as [[-> ->]|N'']; [|by eapply (hi_mark _ _ _ _ I)].
      eapply (U l2); [|done]. destruct (decide (l = l2)) as [->|]; [tauto|lia].
    - eapply seg_frame_all; [|apply I]. intros y. apply upd_lk_ne. lia.
    - apply I.
    - apply I.
    - intros i' P A. rewrite upd_alive in A by done. by apply (hi_live _ _ _ _ I).
  Qed.

  (** ** Marking the bottom link: the node is removed from the set *)
  Lemma mark0_alive (h : heap_t) i x i' : lk h i 0 = Some (x, false) -> alive (upd h i 0 (x, true) : heap_t) i' <-> alive h i' /\ i' <> i.
  Proof.
    intros E. unfold alive. destruct (decide (i' = i)) as [->|N].
    - rewrite (upd_lk_same _ _ _ _ _ E). split; [by intros [? [= ?]]|tauto].
    - rewrite upd_lk_ne by tauto. tauto.
  Qed.
  Lemma mark0_dead (h : heap_t) i x i' : lk h i 0 = Some (x, false) -> dead (upd h i 0 (x, true) : heap_t) i' <-> dead h i' \/ i' = i.
  Proof.
    intros E. unfold dead. destruct (decide (i' = i)) as [->|N].
    - rewrite (upd_lk_same _ _ _ _ _ E). split; [tauto|]. intros _. by exists x.
    - rewrite upd_lk_ne by tauto. tauto.
  Qed.
  Lemma HI_mark0 (h : heap_t) pub ch i x : HI h pub ch -> pub i -> i <> 0 -> i <> 1 -> lk h i 0 = Some (x, false) ->
    (forall l' y, 0 < l' -> lk h i l' = Some y -> y.2 = true) -> HI (upd h i 0 (x, true)) pub ch.
  Proof.
    intros I Pi N0 N1 E U. constructor.
    - rewrite upd_lvl. apply I.
    - rewrite upd_lvl. apply I.
    - by eapply upd_len.
    - apply I.
    - apply I.
    - intros i' P. rewrite upd_length. by apply I.
    - intros l' y. rewrite upd_lk_ne by (left; congruence). apply I.
    - intros l' y. rewrite upd_lk_ne by (left; congruence). apply I.
    - intros i' l' y P N F. assert (M : forall a b, ord h l' a b -> ord (upd h i 0 (x, true)) l' a b).
      { intros a b. apply ord_mono; [apply upd_key..|]. rewrite (mark0_dead _ _ _ _ E). tauto. }
      rewrite upd_lk in F. destruct (decide _) as [[-> ->]|N'].
      + rewrite E in F. injection F as <-. destruct (hi_link _ _ _ _ I i 0 _ P N E) as (j' & ? & ? & ? & ? & ?). exists j'. rewrite upd_lvl. splits; auto.
      + destruct (hi_link _ _ _ _ I i' l' y P N F) as (j' & ? & ? & ? & ? & ?). exists j'. rewrite upd_lvl. splits; auto.
    - intros i' l1 l2 a b P F Hl G. rewrite upd_lk in G. destruct (decide _) as [[-> ->]|N']; [rewrite E in G; by injection G as <-|].
      rewrite upd_lk in F. destruct (decide _) as [[-> ->]|N'']; [|by eapply (hi_mark _ _ _ _ I)].
      eapply (U l2); [|done]. destruct (decide (0 = l2)) as [<-|]; [tauto|lia].
    - assert (forall ids k, seg h k ids -> seg (upd h i 0 (x, true)) k ids) as S; [|apply S, I].
      induction ids as [|j ids IH]; intros k S; [done|]. destruct S as [[m S1] S2]. split; [|by apply IH].
      rewrite upd_lk. destruct (decide _) as [[-> _]|_]; [|by exists m]. rewrite E in S1. injection S1 as -> <-. rewrite E. by exists true.
    - apply I.
    - apply I.
    - intros i' P A. apply (mark0_alive _ _ _ _ E) in A as [A _]. by apply (hi_live _ _ _ _ I).
  Qed.
  Lemma omap_perm_remove {A B} (f g : A -> option B) (l : list A) x y : NoDup l -> x ∈ l -> f x = Some y -> g x = None ->
    (forall z, z <> x -> g z = f z) -> omap f l ≡ₚ y :: omap g l.
  Proof.
    intros N Hx Fx Gx E. apply elem_of_list_split in Hx as (a & b & ->).
    assert (S : forall c : list A, x ∉ c -> omap g c = omap f c).
    { induction c as [|z c IH]; intros Nx; [done|]. cbn. rewrite E by (intros ->; apply Nx; left).
      assert (omap g c = omap f c) as E' by (apply IH; intros ?; apply Nx; by right). unfold omap, list_omap in E' |- *. by rewrite E'. }
    apply NoDup_app in N as (N1 & N2 & N3). apply NoDup_cons in N3 as [N3 N4].
    rewrite !omap_app. rewrite (S a) by (intros Ha; apply (N2 x Ha); left).
    change (omap f (x :: b)) with (match f x with Some y => y :: omap f b | None => omap f b end).
    change (omap g (x :: b)) with (match g x with Some y => y :: omap g b | None => omap g b end).
    rewrite Fx, Gx, (S b N3). symmetry. apply Permutation_middle.
  Qed.
  Lemma absv_mark0 (h : heap_t) pub ch i x : HI h pub ch -> pub i -> i <> 0 -> i <> 1 -> lk h i 0 = Some (x, false) ->
    exists w, key h i = EVal w /\ absv h ch ≡ₚ w :: absv (upd h i 0 (x, true)) ch.
  Proof.
    intros I P N0 N1 E. assert (A : alive h i) by by exists x. destruct (key_val h i N0 N1 (hi_pub _ _ _ _ I _ P)) as [w K].
    exists w. split; [done|]. unfold absv. apply (omap_perm_remove _ _ _ i).
    - pose proof (chain_nodup _ H _ _ _ I) as ND. by apply NoDup_cons in ND as [_ ?].
    - pose proof (hi_live _ _ _ _ I i P A) as [?|?]%elem_of_cons; done.
    - apply cell_spec; [done|]. splits; try done. by apply I.
    - unfold cell. rewrite decide_False; [done|]. rewrite (mark0_alive _ _ _ _ E). tauto.
    - intros z Nz. apply cell_upd. rewrite (mark0_alive _ _ _ _ E). tauto.
  Qed.

  (** ** Unlinking a removed node at the bottom *)
  Lemma snip0_alive (h : heap_t) i y y' i' : lk h i 0 = Some (y, false) -> alive (upd h i 0 (y', false) : heap_t) i' <-> alive h i'.
  Proof.
    intros E. unfold alive. destruct (decide (i' = i)) as [->|N].
    - rewrite (upd_lk_same _ _ _ _ _ E), E. split; intros _; by eexists.
    - by rewrite upd_lk_ne by tauto.
  Qed.
  Lemma snip0_dead (h : heap_t) i y y' i' : lk h i 0 = Some (y, false) -> dead (upd h i 0 (y', false) : heap_t) i' <-> dead h i'.
  Proof.
    intros E. unfold dead. destruct (decide (i' = i)) as [->|N].
    - rewrite (upd_lk_same _ _ _ _ _ E), E. split; by intros [? [=]].
    - by rewrite upd_lk_ne by tauto.
  Qed.
  Lemma seg_upd (h : heap_t) i x k ids : i ∉ removelast (k :: ids) -> seg h k ids -> seg (upd h i 0 x : heap_t) k ids.
  Proof. intros N. apply seg_frame. intros z Hz. apply upd_lk_ne. left. intros ->. done. Qed.
  Lemma removelast_app_last (a : list nat) k : removelast (k :: a) ++ [default k (last a)] = k :: a.
  Proof.
    revert k. induction a as [|x a IH]; intros k; [done|]. change (removelast (k :: x :: a)) with (k :: removelast (x :: a)). cbn [app]. f_equal.
    assert (default k (last (x :: a)) = default x (last a)) as ->; [|apply IH].
    destruct a as [|y a]; [done|]. rewrite last_cons_cons. destruct (last (y :: a)) eqn:E; [done|]. by apply last_None in E.
  Qed.
  (** splitting the chain at [i]: [i] occurs nowhere else *)
  Lemma chain_at (h : heap_t) pub ch i j m : HI h pub ch -> i ∈ 0 :: ch -> lk h i 0 = Some (Some j, m) ->
    exists a b, ch = a ++ j :: b /\ default 0 (last a) = i /\ i ∉ removelast (0 :: a) /\ i ∉ j :: b /\ seg h 0 a /\ seg h j b.
  Proof.
    intros I Hi E. assert (N : i <> 1). { intros ->. by apply (hi_tailnil _ _ _ _ I) in E. }
    destruct (chain_split _ _ _ _ _ I Hi N) as (a & j' & b & Ech & L & [m' E']). rewrite E in E'. injection E' as <- <-.
    pose proof (chain_nodup _ H _ _ _ I) as ND. rewrite Ech in ND. rewrite app_comm_cons, <-(removelast_app_last a 0), L in ND.
    pose proof (hi_seg _ _ _ _ I) as S. rewrite Ech in S. apply seg_app in S as [Sa Sb]. rewrite L in Sb. destruct Sb as [_ Sb].
    exists a, b. rewrite <-app_assoc in ND. apply NoDup_app in ND as (_ & N1 & N2). cbn in N2. apply NoDup_cons in N2 as [N2 _].
    splits; try done. intros Hr. apply (N1 i Hr). left.
  Qed.
  Lemma HI_snip0 (h : heap_t) pub ch i c n : HI h pub ch -> pub i -> lk h i 0 = Some (Some c, false) -> lk h c 0 = Some (Some n, true) ->
    exists ch', HI (upd h i 0 (Some n, false)) pub ch' /\ absv (upd h i 0 (Some n, false)) ch' = absv h ch.
  Proof.
    intros I Pi Ei Ec. assert (Ai : alive h i) by by exists (Some c). pose proof (hi_live _ _ _ _ I i Pi Ai) as Hi.
    assert (Ni : i <> 1). { intros ->. by apply (hi_tailnil _ _ _ _ I) in Ei. }
    destruct (chain_at _ _ _ _ _ _ I Hi Ei) as (a & b & Ech & L & Na & Nb & Sa & Sb).
    assert (Hc : c ∈ ch). { rewrite Ech. apply elem_of_app. right. left. }
    assert (Nc : c <> 1). { intros ->. by apply (hi_tailnil _ _ _ _ I) in Ec. }
    destruct b as [|n' b].
    { pose proof (hi_last _ _ _ _ I) as La. rewrite Ech, last_snoc in La. congruence. }
    destruct Sb as [[m Ec'] Sb]. rewrite Ec in Ec'. injection Ec' as <- <-.
    destruct (hi_link _ _ _ _ I i 0 _ Pi Ni Ei) as (? & [= <-] & Pc & Nc0 & _ & [Oc|[? _]]); [|lia].
    destruct (hi_link _ _ _ _ I c 0 _ Pc Nc Ec) as (? & [= <-] & Pn & Nn0 & Ln & [On|[? _]]); [|lia].
    exists (a ++ n :: b). split.
    - constructor.
      + rewrite upd_lvl. apply I.
      + rewrite upd_lvl. apply I.
      + by eapply upd_len.
      + apply I.
      + apply I.
      + intros i' P. rewrite upd_length. by apply I.
      + intros l' y. rewrite upd_lk_ne by (left; congruence). apply I.
      + intros l' y. rewrite upd_lk. destruct (decide _) as [[<- ->]|N]; [|by apply I]. rewrite Ei. by intros [= <-].
      + intros i' l' y P N F. assert (M : forall a b, ord h l' a b -> ord (upd h i 0 (Some n, false)) l' a b).
        { intros a' b'. apply ord_mono; [apply upd_key..|]. by rewrite (snip0_dead _ _ _ _ _ Ei). }
        rewrite upd_lk in F. destruct (decide _) as [[-> ->]|N'].
        * rewrite Ei in F. injection F as <-. exists n. cbn. rewrite upd_lvl. splits; try done. apply M. left. by eapply elt_trans.
        * destruct (hi_link _ _ _ _ I i' l' y P N F) as (j' & ? & ? & ? & ? & ?). exists j'. rewrite upd_lvl. splits; auto.
      + intros i' l1 l2 x y P F Hl G. rewrite upd_lk in F. destruct (decide _) as [[-> ->]|N']; [by rewrite Ei in F|].
        rewrite upd_lk in G. destruct (decide _) as [[-> ->]|N'']; [|by eapply (hi_mark _ _ _ _ I)].
        exfalso. pose proof (hi_mark _ _ _ _ I i l1 0 _ _ P F Hl Ei). done.
      + apply seg_app. rewrite L. split; [by apply seg_upd|]. split.
        * rewrite (upd_lk_same _ _ _ _ _ Ei). by exists false.
        * apply seg_upd; [|done]. intros Hr. apply Nb. right. rewrite <-(removelast_app_last b n). apply elem_of_app. by left.
      + pose proof (hi_last _ _ _ _ I) as La. rewrite Ech in La. rewrite last_app in La |- *. rewrite last_cons_cons in La. done.
      + intros k Hk. apply (hi_chpub _ _ _ _ I). rewrite Ech. apply elem_of_app in Hk as [Hk|Hk]; apply elem_of_app; [by left|right; by right].
      + intros k Pk A. apply (snip0_alive _ _ _ _ _ Ei) in A. pose proof (hi_live _ _ _ _ I k Pk A) as Hk.
        rewrite Ech in Hk. apply elem_of_cons in Hk as [->|Hk]; [left|right].
        apply elem_of_app in Hk as [Hk|Hk]; apply elem_of_app; [by left|right].
        apply elem_of_cons in Hk as [->|Hk]; [|done]. destruct A as [z A]. by rewrite Ec in A.
    - rewrite Ech. unfold absv. rewrite !omap_app. f_equal.
      + apply absv_ext. intros k _. apply cell_upd. by apply (snip0_alive _ _ _ _ _ Ei).
      + change (omap (cell h) (c :: n :: b)) with (match cell h c with Some y => y :: omap (cell h) (n :: b) | None => omap (cell h) (n :: b) end).
        assert (cell h c = None) as ->.
        { unfold cell. rewrite decide_False; [done|]. intros [_ [z A]]. by rewrite Ec in A. }
        apply (absv_ext h _ (n :: b)). intros k _. apply cell_upd. by apply (snip0_alive _ _ _ _ _ Ei).
  Qed.

  (** ** Publishing a new node *)
  Lemma HI_insert (h : heap_t) pub ch i nx new v :
    HI h pub ch -> pub i -> lk h i 0 = Some (Some nx, false) -> ~ pub new -> new < length h -> key h new = EVal v ->
    lk h new 0 = Some (Some nx, false) -> elt (key h i) (EVal v) -> elt (EVal v) (key h nx) ->
    (forall l x, lk h new l = Some x -> exists j, x = (Some j, false) /\ pub j /\ j <> 0 /\ l < lvl h j /\ ~ elt (key h j) (EVal v) /\ j < new) ->
    exists ch', HI (upd h i 0 (Some new, false)) (fun k => pub k \/ k = new) ch' /\ absv (upd h i 0 (Some new, false)) ch' ≡ₚ v :: absv h ch
      /\ ~ present comp (absv h ch) v.
  Proof.
    intros I Pi Ei Pnew Lnew Knew E0 O1 O2 U.
    assert (Ai : alive h i) by by exists (Some nx). pose proof (hi_live _ _ _ _ I i Pi Ai) as Hi.
    assert (Ni : i <> 1). { intros ->. by apply (hi_tailnil _ _ _ _ I) in Ei. }
    assert (Nn0 : new <> 0). { intros ->. apply Pnew, I. } assert (Nn1 : new <> 1). { intros ->. apply Pnew, I. }
    assert (Nni : new <> i). { intros ->. done. }
    destruct (chain_at _ _ _ _ _ _ I Hi Ei) as (a & b & Ech & L & Na & Nb & Sa & Sb).
    destruct (hi_link _ _ _ _ I i 0 _ Pi Ni Ei) as (? & [= <-] & Px & Nx0 & Lx & [Ox|[? _]]); [|lia].
    set (h' := upd h i 0 (Some new, false)).
    assert (Al : forall k, alive h' k <-> alive h k) by (intros k; by apply (snip0_alive _ _ _ _ _ Ei)).
    assert (De : forall k, dead h' k <-> dead h k) by (intros k; by apply (snip0_dead _ _ _ _ _ Ei)).
    assert (Gap : forall k, k ∈ 0 :: ch -> elt (key h k) (EVal v) \/ elt (EVal v) (key h k)).
    { intros k Hk. destruct (chain_gap _ H _ _ _ _ _ _ k I Hi Ei Hk) as [->|[G|[->|G]]]; [by left| |by right|].
      - left. eapply elt_trans; done.
      - right. eapply elt_trans; done. }
    assert (Anew : alive h new) by (by eexists).
    assert (Nnew : new ∉ a ++ nx :: b). { intros Hn. apply Pnew. apply (hi_chpub _ _ _ _ I). by rewrite Ech. }
    exists (a ++ new :: nx :: b). splits.
    - constructor.
      + unfold h'. rewrite upd_lvl. apply I.
      + unfold h'. rewrite upd_lvl. apply I.
      + by eapply upd_len.
      + left. apply I.
      + left. apply I.
      + intros i' P. unfold h'. rewrite upd_length. destruct P as [P| ->]; [by apply I|done].
      + intros l' y. unfold h'. rewrite upd_lk_ne by (left; congruence). apply I.
      + intros l' y. unfold h'. rewrite upd_lk. destruct (decide _) as [[<- ->]|N]; [|by apply I]. rewrite Ei. by intros [= <-].
      + intros i' l' y P N F. assert (M : forall a b, ord h l' a b -> ord h' l' a b).
        { intros a' b'. apply ord_mono; [apply upd_key..|]. apply De. }
        unfold h' in F. rewrite upd_lk in F. destruct (decide _) as [[-> ->]|N'].
        * rewrite Ei in F. injection F as <-. exists new. cbn. unfold h'. rewrite upd_lvl. splits; try done; [by right| |].
          -- eapply hi_lklvl; done.
          -- apply M. left. by rewrite Knew.
        * destruct P as [P| ->].
          -- destruct (hi_link _ _ _ _ I i' l' y P N F) as (j' & ? & ? & ? & ? & ?). exists j'. unfold h'. rewrite upd_lvl. splits; auto.
          -- destruct (U l' y F) as (j & -> & Pj & Nj & Lj & Oj & Hj). exists j. unfold h'. rewrite upd_lvl. splits; auto. apply M.
             destruct (elt_dec comp (EVal v) (key h j)) as [?|Ge]; [left; by rewrite Knew|]. right. rewrite Knew. splits; try done.
             ++ destruct l'; [|lia]. rewrite E0 in F. injection F as <-. done.
             ++ destruct (alive_or_dead _ _ _ _ _ I (hi_pub _ _ _ _ I _ Pj)) as [A|D]; [|done].
                destruct (Gap j (hi_live _ _ _ _ I j Pj A)); tauto.
      + intros i' l1 l2 x y P F Hl G. unfold h' in F, G. rewrite upd_lk in F. destruct (decide _) as [[-> ->]|N']; [by rewrite Ei in F|].
        destruct P as [P| ->]; [|destruct (U l1 _ F) as (? & [=] & _)].
        rewrite upd_lk in G. destruct (decide _) as [[-> ->]|N'']; [|by eapply (hi_mark _ _ _ _ I)].
        exfalso. pose proof (hi_mark _ _ _ _ I i l1 0 _ _ P F Hl Ei). done.
      + apply seg_app. rewrite L. split; [by apply seg_upd|]. split; [|split].
        * unfold h'. rewrite (upd_lk_same _ _ _ _ _ Ei). by exists false.
        * unfold h'. rewrite upd_lk_ne by tauto. by exists false.
        * apply seg_upd; [|done]. intros Hr. apply Nb. rewrite <-(removelast_app_last b nx). apply elem_of_app. by left.
      + pose proof (hi_last _ _ _ _ I) as La. rewrite Ech in La. rewrite last_app in La |- *. rewrite last_cons_cons. done.
      + intros k Hk. apply elem_of_app in Hk as [Hk|[->|Hk]%elem_of_cons]; [left|by right|left]; apply (hi_chpub _ _ _ _ I); rewrite Ech; apply elem_of_app; [by left|by right].
      + intros k Pk A. apply Al in A. destruct Pk as [Pk| ->].
        * pose proof (hi_live _ _ _ _ I k Pk A) as Hk. rewrite Ech in Hk. apply elem_of_cons in Hk as [->|Hk]; [left|right].
          apply elem_of_app in Hk as [Hk|Hk]; apply elem_of_app; [by left|right]. by right.
        * right. apply elem_of_app. right. left.
    - rewrite Ech. unfold absv. rewrite !omap_app.
      change (omap (cell h') (new :: nx :: b)) with (match cell h' new with Some y => y :: omap (cell h') (nx :: b) | None => omap (cell h') (nx :: b) end).
      assert (cell h' new = Some v) as ->.
      { apply cell_spec; [done|]. splits; try done; [by apply Al| |]; unfold h'; [by rewrite upd_key|by rewrite upd_length]. }
      assert (C : forall k, cell h' k = cell h k) by (intros k; apply cell_upd, Al).
      assert (E1 : omap (cell h') a = omap (cell h) a) by (apply (absv_ext h h' a); intros; apply C).
      assert (E2 : omap (cell h') (nx :: b) = omap (cell h) (nx :: b)) by (apply (absv_ext h h' (nx :: b)); intros; apply C).
      rewrite E1, E2. symmetry. apply Permutation_middle.
    - intros (w & Hw & E). apply (elem_absv _ H _ _ _ _ I) in Hw as (k & Hk & _ & _ & K).
      destruct (val_eeq _ H _ _ E) as [E1 E2]. destruct (Gap k) as [G|G]; [by right|rewrite K in G; done..].
  Qed.

  (** ** Allocation *)
  Lemma alloc_lk (h : heap_t) (n : node) i l : i < length h -> lk (h ++ [n]) i l = lk h i l.
  Proof. intros L. unfold lk. by rewrite lookup_app_l. Qed.
  Lemma alloc_key (h : heap_t) (n : node) i : i < length h -> key (h ++ [n]) i = key h i.
  Proof. intros L. unfold key. by rewrite lookup_app_l. Qed.
  Lemma alloc_lvl (h : heap_t) (n : node) i : i < length h -> lvl (h ++ [n]) i = lvl h i.
  Proof. intros L. unfold lvl. by rewrite lookup_app_l. Qed.
  Lemma HI_alloc (h : heap_t) pub ch n : HI h pub ch -> length (nexts n) = level n -> 1 <= level n <= max_level -> HI (h ++ [n]) pub ch.
  Proof.
    intros I L1 L2. assert (Pl : forall i, pub i -> i < length h) by apply I. pose proof (Pl 0 ltac:(apply I)). pose proof (Pl 1 ltac:(apply I)). constructor.
    - rewrite alloc_lvl by done. apply I.
    - rewrite alloc_lvl by done. apply I.
    - intros i m E. apply lookup_app_Some in E as [E|[_ E]]; [by apply (hi_len _ _ _ _ I i)|].
      apply list_lookup_singleton_Some in E as [_ <-]. done.
    - apply I.
    - apply I.
    - intros i P. rewrite app_length. specialize (Pl i P). lia.
    - intros l x. rewrite alloc_lk by done. apply I.
    - intros l x. rewrite alloc_lk by done. apply I.
    - intros i l x P N E. rewrite alloc_lk in E by auto. destruct (hi_link _ _ _ _ I i l x P N E) as (j & ? & Pj & ? & ? & O). exists j.
      rewrite alloc_lvl by auto. splits; try done. revert O. apply ord_mono; [by rewrite alloc_key by auto..|]. unfold dead. by rewrite alloc_lk by auto.
    - intros i l l' x y P. rewrite !alloc_lk by auto. by apply (hi_mark _ _ _ _ I).
    - assert (forall ids k, pub k -> seg h k ids -> seg (h ++ [n]) k ids) as S; [|apply S; apply I].
      induction ids as [|j ids IH]; intros k Pk S; [done|]. pose proof S as S'. destruct S as [S1 S2]. split; [by rewrite alloc_lk by auto|].
      apply IH; [|done]. pose proof (seg_sorted _ H _ _ _ _ I _ Pk S') as F. by apply Forall_cons in F as [[_ ?] _].
    - apply I.
    - apply I.
    - intros i P A. apply (hi_live _ _ _ _ I); [done|]. unfold alive in *. by rewrite alloc_lk in A by auto.
  Qed.
  Lemma absv_alloc (h : heap_t) pub ch n : HI h pub ch -> absv (h ++ [n]) ch = absv h ch.
  Proof.
    intros I. apply absv_ext. intros i Hi. assert (L : i < length h) by (apply I; by apply (hi_chpub _ _ _ _ I)).
    assert (A : alive (h ++ [n]) i <-> alive h i) by (unfold alive; by rewrite alloc_lk).
    unfold cell. rewrite lookup_app_l by done. destruct (decide (i <> 1 /\ alive h i)); [rewrite decide_True by tauto|rewrite decide_False by tauto]; done.
  Qed.
End lf.
