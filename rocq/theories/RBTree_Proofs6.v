(** Linking a new node and removing a node, for any comparator. *)
From Verif Require Import Base RBTree_Model RBTree_Spec RBTree_Proofs RBTree_Proofs2 RBTree_Proofs3 RBTree_Proofs4 RBTree_Proofs5.

Section ops.
  Context {K V : Type}.
  Notation btree := (btree K V).
  Notation heap := (heap K V).
  Notation frame := (frame K V).
  Implicit Types (h : heap) (t a b : btree) (C D : list frame).

  Definition leafish (b : btree) : Prop := b = Leaf \/ exists l k v, b = T Red l k v Leaf Leaf.

  Lemma bh0_leafish b : bh b 0 -> no_red_red b -> leafish b.
  Proof.
    destruct b as [|[] l k v x y]; intros H1 H2; [by left| |].
    - right. exists l, k, v. simpl in *. destruct H1 as [H1 H3]. destruct H2 as (H2 & H4 & H5). destruct (H2 eq_refl) as [E1 E2].
      assert (x = Leaf) as ->. { destruct x as [|[]]; try done. by destruct H1 as (? & ? & _). }
      assert (y = Leaf) as ->. { destruct y as [|[]]; try done. by destruct H3 as (? & ? & _). }
      done.
    - by destruct H1 as (? & ? & _).
  Qed.
  Lemma leafish_bh b : leafish b -> forall n, bh b n -> n = 0.
  Proof. intros [->|(l & k & v & ->)] n; simpl; tauto. Qed.

  Lemma link_empty h n fuel : is_tree h (Leaf : btree) -> n <> 0 -> 0 < fuel ->
    exists h', link fuel h None n = Ok h' /\
      is_tree h' (T Black n (key (h n)) (val (h n)) Leaf Leaf) /\
      left (h' 0) = Some n /\ right (h' 0) = Some n /\ key (h' 0) = key (h 0) /\
      (forall x, x <> 0 -> x <> n -> h' x = h x).
  Proof.
    intros H Hn Hf. destruct fuel as [|fuel]; [lia|]. unfold link. cbn [wr rbind hdr put_rebalanced rd].
    ev. rewrite decide_True by done. unfold put_done. cbn [rd rbind hdr]. ev. cbn [wr].
    eexists. split; [reflexivity|]. split; [split; [|split]|].
    - ev. done.
    - simpl. ev. done.
    - apply NoDup_cons. split; [|apply NoDup_singleton]. unfold locs; simpl. set_solver.
    - splits; [by ev|by ev|by ev|]. intros x H0 Hx. ev. done.
  Qed.

  Lemma link_ok h C c p kp vp a b n fuel :
    is_tree h (plug C (T c p kp vp a b)) -> red_black (plug C (T c p kp vp a b)) -> leafish b ->
    n ∉ 0 :: locs (plug C (T c p kp vp a b)) -> height (plug C (T c p kp vp a b)) + 2 <= fuel ->
    exists h' t', link fuel h (Some p) n = Ok h' /\ is_tree h' t' /\ red_black t' /\
      io t' = iol C ++ io a ++ (p, (kp, vp)) :: (n, (key (h n), val (h n))) :: ior C /\
      left (h' 0) = left (h 0) /\
      right (h' 0) = (if decide (right (h 0) = Some p) then Some n else right (h 0)) /\ key (h' 0) = key (h 0) /\
      (forall x, x ∉ n :: 0 :: locs (plug C (T c p kp vp a b)) -> h' x = h x).
  Proof.
    intros H Hrb Hb Hn Hf.
    assert (P1 : 0 :: locs (plug C (T c p kp vp a b)) ≡ₚ 0 :: p :: locs a ++ locs b ++ clocs C).
    { rewrite locs_plug', !locs_T. solve_Permutation. }
    pose proof Hn as Hn'. rewrite P1, !not_elem_of_cons, !not_elem_of_app in Hn'. destruct Hn' as (Hn0 & Hnp & Hna & Hnb & HnC).
    assert (Hnd : NoDup (0 :: p :: locs a ++ locs b ++ clocs C)) by (rewrite <- P1; apply H).
    pose proof Hnd as Hnd'. rewrite !NoDup_cons, !not_elem_of_cons, !not_elem_of_app in Hnd'. destruct Hnd' as ((Hp0 & Ha0 & Hb0 & HC0) & (Hpa & Hpb & HpC) & Hnd').
    apply NoDup_app in Hnd' as (Nda & Hda & Hnd'). apply NoDup_app in Hnd' as (Ndb & Hdb & NdC).
    assert (Hp0' : p <> 0) by congruence.
    pose proof (tree_rd _ _ _ _ _ _ _ _ H) as Hp.
    assert (HC : holdsC h (Some p) C /\ holds h (Some p) a).
    { destruct H as (_ & H & _). apply holds_plug in H as [H1 H2]. simpl in *. tauto. }
    set (h1 := <[p := set_right (Some n) (h p)]> (<[n := Node Red (Some p) None None (key (h n)) (val (h n))]>
                (<[0 := if decide (right (h 0) = Some p) then set_right (Some n) (h 0) else h 0]> h)) : heap).
    assert (E1 : exists h2 : heap, (forall x, h2 x = h1 x) /\
      link fuel h (Some p) n = put_rebalanced fuel h2 (Some n)).
    { unfold link. cbn [wr rbind hdr]. rewrite decide_False by lia. unfold h1.
      assert (E0 : (<[n:=set_parent (Some p) (h n)]> h : heap) 0 = h 0) by (by ev). rewrite E0.
      case_decide; cbn [wr rbind]; (eexists; split; [|reflexivity]); intros x;
        (destruct (decide (x = n)) as [->|]; [by ev|]); (destruct (decide (x = p)) as [->|]; [by ev|]); (destruct (decide (x = 0)) as [->|]; by ev). }
    destruct E1 as (h2 & Eh & ->).
    assert (Ehn : h2 n = Node Red (Some p) None None (key (h n)) (val (h n))) by (rewrite Eh; unfold h1; by ev).
    assert (Ehp : h2 p = set_right (Some n) (h p)) by (rewrite Eh; unfold h1; by ev).
    assert (Eh0 : h2 0 = if decide (right (h 0) = Some p) then set_right (Some n) (h 0) else h 0) by (rewrite Eh; unfold h1; by ev).
    assert (Eho : forall x, x <> n -> x <> p -> x <> 0 -> h2 x = h x) by (intros x ? ? ?; rewrite Eh; unfold h1; by ev).
    clear Eh h1. set (k := key (h n)) in *. set (v := val (h n)) in *.
    assert (H2 : is_tree h2 (plug (FR c p kp vp a :: C) (T Red n k v Leaf Leaf))).
    { apply (tree_replace h _ (FR c p kp vp a :: C) b).
      - exact H.
      - simpl. done.
      - rewrite clocs_cons. cbn [floc fsib]. unfold locs at 1. cbn [io fmap list_fmap app fst].
        rewrite !NoDup_cons, !not_elem_of_cons, !not_elem_of_app. splits; try done; try congruence.
        apply NoDup_app. splits; try done. intros x Hx. specialize (Hda x Hx). rewrite not_elem_of_app in Hda. tauto.
      - simpl. rewrite Eh0. by case_decide.
      - intros f C' [= <- <-]. cbn [floc set_hole root_of]. exact Ehp.
      - intros x Hx Ht. cbn [top floc] in Ht. rewrite clocs_cons in Hx. cbn [floc fsib] in Hx. rewrite elem_of_cons, elem_of_app in Hx.
        apply Eho; [intros ->|congruence|intros ->]; naive_solver. }
    destruct Hrb as (Hb1 & Hb2 & (m & Hb3)).
    apply (plug_ok_inv (FR c p kp vp a :: C) b) in Hb2 as (Nb & HK & Hbb); [|exact Hb1].
    apply (plug_bh_inv (FR c p kp vp a :: C) b) in Hb3 as (n0 & Bb & HCb). rewrite (leafish_bh b Hb n0 Bb) in *.
    destruct (put_rebalanced_ok (S (length C)) (FR c p kp vp a :: C) h2 n k v Leaf Leaf 0 fuel) as (h' & E & t' & (T1 & T2 & T3) & Hrb);
      [simpl; lia|done|done|done|done|done| |].
    { pose proof (plug_height C (T c p kp vp a b)). simpl in *. lia. }
    assert (P2 : 0 :: locs (plug (FR c p kp vp a :: C) (T Red n k v Leaf Leaf)) ≡ₚ n :: 0 :: p :: locs a ++ clocs C).
    { rewrite locs_plug', !locs_T, clocs_cons. simpl. solve_Permutation. }
    destruct T3 as [T3 T4]. apply setp_eq in T4 as (_ & L1 & L2 & L3 & _).
    exists h', t'. splits; try done.
    - rewrite T2. rewrite io_plug. simpl. by rewrite <- !app_assoc.
    - rewrite L1, Eh0. by case_decide.
    - rewrite L2, Eh0. by case_decide.
    - rewrite L3, Eh0. by case_decide.
    - intros x Hx. rewrite P1 in Hx. rewrite T3.
      + rewrite !not_elem_of_cons in Hx. apply Eho; tauto.
      + rewrite P2. rewrite !not_elem_of_cons, !not_elem_of_app in *. tauto.
  Qed.

  (** ** remove *)
  Lemma plug_app C D t : plug (D ++ C) t = plug C (plug D t).
  Proof. revert t. induction D as [|f D IH]; intros t; [done|]. simpl. apply IH. Qed.

  Definition is_FL (f : frame) : Prop := match f with FL _ _ _ _ _ => True | _ => False end.
  Lemma leftmost b : b <> Leaf -> exists D c m k v y, b = plug D (T c m k v Leaf y) /\ iol D = [].
  Proof.
    induction b as [|c l k v a IHa b _]; [done|]. intros _. destruct a as [|ca la ka va a1 a2].
    - exists [], c, l, k, v, b. done.
    - destruct IHa as (D & cm & m & km & vm & y & E & ED); [done|]. exists (D ++ [FL c l k v b]), cm, m, km, vm, y. split.
      + rewrite plug_app. simpl. by rewrite <- E.
      + clear E. induction D as [|[] D IH]; simpl in *; [done|by apply IH|]. by destruct (iol D), (io sib).
  Qed.

  Lemma rb_kv C c l k v a b k' v' : red_black (plug C (T c l k v a b)) -> red_black (plug C (T c l k' v' a b)).
  Proof.
    intros (H1 & H2 & (m & H3)). apply plug_ok_inv in H2 as (H4 & H5 & H6); [|done].
    apply plug_bh_inv in H3 as (n & H7 & H8). by apply (rb_plug _ _ n).
  Qed.

  (** unlinking the node at the hole, which has at most one child *)
  Definition splice h (r : loc) : res heap :=
    let! nrm := rd h (Some r) in
    let child := match left nrm with Some _ => left nrm | None => right nrm end in
    let rmp := parent nrm in
    let! h := match child with Some _ => wr child (set_parent rmp) h | None => Ok h end in
    match rmp with
    | None => wr hdr (set_parent child) h
    | Some p => if decide (Some r = left (h p)) then wr rmp (set_left child) h else wr rmp (set_right child) h
    end.
  Lemma splice_ok h C c r k v x y : is_tree h (plug C (T c r k v x y)) -> x = Leaf \/ y = Leaf ->
    let ch := match x with Leaf => y | _ => x end in
    exists h', splice h r = Ok h' /\ is_tree h' (plug C ch) /\ same_else (plug C (T c r k v x y)) h h' /\ h' r = h r.
  Proof.
    intros H Hxy ch. unfold splice. cbn [rd rbind]. pose proof (tree_rd _ _ _ _ _ _ _ _ H) as Hr. rewrite Hr. cbn [left right parent].
    assert (Ech : match root_of x with Some _ => root_of x | None => root_of y end = root_of ch).
    { by destruct x. } rewrite Ech.
    assert (P1 : 0 :: locs (plug C (T c r k v x y)) ≡ₚ 0 :: r :: locs ch ++ clocs C).
    { rewrite locs_plug', !locs_T. destruct Hxy as [->| ->]; [done|]. unfold ch. destruct x; [done|]. simpl. by rewrite app_nil_r. }
    assert (Hnd : NoDup (0 :: r :: locs ch ++ clocs C)) by (rewrite <- P1; apply H).
    pose proof Hnd as Hnd'. rewrite !NoDup_cons, !not_elem_of_cons, !not_elem_of_app in Hnd'. destruct Hnd' as ((Hr0 & Hc0 & HC0) & (Hrc & HrC) & Hnd').
    apply NoDup_app in Hnd' as (Ndc & Hdc & NdC). assert (Hr0' : r <> 0) by congruence.
    assert (Hch : holds h (Some r) ch).
    { destruct H as (_ & H & _). apply holds_plug in H as [(_ & Hx & Hy) _]. unfold ch. by destruct x. }
    assert (HC : holdsC h (Some r) C). { destruct H as (_ & H & _). by apply holds_plug in H as [_ H]. }
    set (h1 := match root_of ch with Some l => <[l := set_parent (top C) (h l)]> h | None => h end).
    assert ((match root_of ch with Some _ => wr (root_of ch) (set_parent (top C)) h | None => Ok h end) = Ok h1) as ->.
    { unfold h1. by destruct (root_of ch). }
    cbn [rbind].
    assert (H1r : h1 r = h r). { unfold h1. destruct (root_of ch) as [l|] eqn:E; [|done]. apply root_in in E. rewrite fn_lookup_insert_ne; [done|]. intros ->. done. }
    assert (H10 : h1 0 = h 0). { unfold h1. destruct (root_of ch) as [l|] eqn:E; [|done]. apply root_in in E. rewrite fn_lookup_insert_ne; [done|]. intros ->. done. }
    assert (H1C : forall l, l ∈ clocs C -> h1 l = h l).
    { intros l Hl. unfold h1. destruct (root_of ch) as [l'|] eqn:E; [|done]. apply root_in in E. rewrite fn_lookup_insert_ne; [done|]. intros ->. by apply (Hdc l). }
    assert (H1h : holds h1 (top C) ch).
    { apply (holds_reparent h _ (Some r)); [done|done| |].
      - intros l E. unfold h1. rewrite E. by rewrite fn_lookup_insert.
      - intros l Hl E. unfold h1. destruct (root_of ch); [|done]. rewrite fn_lookup_insert_ne; [done|]. congruence. }
    assert (H1o : forall l, l ∉ 0 :: locs (plug C (T c r k v x y)) -> h1 l = h l).
    { intros l Hl. rewrite P1, !not_elem_of_cons, not_elem_of_app in Hl. unfold h1. destruct (root_of ch) as [l'|] eqn:E; [|done].
      apply root_in in E. rewrite fn_lookup_insert_ne; [done|]. intros ->. tauto. }
    destruct C as [|f C]; cbn [top].
    - cbn [wr hdr]. eexists. split; [reflexivity|]. split; [|split; [split|]].
      + apply (tree_replace h _ [] (T c r k v x y)); [done| | | |done|].
        * apply (holds_frame h1); [done|]. intros l Hl. rewrite fn_lookup_insert_ne; [done|]. intros <-. done.
        * rewrite app_nil_r. apply NoDup_cons; [split; [|done]]. done.
        * cbn [top]. by rewrite fn_lookup_insert.
        * intros l Hl. by apply elem_of_nil in Hl.
      + intros l Hl. rewrite fn_lookup_insert_ne; [by apply H1o|]. intros <-. apply Hl. by left.
      + rewrite fn_lookup_insert, H10. done.
      + rewrite fn_lookup_insert_ne by congruence. by rewrite H1r, Hr.
    - assert (Hfin : floc f ∈ clocs (f :: C)) by (rewrite clocs_cons; by left).
      assert (Hf0 : floc f <> 0) by (intros E; rewrite E in Hfin; done).
      assert (Hfr : floc f <> r) by (intros E; rewrite E in Hfin; done).
      rewrite (H1C (floc f)) by done.
      assert (E : (if decide (Some r = left (h (floc f))) then wr (Some (floc f)) (set_left (root_of ch)) h1 else wr (Some (floc f)) (set_right (root_of ch)) h1)
               = Ok (<[floc f := set_hole f (root_of ch) (h (floc f))]> h1)).
      { cbn [wr]. rewrite (H1C (floc f)) by done. destruct f as [cf l kf vf s|cf l kf vf s]; cbn [holdsC floc set_hole] in *; destruct HC as (HC1 & HC2 & HC3); rewrite HC1; cbn [left].
        - by rewrite decide_True.
        - rewrite decide_False; [done|]. intros E. symmetry in E. apply root_in in E. apply HrC. rewrite clocs_cons. right. apply elem_of_app. by left. }
      rewrite E. eexists. split; [reflexivity|]. split; [|split; [split|]].
      + apply (tree_replace h _ (f :: C) (T c r k v x y)); [done| | | | |].
        * apply (holds_frame h1); [done|]. intros l Hl. rewrite fn_lookup_insert_ne; [done|]. intros <-. by apply (Hdc (floc f)).
        * apply NoDup_cons in Hnd as [N1 N2]. apply NoDup_cons in N2 as [_ N2]. apply NoDup_cons. split; [|done]. rewrite not_elem_of_cons in N1. tauto.
        * cbn [top]. rewrite fn_lookup_insert_ne by done. by rewrite H10.
        * intros f' C' [= <- <-]. by rewrite fn_lookup_insert.
        * intros l Hl Ht. rewrite fn_lookup_insert_ne; [by apply H1C|]. intros <-. done.
      + intros l Hl. rewrite fn_lookup_insert_ne; [by apply H1o|]. intros <-. apply Hl. rewrite P1. right. right. apply elem_of_app. by right.
      + rewrite fn_lookup_insert_ne by done. by rewrite H10.
      + rewrite fn_lookup_insert_ne by done. by rewrite H1r, Hr.
  Qed.

  (** the tail of remove: unlink [r], copy its entry to [l] if they differ, rebalance *)
  Context (comp : K -> K -> Z).
  (** what happens to header.left and header.right; [A], [B]: entries before and after *)
  Definition hdr_remove h (k : K) (A B : list (loc * (K * V))) : res (option loc * option loc) :=
    let c := comp k (key (h 0)) in
    if decide (c > -1)%Z then Ok (left (h 0), last A.*1)
    else match left (h 0) with
         | None => Panic
         | Some x => if decide (comp (key (h x)) k > -1)%Z then Ok (head B.*1, right (h 0))
                     else Ok (left (h 0), right (h 0))
         end.

  Definition remove_tail (fuel : nat) h (l : loc) (rm : option loc) : res (loc * heap) :=
    let! nrm := rd h rm in
    let child := match left nrm with Some _ => left nrm | None => right nrm end in
    let rmp := parent nrm in
    let! h := match child with Some _ => wr child (set_parent rmp) h | None => Ok h end in
    let! h := match rmp with
              | None => wr hdr (set_parent child) h
              | Some p => if decide (rm = left (h p)) then wr rmp (set_left child) h
                          else wr rmp (set_right child) h
              end in
    let! nrm := rd h rm in
    let! h := if decide (rm = Some l) then Ok h
              else wr (Some l) (set_kv (key nrm) (val nrm)) h in
    let! nrm := rd h rm in
    let! h := if decide (ncol nrm = Black) then delete_rebalanced fuel h child rmp else Ok h in
    let! r := deref rm in
    Ok (r, h).
  Lemma remove_tail_splice fuel h l r : 
    remove_tail fuel h l (Some r) =
      (let! h' := splice h r in
       let! h2 := if decide (Some r = Some l) then Ok h' else wr (Some l) (set_kv (key (h' r)) (val (h' r))) h' in
       let! h3 := if decide (ncol (h2 r) = Black)
                  then delete_rebalanced fuel h2 (match left (h r) with Some _ => left (h r) | None => right (h r) end) (parent (h r))
                  else Ok h2 in
       Ok (r, h3)).
  Proof.
    unfold remove_tail, splice. cbn [rd rbind deref].
    destruct (match left (h r) with Some _ => left (h r) | None => right (h r) end); cbn [rbind]; [|done].
    set (h0 := wr _ _ h). destruct h0; done.
  Qed.

  (** rebalancing after the unlink, in the context [C] of the unlinked node *)
  Lemma del_finish fuel h C (cr : color) ch n :
    is_tree h (plug C ch) -> no_red_red ch -> cok C ->
    (cr = Black -> bh ch n /\ cbh C (S n)) -> (cr = Red -> ch = Leaf /\ red_black (plug C ch)) ->
    length C < fuel ->
    exists h', (if decide (cr = Black) then delete_rebalanced fuel h (root_of ch) (top C) else Ok h) = Ok h' /\ put_fixed h (plug C ch) h'.
  Proof.
    intros H Hn HK Hbk Hrd Hf. destruct cr.
    - rewrite decide_False by done. exists h. split; [done|]. destruct (Hrd eq_refl) as [_ Hrb]. exists (plug C ch). by split; [apply evolve_refl|].
    - rewrite decide_True by done. destruct (Hbk eq_refl) as [H1 H2].
      apply (del_ok (length C) C fuel (le_n _) Hf h ch n); done.
  Qed.

  Lemma tail_ok fuel h C c l k v x y : is_tree h (plug C (T c l k v x y)) -> red_black (plug C (T c l k v x y)) ->
    x = Leaf \/ y = Leaf -> height (plug C (T c l k v x y)) <= fuel -> 0 < fuel ->
    exists h' t', remove_tail fuel h l (Some l) = Ok (l, h') /\ is_tree h' t' /\ red_black t' /\
      io t' = (iol C ++ io x) ++ io y ++ ior C /\
      set_parent None (h' 0) = set_parent None (h 0) /\ h' l = h l /\
      (forall z, z ∉ 0 :: locs (plug C (T c l k v x y)) -> h' z = h z).
  Proof.
    intros H Hrb Hxy Hf Hf0. rewrite remove_tail_splice.
    destruct (splice_ok h C c l k v x y H Hxy) as (h1 & E1 & H1 & [S1 S2] & El). rewrite E1. cbn [rbind]. rewrite decide_True by done. cbn [rbind].
    pose proof (tree_rd _ _ _ _ _ _ _ _ H) as Hl. rewrite El, Hl. cbn [ncol left right parent].
    set (ch := match x with Leaf => y | _ => x end) in *.
    assert (match root_of x with Some _ => root_of x | None => root_of y end = root_of ch) as -> by (unfold ch; by destruct x).
    destruct Hrb as (B1 & B2 & (m & B3)). apply plug_ok_inv in B2 as ((N0 & N1 & N2) & HK & Hc); [|done].
    apply plug_bh_inv in B3 as (n & B4 & B5).
    pose proof (plug_height C (T c l k v x y)) as Hh. simpl in Hh.
    destruct (del_finish fuel h1 C c ch (pred n)) as (h' & E & t' & (T1 & T2 & T3) & Trb); try done.
    - unfold ch. by destruct x.
    - intros ->. simpl in B4. destruct B4 as (m' & -> & B6 & B7). simpl. split; [|done]. unfold ch. by destruct x.
    - intros ->. simpl in B4. destruct (N0 eq_refl) as [N3 N4].
      assert (Hch : ch = Leaf).
      { destruct Hxy as [-> | ->]; simpl in *; [destruct B4 as [-> B4]|destruct B4 as [B4 ->]].
        - unfold ch. destruct y as [|[] ? ? ? ? ?]; [done|done|]. by destruct B4 as (? & ? & _).
        - unfold ch. destruct x as [|[] ? ? ? ? ?]; [done|done|]. by destruct B4 as (? & ? & _). }
      split; [done|]. rewrite Hch. apply (rb_plug C Leaf n); try done. simpl. destruct Hxy as [-> | ->]; simpl in B4; tauto.
    - lia.
    - rewrite E. cbn [rbind]. exists h', t'. split; [done|]. split; [done|]. split; [done|].
      destruct T3 as [T3 T4].
      assert (Hio : io (plug C ch) = (iol C ++ io x) ++ io y ++ ior C).
      { rewrite io_plug, <- app_assoc. f_equal. rewrite app_assoc. f_equal. unfold ch. destruct Hxy as [-> | ->]; [done|].
        destruct x; [done|]. by rewrite app_nil_r. }
      split; [by rewrite T2|]. split; [by rewrite T4|].
      assert (Hsub : locs (plug C (T c l k v x y)) ≡ₚ l :: locs (plug C ch)).
      { unfold locs. rewrite Hio, io_plug. simpl. rewrite !fmap_app, fmap_cons. solve_Permutation. }
      split.
      + rewrite T3; [by rewrite El, Hl|]. destruct H as (_ & _ & H). rewrite Hsub in H. apply NoDup_cons in H as [H0 H].
        apply NoDup_cons in H as [H _]. rewrite not_elem_of_cons in *. set_solver.
      + intros z Hz. rewrite T3; [by apply S1|]. rewrite Hsub in Hz. set_solver.
  Qed.

  Lemma tail2_ok fuel h C c l k v a b D cm m km vm y :
    is_tree h (plug C (T c l k v a b)) -> red_black (plug C (T c l k v a b)) ->
    b = plug D (T cm m km vm Leaf y) -> iol D = [] ->
    height (plug C (T c l k v a b)) <= fuel -> 0 < fuel ->
    exists h' t', remove_tail fuel h l (Some m) = Ok (m, h') /\ is_tree h' t' /\ red_black t' /\
      io t' = (iol C ++ io a) ++ (l, (km, vm)) :: io y ++ ior D ++ ior C /\
      set_parent None (h' 0) = set_parent None (h 0) /\ h' m = h m /\
      (forall z, z ∉ 0 :: locs (plug C (T c l k v a b)) -> h' z = h z).
  Proof.
    intros H Hrb Eb ED Hf Hf0. rewrite remove_tail_splice.
    set (CC := D ++ FR c l k v a :: C). set (CC' := D ++ FR c l km vm a :: C).
    assert (Ep : forall k v ch, plug C (T c l k v a (plug D ch)) = plug (D ++ FR c l k v a :: C) ch).
    { intros k1 v1 ch. by rewrite plug_app. }
    assert (H' : is_tree h (plug CC (T cm m km vm Leaf y))) by (unfold CC; rewrite <- Ep, <- Eb; done).
    destruct (splice_ok h CC cm m km vm Leaf y H' (or_introl eq_refl)) as (h1 & E1 & H1 & [S1 S2] & El). rewrite E1. cbn [rbind].
    pose proof (tree_rd _ _ _ _ _ _ _ _ H') as Hm. rewrite El, Hm. cbn [key val left right parent root_of].
    assert (Hperm : 0 :: locs (plug CC (T cm m km vm Leaf y)) ≡ₚ m :: l :: 0 :: locs a ++ locs (plug D y) ++ clocs C).
    { unfold CC. rewrite <- Ep. rewrite locs_plug', locs_T, !locs_plug', locs_T. simpl. solve_Permutation. }
    assert (Hnd : NoDup (m :: l :: 0 :: locs a ++ locs (plug D y) ++ clocs C)) by (rewrite <- Hperm; apply H').
    rewrite !NoDup_cons, !not_elem_of_cons, !not_elem_of_app in Hnd. destruct Hnd as ((Hml & Hm0 & Hma & Hmy & HmC) & (Hl0 & _) & _).
    rewrite decide_False by congruence. cbn [wr rbind].
    unfold CC in H1. rewrite <- Ep in H1. pose proof (tree_kv h1 C c l k v a (plug D y) km vm H1) as H2.
    set (h2 := <[l := _]> h1) in *. rewrite Ep in H2. fold CC' in H2.
    assert (El2 : h2 m = h m). { unfold h2. rewrite fn_lookup_insert_ne by congruence. by rewrite El, Hm. }
    rewrite El2, Hm. cbn [ncol].
    apply (rb_kv C c l k v a b km vm) in Hrb. rewrite Eb, Ep in Hrb. fold CC' in Hrb.
    destruct Hrb as (B1 & B2 & (mm & B3)). apply plug_ok_inv in B2 as ((N0 & N1 & N2) & HK & Hc); [|done].
    apply plug_bh_inv in B3 as (n & B4 & B5).
    assert (Htop : top CC = top CC') by (unfold CC, CC'; by destruct D). rewrite Htop.
    destruct (del_finish fuel h2 CC' cm y (pred n)) as (h' & E & t' & (T1 & T2 & T3) & Trb); try done.
    - intros ->. simpl in B4. destruct B4 as (m' & -> & B6 & B7). simpl. done.
    - intros ->. simpl in B4. destruct (N0 eq_refl) as [N3 N4]. destruct B4 as [-> B4].
      assert (y = Leaf) as ->. { destruct y as [|[] ? ? ? ? ?]; [done|done|]. by destruct B4 as (? & ? & _). }
      split; [done|]. apply (rb_plug CC' Leaf 0); try done.
    - pose proof (plug_height CC (T cm m km vm Leaf y)) as Hh. unfold CC in Hh. rewrite <- Ep, <- Eb in Hh. fold CC in Hh.
      assert (length CC = length CC') by (unfold CC, CC'; rewrite !app_length; done). simpl in Hh. lia.
    - rewrite E. cbn [rbind]. exists h', t'. split; [done|]. split; [done|]. split; [done|]. destruct T3 as [T3 T4].
      assert (Hio : io (plug CC' y) = (iol C ++ io a) ++ (l, (km, vm)) :: io y ++ ior D ++ ior C).
      { unfold CC'. rewrite <- Ep. rewrite io_plug. simpl. rewrite io_plug, ED. simpl. by repeat (rewrite <- !app_assoc; simpl). }
      assert (Hl2 : 0 :: locs (plug CC' y) ≡ₚ l :: 0 :: locs a ++ locs (plug D y) ++ clocs C).
      { unfold CC'. rewrite <- Ep. rewrite locs_plug', locs_T. solve_Permutation. }
      assert (Hpe : 0 :: locs (plug C (T c l k v a b)) ≡ₚ m :: l :: 0 :: locs a ++ locs (plug D y) ++ clocs C).
      { rewrite <- Hperm. unfold CC. by rewrite <- Ep, <- Eb. }
      split; [by rewrite T2|]. split; [|split].
      + rewrite T4. unfold h2. rewrite fn_lookup_insert_ne by congruence. done.
      + rewrite T3; [rewrite El2, Hm; by rewrite Htop|]. rewrite Hl2, !not_elem_of_cons, !not_elem_of_app. done.
      + intros z Hz. rewrite Hpe, !not_elem_of_cons in Hz. rewrite T3.
        * unfold h2. rewrite fn_lookup_insert_ne by (intros ->; tauto). apply S1. rewrite Hperm, !not_elem_of_cons. tauto.
        * rewrite Hl2, !not_elem_of_cons. tauto.
  Qed.

  Definition remove_head (fuel : nat) h (l : loc) : res heap :=
      let c := comp (key (h l)) (key (h 0)) in
      if decide (c > -1)%Z then let! p := prev fuel h l in wr hdr (set_right p) h
      else
        let! hl := rd h (left (h 0)) in
        let c := comp (key hl) (key (h l)) in
        if decide (c > -1)%Z then let! p := next fuel h l in wr hdr (set_left p) h else Ok h.
  Lemma remove_eq fuel h l : remove comp fuel h l =
    let! h := remove_head fuel h l in
    let! rm := match left (h l), right (h l) with Some _, Some _ => next fuel h l | _, _ => Ok (Some l) end in
    remove_tail fuel h l rm.
  Proof. reflexivity. Qed.

  Lemma remove_ok fuel h C c l k v a b :
    let t := plug C (T c l k v a b) in let A := iol C ++ io a in let B := io b ++ ior C in
    is_tree h t -> red_black t -> height t < fuel ->
    match hdr_remove h k A B with
    | Ok (lf, rt) => exists r h' t', remove comp fuel h l = Ok (r, h') /\ is_tree h' t' /\ red_black t' /\
        (r = l /\ io t' = A ++ B \/
         exists kv B', a <> Leaf /\ r <> l /\ B = (r, kv) :: B' /\ io t' = A ++ (l, kv) :: B') /\
        left (h' 0) = lf /\ right (h' 0) = rt /\ key (h' 0) = key (h 0) /\ h' r = h r /\
        (forall z, z ∉ 0 :: locs t -> h' z = h z)
    | _ => remove comp fuel h l = Panic
    end.
  Proof.
    intros t A B H Hrb Hf.
    assert (Hnl : l <> 0).
    { pose proof (proj2 (proj2 H)) as Hn. apply NoDup_cons in Hn as [Hn _]. intros ->. apply Hn. unfold t. rewrite locs_plug', locs_T. by left. }
    pose proof (tree_rd _ _ _ _ _ _ _ _ H) as Hl.
    assert (Hkey : key (h l) = k) by (by rewrite Hl).
    assert (Hhd : match hdr_remove h k A B with
      | Ok (lf, rt) => exists h1, remove_head fuel h l = Ok h1 /\ is_tree h1 t /\ left (h1 0) = lf /\ right (h1 0) = rt /\
          key (h1 0) = key (h 0) /\ forall z, z <> 0 -> h1 z = h z
      | _ => remove_head fuel h l = Panic end).
    { unfold hdr_remove, remove_head. rewrite Hkey. case_decide.
      - rewrite (prev_ok h C c l k v a b fuel H) by (fold t; lia). cbn [rbind wr hdr]. eexists. split; [reflexivity|]. split; [by apply tree_hdr|].
        rewrite fn_lookup_insert. splits; try done. intros z Hz. by rewrite fn_lookup_insert_ne by done.
      - destruct (left (h 0)) as [x|] eqn:Ex; cbn [rd rbind]; [|done]. case_decide.
        + rewrite (next_ok h C c l k v a b fuel H) by (fold t; lia). cbn [rbind wr hdr]. eexists. split; [reflexivity|]. split; [by apply tree_hdr|].
          rewrite fn_lookup_insert. splits; try done. intros z Hz. by rewrite fn_lookup_insert_ne by done.
        + exists h. splits; try done. }
    rewrite remove_eq. destruct (hdr_remove h k A B) as [[lf rt]| |]; [|by rewrite Hhd|by rewrite Hhd].
    destruct Hhd as (h1 & -> & H1 & L1 & L2 & L3 & Ho). cbn [rbind].
    pose proof (tree_rd _ _ _ _ _ _ _ _ H1) as Hl1.
    assert (Hfin : forall r h' t', is_tree h' t' -> set_parent None (h' 0) = set_parent None (h1 0) -> h' r = h1 r -> r ∈ locs t ->
      (forall z, z ∉ 0 :: locs t -> h' z = h1 z) ->
      left (h' 0) = lf /\ right (h' 0) = rt /\ key (h' 0) = key (h 0) /\ h' r = h r /\ (forall z, z ∉ 0 :: locs t -> h' z = h z)).
    { intros r h' t' G1 G2 G3 G4 G5. apply setp_eq in G2 as (_ & G6 & G7 & G8 & _). splits; try congruence.
      - rewrite G3. apply Ho. intros ->. destruct H as (_ & _ & H). by apply NoDup_cons in H as [H _].
      - intros z Hz. rewrite G5 by done. apply Ho. set_solver. }
    assert (Hdec : (a = Leaf \/ b = Leaf) \/ ~ (a = Leaf \/ b = Leaf)) by (destruct a, b; try (left; tauto); right; intros [|]; done).
    destruct Hdec as [Hab|Hab].
    - assert (match left (h1 l), right (h1 l) with Some _, Some _ => next fuel h1 l | _, _ => Ok (Some l) end = Ok (Some l)) as ->.
      { rewrite Hl1. cbn [left right]. destruct Hab as [-> | ->]; simpl; [done|]. by destruct (root_of a). }
      cbn [rbind]. destruct (tail_ok fuel h1 C c l k v a b H1 Hrb Hab) as (h' & t' & E & G1 & G2 & G3 & G4 & G5 & G6); [fold t; lia|lia|].
      exists l, h', t'. split; [done|]. split; [done|]. split; [done|]. split; [by left|]. eapply Hfin; try done.
      unfold t. rewrite locs_plug', locs_T. by left.
    - assert (Ha : a <> Leaf) by tauto. assert (Hb : b <> Leaf) by tauto.
      destruct (leftmost b Hb) as (D & cm & m & km & vm & y & Eb & ED).
      assert (Em : head (io b ++ ior C) = Some (m, (km, vm)) /\ B = (m, (km, vm)) :: io y ++ ior D ++ ior C).
      { unfold B. rewrite Eb, io_plug, ED. simpl. by rewrite <- app_assoc. }
      destruct Em as [Em EB].
      assert (match left (h1 l), right (h1 l) with Some _, Some _ => next fuel h1 l | _, _ => Ok (Some l) end = Ok (Some m)) as ->.
      { assert (En : next fuel h1 l = Ok (Some m)).
        { rewrite (next_ok h1 C c l k v a b fuel H1) by (fold t; lia). fold B. rewrite EB. done. }
        rewrite En, Hl1. cbn [left right]. clear -Ha Hb. by destruct a, b. }
      cbn [rbind]. destruct (tail2_ok fuel h1 C c l k v a b D cm m km vm y H1 Hrb Eb ED) as (h' & t' & E & G1 & G2 & G3 & G4 & G5 & G6); [fold t; lia|lia|].
      exists m, h', t'. split; [done|]. split; [done|]. split; [done|].
      assert (Hlm : m <> l /\ m ∈ locs t).
      { destruct H as (_ & _ & H). unfold t in H. apply NoDup_cons in H as [_ H]. unfold t, locs in *. rewrite io_plug in *. simpl in *. rewrite <- app_assoc in *.
        change (((l, (k, v)) :: io b) ++ ior C) with ((l, (k, v)) :: io b ++ ior C) in *. fold B in H. fold B. rewrite EB in *.
        rewrite !fmap_app, !fmap_cons in *. split.
        - intros ->. apply NoDup_app in H as (_ & _ & H). apply NoDup_app in H as (_ & _ & H). apply NoDup_cons in H as [H _]. apply H. by left.
        - rewrite !elem_of_app. right. right. right. by left. }
      split; [|eapply Hfin; try done; tauto].
      right. exists (km, vm), (io y ++ ior D ++ ior C). split; [done|]. split; [tauto|]. done.
  Qed.
End ops.
