(** The tree with its node buffer: every operation, for any comparator. *)
From Verif Require Import Base RBTree_Model RBTree_Spec RBTree_Proofs RBTree_Proofs2 RBTree_Proofs3 RBTree_Proofs4 RBTree_Proofs5 RBTree_Proofs6.

Section inv.
  Context {K V : Type} (kzero : K) (vzero : V) (comp : K -> K -> Z).
  Notation btree := (btree K V).
  Notation heap := (heap K V).
  Notation frame := (frame K V).
  Notation tree := (tree K V).
  Implicit Types (h : heap) (bt a b : btree) (C D : list frame) (t : tree) (own X : list loc).

  Lemma Forall_perm (P : loc -> Prop) l l' : l ≡ₚ l' -> Forall P l -> Forall P l'.
  Proof. intros E. by rewrite E. Qed.

  (** ** the node buffer; [X]: the nodes in use (linked or held by the caller) *)
  Fixpoint chain h (p : option loc) (fl : list loc) : Prop :=
    match fl with [] => p = None | l :: fl => p = Some l /\ chain h (right (h l)) fl end.
  Definition pool X t : Prop := exists fl,
    chain (hp t) (flist (buf t)) fl /\ length fl = lsize (buf t) /\ lsize (buf t) <= blen (buf t) /\ blen (buf t) = 16 /\
    NoDup (0 :: X ++ fl ++ seq (slice (buf t)) (cursor (buf t))) /\
    Forall (fun l => l < brk t) (0 :: X ++ fl ++ seq (slice (buf t)) (cursor (buf t))).

  Lemma chain_frame h h' p fl : chain h p fl -> (forall l, l ∈ fl -> h' l = h l) -> chain h' p fl.
  Proof.
    revert p. induction fl as [|l fl IH]; intros p H He; [done|]. destruct H as [-> H]. split; [done|].
    rewrite He by (by left). apply IH; [done|]. intros l' Hl'. apply He. by right.
  Qed.
  Lemma pool_perm X X' t : X ≡ₚ X' -> pool X t -> pool X' t.
  Proof. intros E (fl & H1 & H2 & H3 & H4 & H5 & H6). exists fl. rewrite <- E. done. Qed.
  Lemma pool_size z X t : pool X t -> pool X (with_size z t).
  Proof. done. Qed.
  Lemma pool_drop X Y t : pool (X ++ Y) t -> pool Y t.
  Proof.
    intros (fl & H1 & H2 & H3 & H4 & H5 & H6). exists fl. splits; try done.
    - apply NoDup_cons in H5 as [N1 N2]. rewrite <- app_assoc in N1, N2. apply NoDup_app in N2 as (_ & _ & N2).
      apply NoDup_cons. split; [|done]. set_solver.
    - inversion H6; subst. constructor; [done|]. rewrite <- app_assoc in *. by apply Forall_app in H8 as [_ H8].
  Qed.
  Lemma pool_heap h X t : pool X t -> (forall l, l ∉ 0 :: X -> h l = hp t l) -> pool X (with_hp h t).
  Proof.
    intros (fl & H1 & H2 & H3 & H4 & H5 & H6) He. exists fl. splits; try done. simpl.
    apply (chain_frame (hp t)); [done|]. intros l Hl. apply He.
    apply NoDup_cons in H5 as [N1 N2]. apply NoDup_app in N2 as (_ & N2 & _). rewrite not_elem_of_cons. split; [set_solver|]. intros Hx. apply (N2 l Hx). set_solver.
  Qed.
  Lemma pool_in X t l : pool X t -> l ∈ X -> l <> 0 /\ l < brk t.
  Proof.
    intros (fl & H1 & H2 & H3 & H4 & H5 & H6) Hl. apply NoDup_cons in H5 as [N1 _]. inversion H6 as [|? ? _ H7]; subst. split; [set_solver|].
    rewrite Forall_forall in H7. apply H7. set_solver.
  Qed.
  Lemma pool_nodup X t : pool X t -> NoDup (0 :: X).
  Proof.
    intros (fl & H1 & H2 & H3 & H4 & H5 & H6). apply NoDup_cons in H5 as [N1 N2]. apply NoDup_app in N2 as (N2 & _ & _).
    apply NoDup_cons. split; [set_solver|done].
  Qed.

  Lemma alloc_slice_ok X t : pool X t -> cursor (buf t) <> 0 ->
    let n := (alloc_slice t).1 in let t' := (alloc_slice t).2 in
    hp t' = hp t /\ size t' = size t /\ pool (n :: X) t'.
  Proof.
    intros (fl & H1 & H2 & H3 & H4 & H5 & H6) Hc. unfold alloc_slice. simpl. split; [done|]. split; [done|].
    exists fl. simpl. splits; try done.
    - destruct (cursor (buf t)) as [|m]; [done|]. replace (S m - 1) with m by lia. rewrite seq_S in H5.
      eapply NoDup_Permutation_proper; [|exact H5]. solve_Permutation.
    - destruct (cursor (buf t)) as [|m]; [done|]. replace (S m - 1) with m by lia. rewrite seq_S in H6.
      eapply Forall_perm; [|exact H6]. solve_Permutation.
  Qed.
  Lemma fill_ok X t : pool X t -> cursor (buf t) = 0 -> pool X (fill t) /\ cursor (buf (fill t)) = 16.
  Proof.
    intros (fl & H1 & H2 & H3 & H4 & H5 & H6) Hc. split; [|done]. exists fl. simpl. splits; try done.
    - rewrite Hc in H5, H6. simpl in H5, H6. rewrite app_nil_r in H5, H6. rewrite H4.
      change (NoDup ((0 :: X ++ fl) ++ seq (brk t) 16)) || rewrite app_assoc.
      change (NoDup ((0 :: X ++ fl) ++ seq (brk t) 16)). apply NoDup_app. splits; [done| |apply NoDup_seq].
      intros l Hl Hs. rewrite Forall_forall in H6. specialize (H6 l Hl). apply elem_of_seq in Hs. lia.
    - rewrite Hc in H6. simpl in H6. rewrite app_nil_r in H6. rewrite H4. rewrite app_assoc.
      change (Forall (fun l => l < brk t + 16) ((0 :: X ++ fl) ++ seq (brk t) 16)). apply Forall_app. split.
      + eapply Forall_impl; [exact H6|]. simpl. lia.
      + apply Forall_forall. intros l Hl. apply elem_of_seq in Hl. lia.
  Qed.
  Lemma alloc_ok X t : pool X t -> exists n t', alloc t = Ok (n, t') /\ hp t' = hp t /\ size t' = size t /\ pool (n :: X) t'.
  Proof.
    intros H. unfold alloc. case_decide as Hc.
    { pose proof (alloc_slice_ok X t H Hc) as G. destruct (alloc_slice t) as [n t']. exists n, t'. done. }
    case_decide as Hl.
    { destruct (fill_ok X t H Hc) as [H' Hc'].
      assert (blen (buf t) = 16) as E by (by destruct H as (fl & _ & _ & _ & E & _)). rewrite decide_False by lia.
      pose proof (alloc_slice_ok X (fill t) H' ltac:(lia)) as G. destruct (alloc_slice (fill t)) as [n t']. exists n, t'. done. }
    destruct H as (fl & H1 & H2 & H3 & H4 & H5 & H6). destruct fl as [|l fl]; [simpl in H2; lia|]. destruct H1 as [E H1].
    rewrite E. cbn [deref rbind]. eexists _, _. split; [reflexivity|]. simpl. split; [done|]. split; [done|].
    exists fl. simpl in *. splits; try done; try lia.
    - eapply NoDup_Permutation_proper; [|exact H5]. solve_Permutation.
    - eapply Forall_perm; [|exact H6]. solve_Permutation.
  Qed.
  Lemma free_ok X t l : pool (l :: X) t ->
    pool X (free t l) /\ size (free t l) = size t /\ (forall x, x <> l -> hp (free t l) x = hp t x).
  Proof.
    intros H. unfold free. case_decide as E.
    { split; [|done]. by apply (pool_drop [l] X). }
    pose proof (pool_in _ _ _ H ltac:(by left)) as [Hl0 _]. 
    destruct H as (fl & H1 & H2 & H3 & H4 & H5 & H6). split; [|split; [done|]].
    - exists (l :: fl). simpl. splits; try done; try lia.
      + rewrite fn_lookup_insert. apply (chain_frame (hp t)); [done|]. intros l' Hl'. rewrite fn_lookup_insert_ne; [done|]. intros <-.
        apply NoDup_cons in H5 as [_ H5]. apply NoDup_cons in H5 as [H5 _]. apply H5. set_solver.
      + eapply NoDup_Permutation_proper; [|exact H5]. solve_Permutation.
      + eapply Forall_perm; [|exact H6]. solve_Permutation.
    - intros x Hx. simpl. by rewrite fn_lookup_insert_ne by done.
  Qed.

  (** ** the whole state *)
  Record inv own t bt : Prop := Inv {
    i_tree : is_tree (hp t) bt;
    i_rb : red_black bt;
    i_key : key (hp t 0) = kzero;
    i_pool : pool (locs bt ++ own) t }.

  Lemma inv_new : inv [] (new_tree kzero vzero) Leaf.
  Proof.
    split; [|by (split; [|split; [|exists 0]])|done|].
    - split; [done|]. split; [done|]. apply NoDup_singleton.
    - exists []. splits; try done; simpl; try lia.
      + change (NoDup (seq 0 17)). apply NoDup_seq.
      + change (Forall (fun l => l < 17) (seq 0 17)). apply Forall_forall. intros l Hl. apply elem_of_seq in Hl. lia.
  Qed.

  (** contents after linking [n] at the hole of [C] *)
  Definition link_io C (e : loc * (K * V)) : list (loc * (K * V)) :=
    match C with
    | FL _ p kp vp b :: C => iol C ++ (p, (kp, vp)) :: e :: ior C
    | _ => iol C ++ e :: ior C
    end.
  Definition link_right C (n : loc) (rt : option loc) : option loc :=
    match top C with None => Some n | Some p => if decide (rt = Some p) then Some n else rt end.

  Lemma inv_link own t C n X fuel : is_tree (hp t) (plug C Leaf) -> red_black (plug C Leaf) -> key (hp t 0) = kzero ->
    locs (plug C Leaf) ++ n :: own ≡ₚ X -> pool X t -> height (plug C Leaf) + 2 <= fuel ->
    exists h' bt', link fuel (hp t) (top C) n = Ok h' /\ inv own (with_hp h' t) bt' /\
      io bt' = link_io C (n, (key (hp t n), val (hp t n))) /\
      left (h' 0) = (if top C then left (hp t 0) else Some n) /\
      right (h' 0) = link_right C n (right (hp t 0)) /\
      (forall x, x ∉ n :: 0 :: locs (plug C Leaf) -> h' x = hp t x).
  Proof.
    intros H Hrb Hk HX HP Hf. pose proof (pool_perm _ _ _ (symmetry HX) HP) as HP'. clear HP HX.
    pose proof (pool_nodup _ _ HP') as Hnd.
    assert (Hn : n ∉ 0 :: locs (plug C Leaf)).
    { apply NoDup_cons in Hnd as [N0 Hnd]. apply NoDup_app in Hnd as (_ & Hnd & _). rewrite not_elem_of_cons. split; [set_solver|].
      intros Hn. apply (Hnd n Hn). by left. }
    assert (Hn0 : n <> 0) by set_solver.
    assert (Hfin : forall h' bt', is_tree h' bt' -> red_black bt' -> key (h' 0) = key (hp t 0) ->
      (exists Y, locs (plug C Leaf) ++ n :: own ≡ₚ Y ++ locs bt' ++ own) ->
      (forall x, x ∉ n :: 0 :: locs (plug C Leaf) -> h' x = hp t x) -> inv own (with_hp h' t) bt').
    { intros h' bt' G1 G2 G3 [Y G4] G5. split; try done; [by rewrite <- Hk|].
      apply (pool_drop Y). eapply pool_perm; [exact G4|]. apply pool_heap; [done|].
      intros l Hl. apply G5. rewrite !not_elem_of_cons, not_elem_of_app, not_elem_of_cons in *. tauto. }
    destruct C as [|f C].
    { destruct (link_empty (hp t) n fuel H Hn0 ltac:(lia)) as (h' & E & G1 & G2 & G3 & G4 & G5).
      exists h', (T Black n (key (hp t n)) (val (hp t n)) Leaf Leaf). split; [exact E|].
      assert (G6 : forall x, x ∉ n :: 0 :: locs (plug [] (Leaf : btree)) -> h' x = hp t x).
      { intros x Hx. rewrite !not_elem_of_cons in Hx. apply G5; tauto. }
      split; [|done]. apply Hfin; try done.
      - split; [done|]. split; [done|]. exists 1. by exists 0.
      - by exists []. }
    (* both remaining cases: the node ends up at the right of the parent *)
    assert (Hsplit : exists c p kp vp a b, plug (f :: C) Leaf = plug C (T c p kp vp a b) /\ leafish b /\ floc f = p /\
              link_io (f :: C) (n, (key (hp t n), val (hp t n))) = iol C ++ io a ++ (p, (kp, vp)) :: (n, (key (hp t n), val (hp t n))) :: ior C).
    { destruct Hrb as (B1 & B2 & (m & B3)).
      pose proof (plug_ok_inv (f :: C) Leaf B2 B1) as (_ & HK & _). pose proof (plug_bh_inv (f :: C) Leaf m B3) as (n0 & E0 & HC).
      simpl in E0. subst n0. destruct HK as (HK & _). destruct HC as [HC _].
      destruct f as [c p kp vp b|c p kp vp a]; simpl in *.
      - exists c, p, kp, vp, Leaf, b. splits; try done. by apply bh0_leafish.
      - exists c, p, kp, vp, a, Leaf. splits; try done; [by left|]. by rewrite <- !app_assoc. }
    destruct Hsplit as (c & p & kp & vp & a & b & Ep & Hb & Efl & Eio). rewrite Eio. rewrite Ep in *. cbn [top]. rewrite Efl.
    destruct (link_ok (hp t) C c p kp vp a b n fuel H Hrb Hb Hn Hf) as (h' & bt' & E & G1 & G2 & G3 & G4 & G5 & G6 & G7).
    exists h', bt'. split; [exact E|]. split; [|unfold link_right; cbn [top]; rewrite Efl; done].
    apply Hfin; try done. exists (locs b). unfold locs at 3. rewrite G3. rewrite locs_plug', locs_T. unfold clocs, locs.
    repeat (rewrite fmap_app || rewrite fmap_cons). simpl. solve_Permutation.
  Qed.

  (** the key or value of a linked node *)
  Lemma inv_val own t C c l k v a b v' : inv own t (plug C (T c l k v a b)) ->
    let t' := with_hp (<[l := set_val v' (hp t l)]> (hp t)) t in
    inv own t' (plug C (T c l k v' a b)) /\ hp t' 0 = hp t 0.
  Proof.
    intros [H1 H2 H3 H4] t'.
    assert (Hl : l <> 0). { apply (pool_in _ _ _ H4). rewrite locs_plug', locs_T. set_solver. }
    assert (E : hp t' 0 = hp t 0) by (unfold t'; simpl; by rewrite fn_lookup_insert_ne by done).
    split; [|done]. split.
    - unfold t'. simpl. pose proof (tree_rd _ _ _ _ _ _ _ _ H1) as Hr.
      assert (set_val v' (hp t l) = set_kv k v' (hp t l)) as -> by (by rewrite Hr). exact (tree_kv _ _ _ _ _ v _ _ _ _ H1).
    - exact (rb_kv _ _ _ k v _ _ _ _ H2).
    - by rewrite E.
    - assert (E' : locs (plug C (T c l k v' a b)) = locs (plug C (T c l k v a b))).
      { unfold locs. rewrite !io_plug. simpl. by repeat (rewrite fmap_app || rewrite fmap_cons). }
      rewrite E'. apply pool_heap; [done|]. intros x Hx. rewrite fn_lookup_insert_ne; [done|]. intros <-. apply Hx. right.
      rewrite locs_plug', locs_T. set_solver.
  Qed.

  (** Put *)
  Lemma put_ok own t bt k v fuel : inv own t bt -> height bt + 2 <= fuel ->
    (exists C c l k' v' a b t', bt = plug C (T c l k' v' a b) /\ Forall (turn comp k) C /\
       comp k k' <> (-1)%Z /\ comp k k' <> 1%Z /\
       put comp fuel t k v = Ok (false, t') /\ inv own t' (plug C (T c l k' v a b)) /\ size t' = size t /\ hp t' 0 = hp t 0) \/
    (exists C n t' bt', bt = plug C Leaf /\ Forall (turn comp k) C /\
       put comp fuel t k v = Ok (true, t') /\ inv own t' bt' /\ size t' = (size t + 1)%Z /\
       io bt' = link_io C (n, (k, v)) /\ n ∉ locs bt /\ n ∉ own /\
       left (hp t' 0) = (if top C then left (hp t 0) else Some n) /\
       right (hp t' 0) = link_right C n (right (hp t 0))).
  Proof.
    intros I Hf. pose proof I as [H1 H2 H3 H4]. unfold put. pose proof (proj1 H1) as Er. rewrite Er.
    destruct (descend_ok comp (hp t) k bt [] fuel) as [(C & c & l & k' & v' & a & b & E & HC & N1 & N2 & ED)|(C & E & HC & ED)];
      [done|done|lia| |]; cbn [top plug] in *; rewrite ED; cbn [rbind].
    - left. subst bt. destruct (inv_val own t C c l k' v' a b v I) as [I' E0].
      exists C, c, l, k', v', a, b. eexists. splits; try done.
    - right. subst bt. destruct (alloc_ok _ _ H4) as (n & t1 & Ea & Eh & Es & HP). rewrite Ea. cbn [rbind wr].
      pose proof (pool_nodup _ _ HP) as Hnd. rewrite !NoDup_cons in Hnd. destruct Hnd as (N0 & Nn & _).
      rewrite not_elem_of_app in Nn. destruct Nn as [Nn1 Nn2].
      set (h1 := <[n := set_color Red _]> _).
      assert (Hh1 : forall x, x <> n -> h1 x = hp t x).
      { intros x Hx. unfold h1. rewrite !fn_lookup_insert_ne by done. by rewrite Eh. }
      assert (Hn : key (h1 n) = k /\ val (h1 n) = v). { unfold h1. by rewrite !fn_lookup_insert. }
      assert (Hn0 : n <> 0) by set_solver.
      destruct (inv_link own (with_hp h1 t1) C n (n :: locs (plug C Leaf) ++ own) fuel) as (h' & bt' & El & I' & Eio & EL & ER & _).
      + cbn [hp with_hp]. destruct H1 as (G1 & G2 & G3). split; [by rewrite Hh1|]. split; [|done].
        apply (holds_frame (hp t)); [done|]. intros x Hx. apply Hh1. intros ->. done.
      + done.
      + cbn [hp with_hp]. by rewrite Hh1.
      + solve_Permutation.
      + apply pool_heap; [done|]. intros x Hx. rewrite Hh1, Eh; [done|]. set_solver.
      + done.
      + cbn [hp with_hp] in *. rewrite El. cbn [rbind]. rewrite Hh1 in EL, ER by done. destruct Hn as [Hn1 Hn2]. rewrite Hn1, Hn2 in Eio.
        eexists C, n, _, bt'. split; [done|]. split; [done|]. split; [reflexivity|]. split; [|simpl; rewrite Es; done].
        by destruct I'.
  Qed.

  (** PutNode *)
  Lemma put_node_ok own t bt n fuel : inv own t bt -> n ∈ own -> height bt + 2 <= fuel ->
    let k := key (hp t n) in let v := val (hp t n) in
    (exists C c l k' v' a b t', bt = plug C (T c l k' v' a b) /\ Forall (turn comp k) C /\
       comp k k' <> (-1)%Z /\ comp k k' <> 1%Z /\
       put_node comp fuel t n = Ok (false, t') /\ inv own t' (plug C (T c l k' v a b)) /\ size t' = size t /\ hp t' 0 = hp t 0) \/
    (exists C t' bt', bt = plug C Leaf /\ Forall (turn comp k) C /\
       put_node comp fuel t n = Ok (true, t') /\ inv (filter (fun x => x <> n) own) t' bt' /\ size t' = size t /\
       io bt' = link_io C (n, (k, v)) /\
       left (hp t' 0) = (if top C then left (hp t 0) else Some n) /\
       right (hp t' 0) = link_right C n (right (hp t 0))).
  Proof.
    intros I Hn Hf k v. pose proof I as [H1 H2 H3 H4]. unfold put_node. fold k. pose proof (proj1 H1) as Er. rewrite Er.
    destruct (descend_ok comp (hp t) k bt [] fuel) as [(C & c & l & k' & v' & a & b & E & HC & N1 & N2 & ED)|(C & E & HC & ED)];
      [done|done|lia| |]; cbn [top plug] in *; rewrite ED; cbn [rbind].
    - left. subst bt. destruct (inv_val own t C c l k' v' a b v I) as [I' E0].
      exists C, c, l, k', v', a, b. eexists. splits; try done.
    - right. subst bt.
      assert (Ho : own ≡ₚ n :: filter (fun x => x <> n) own).
      { pose proof (pool_nodup _ _ H4) as Hnd. apply NoDup_cons in Hnd as [_ Hnd]. apply NoDup_app in Hnd as (_ & _ & Hnd).
        apply NoDup_Permutation; [done| |].
        - apply NoDup_cons. split; [|by apply NoDup_filter]. rewrite elem_of_list_filter. tauto.
        - intros x. rewrite elem_of_cons, elem_of_list_filter. destruct (decide (x = n)) as [->|]; tauto. }
      destruct (inv_link (filter (fun x => x <> n) own) t C n (locs (plug C Leaf) ++ own) fuel) as (h' & bt' & El & I' & Eio & EL & ER & _);
        try done.
      { by rewrite <- Ho. }
      rewrite El. cbn [rbind]. exists C. eexists _, bt'. split; [done|]. split; [done|]. split; [reflexivity|]. done.
  Qed.

  (** removal of the node [l] *)
  Lemma remove_node_ok own t C c l k v a b fuel :
    let bt := plug C (T c l k v a b) in let A := iol C ++ io a in let B := io b ++ ior C in
    inv own t bt -> height bt + 2 <= fuel ->
    match hdr_remove comp (hp t) k A B with
    | Ok (lf, rt) => exists r t' bt', remove_node comp fuel t l = Ok (r, t') /\ inv (r :: own) t' bt' /\
        (r = l /\ io bt' = A ++ B \/
         exists kv B', a <> Leaf /\ r <> l /\ B = (r, kv) :: B' /\ io bt' = A ++ (l, kv) :: B') /\
        size t' = (size t - 1)%Z /\ hp t' r = hp t r /\
        left (hp t' 0) = (if decide (size t = 1)%Z then None else lf) /\
        right (hp t' 0) = (if decide (size t = 1)%Z then None else rt)
    | _ => remove_node comp fuel t l = Panic
    end.
  Proof.
    intros bt A B [H1 H2 H3 H4] Hf. pose proof (remove_ok comp fuel (hp t) C c l k v a b H1 H2 ltac:(fold bt; lia)) as HR.
    unfold remove_node. fold A B in HR. destruct (hdr_remove comp (hp t) k A B) as [[lf rt]| |]; [|by rewrite HR|by rewrite HR].
    destruct HR as (r & h' & bt' & E & G1 & G2 & G3 & G4 & G5 & G6 & G7 & G8). rewrite E. cbn [rbind]. fold bt in G8.
    assert (Hperm : locs bt ≡ₚ r :: locs bt').
    { unfold locs. unfold bt. rewrite io_plug. destruct G3 as [(-> & Eio)|(kv & B' & _ & _ & EB & Eio)]; rewrite Eio.
      - unfold A, B. simpl. repeat (rewrite fmap_app || rewrite fmap_cons). simpl. solve_Permutation.
      - assert (E2 : iol C ++ io (T c l k v a b) ++ ior C = A ++ (l, (k, v)) :: B).
        { unfold A, B. simpl. by repeat (rewrite <- app_assoc; simpl). }
        rewrite E2, EB. repeat (rewrite fmap_app || rewrite fmap_cons). simpl. solve_Permutation. }
    assert (Hr0 : r <> 0). { apply (pool_in _ _ _ H4). rewrite Hperm. set_solver. }
    eexists r, _, bt'. split; [reflexivity|]. split; [|split; [done|]].
    - split.
      + cbn [hp with_size with_hp]. case_decide; [|done]. by apply (tree_hdr h' bt' (fun n => set_left None (set_right None n))).
      + done.
      + cbn [hp with_size with_hp]. case_decide; [|congruence]. rewrite fn_lookup_insert. simpl. congruence.
      + eapply (pool_perm (locs bt ++ own)); [rewrite Hperm; solve_Permutation|]. apply (pool_size _ _ _). apply pool_heap; [done|].
        intros x Hx. case_decide.
        * rewrite fn_lookup_insert_ne by set_solver. apply G8. set_solver.
        * apply G8. set_solver.
    - cbn [hp with_size with_hp size]. split; [done|]. destruct (decide (size t = 1)%Z) as [E1|E1].
      + rewrite decide_True by lia. rewrite fn_lookup_insert, fn_lookup_insert_ne by congruence. simpl. done.
      + rewrite decide_False by lia. done.
  Qed.

  Lemma inv_free own t bt l : inv (l :: own) t bt -> inv own (free t l) bt /\ size (free t l) = size t /\ hp (free t l) 0 = hp t 0.
  Proof.
    intros [H1 H2 H3 H4]. eapply (pool_perm _ (l :: locs bt ++ own)) in H4; [|solve_Permutation].
    pose proof (pool_nodup _ _ H4) as Hnd. rewrite !NoDup_cons in Hnd. destruct Hnd as (N0 & Nl & _).
    destruct (free_ok _ _ _ H4) as (G1 & G2 & G3).
    assert (E0 : hp (free t l) 0 = hp t 0) by (apply G3; set_solver). split; [|done]. split; try done.
    - destruct H1 as (F1 & F2 & F3). split; [by rewrite E0|]. split; [|done]. apply (holds_frame (hp t)); [done|].
      intros x Hx. apply G3. set_solver.
    - by rewrite E0.
  Qed.
  Lemma inv_clear own t bt : inv own t bt -> inv own (clear t) Leaf.
  Proof.
    intros [H1 H2 H3 H4]. split.
    - split; [done|]. split; [done|]. apply NoDup_singleton.
    - split; [done|]. split; [done|]. by exists 0.
    - unfold clear. cbn [hp]. rewrite fn_lookup_insert. done.
    - apply (pool_drop (locs bt)). unfold clear. 
      change (pool (locs bt ++ own) (with_hp (<[0:=set_left (Some 0) (set_right (Some 0) (set_parent None (hp t 0)))]> (hp t)) t)).
      apply pool_heap; [done|]. intros x Hx. rewrite fn_lookup_insert_ne; [done|]. set_solver.
  Qed.
  Lemma inv_new_node own t bt k v : inv own t bt ->
    inv (brk t :: own) (Tree (<[brk t := Node Red None None None k v]> (hp t)) (size t) (buf t) (brk t + 1)) bt.
  Proof.
    intros [H1 H2 H3 H4]. pose proof H4 as (fl & P1 & P2 & P3 & P4 & P5 & P6). rewrite Forall_forall in P6.
    split; try done.
    - destruct H1 as (F1 & F2 & F3). cbn [hp]. assert (0 < brk t) by (apply P6; by left). split; [|split; [|done]].
      + by rewrite fn_lookup_insert_ne by lia.
      + apply (holds_frame (hp t)); [done|]. intros x Hx. rewrite fn_lookup_insert_ne; [done|]. intros <-.
        assert (brk t < brk t); [|lia]. apply P6. right. rewrite !elem_of_app. tauto.
    - cbn [hp]. rewrite fn_lookup_insert_ne; [done|]. assert (0 < brk t) by (apply P6; by left). lia.
    - exists fl. cbn [hp buf brk]. splits; try done.
      + apply (chain_frame (hp t)); [done|]. intros x Hx. rewrite fn_lookup_insert_ne; [done|]. intros <-.
        assert (brk t < brk t); [|lia]. apply P6. right. rewrite !elem_of_app. tauto.
      + assert (Pm : 0 :: (locs bt ++ brk t :: own) ++ fl ++ seq (slice (buf t)) (cursor (buf t)) ≡ₚ
                  brk t :: 0 :: (locs bt ++ own) ++ fl ++ seq (slice (buf t)) (cursor (buf t))) by solve_Permutation.
        rewrite Pm. apply NoDup_cons. split; [|done]. intros Hx. specialize (P6 _ Hx). simpl in P6. lia.
      + assert (Pm : 0 :: (locs bt ++ brk t :: own) ++ fl ++ seq (slice (buf t)) (cursor (buf t)) ≡ₚ
                  brk t :: 0 :: (locs bt ++ own) ++ fl ++ seq (slice (buf t)) (cursor (buf t))) by solve_Permutation.
        rewrite Pm. constructor; [lia|]. apply Forall_forall. intros x Hx. specialize (P6 x Hx). simpl in P6. lia.
  Qed.
  (** the tree with the entry of node [n] rewritten *)
  Fixpoint rekey (n : loc) (k : K) (v : V) bt : btree :=
    match bt with
    | Leaf => Leaf
    | T c l k' v' a b => if decide (l = n) then T c l k v (rekey n k v a) (rekey n k v b) else T c l k' v' (rekey n k v a) (rekey n k v b)
    end.
  Lemma rekey_root n k v bt : root_of (rekey n k v bt) = root_of bt.
  Proof. destruct bt; [done|]. simpl. by case_decide. Qed.
  Lemma rekey_col n k v bt : col (rekey n k v bt) = col bt.
  Proof. destruct bt; [done|]. simpl. by case_decide. Qed.
  Lemma rekey_io n k v bt : io (rekey n k v bt) = (fun e : loc * (K * V) => if decide (e.1 = n) then (e.1, (k, v)) else e) <$> io bt.
  Proof.
    induction bt as [|c l k' v' a IHa b IHb]; [done|]. simpl. rewrite fmap_app, fmap_cons. cbn [fst]. by case_decide; simpl; rewrite IHa, IHb.
  Qed.
  Lemma rekey_locs n k v bt : locs (rekey n k v bt) = locs bt.
  Proof.
    unfold locs. rewrite rekey_io, <- list_fmap_compose. apply list_fmap_ext. intros i [l e] _. simpl. by case_decide.
  Qed.
  Lemma rekey_nrr n k v bt : no_red_red bt -> no_red_red (rekey n k v bt).
  Proof. induction bt as [|c l k' v' a IHa b IHb]; [done|]. simpl. intros (H1 & H2 & H3). case_decide; simpl; rewrite !rekey_col; auto. Qed.
  Lemma rekey_bh n k v bt : forall m, bh bt m -> bh (rekey n k v bt) m.
  Proof.
    induction bt as [|c l k' v' a IHa b IHb]; [done|]. intros m. simpl. case_decide; simpl; destruct c.
    1, 3: intros [H1 H2]; auto.
    all: intros (m' & -> & H1 & H2); exists m'; auto.
  Qed.
  Lemma rekey_holds h n k v bt : forall par, holds h par bt -> holds (<[n := set_kv k v (h n)]> h) par (rekey n k v bt).
  Proof.
    induction bt as [|c l k' v' a IHa b IHb]; intros par; [done|]. intros (H1 & H2 & H3). simpl. case_decide as D; simpl; rewrite !rekey_root.
    - subst l. split; [rewrite fn_lookup_insert; by rewrite H1|auto].
    - split; [by rewrite fn_lookup_insert_ne by congruence|auto].
  Qed.
  Lemma chain_right h h' p fl : chain h p fl -> (forall l, right (h' l) = right (h l)) -> chain h' p fl.
  Proof. revert p. induction fl as [|l fl IH]; intros p H He; [done|]. destruct H as [-> H]. split; [done|]. rewrite He. by apply IH. Qed.
  Lemma inv_set_node own t bt n k v : inv own t bt -> n <> 0 ->
    inv own (with_hp (<[n := set_kv k v (hp t n)]> (hp t)) t) (rekey n k v bt).
  Proof.
    intros [H1 H2 H3 H4] Hn. split; cbn [hp with_hp].
    - destruct H1 as (F1 & F2 & F3). split; [rewrite fn_lookup_insert_ne by done; by rewrite rekey_root|].
      split; [by apply rekey_holds|]. by rewrite rekey_locs.
    - destruct H2 as (F1 & F2 & m & F3). split; [by rewrite rekey_col|]. split; [by apply rekey_nrr|]. exists m. by apply rekey_bh.
    - by rewrite fn_lookup_insert_ne by done.
    - rewrite rekey_locs. destruct H4 as (fl & G1 & G). exists fl. split; [|done]. cbn [hp with_hp buf].
      apply (chain_right (hp t)); [done|]. intros l. destruct (decide (n = l)) as [<-|]; [by rewrite fn_lookup_insert|by rewrite fn_lookup_insert_ne].
  Qed.
End inv.
