From Verif Require Import Base Iter_Model Iter_Spec WalkSplit_Model WalkSplit_Spec WalkSplit_Proofs Split_Model
  LinkedList_Model LinkedList_Spec LinkedList_Proofs LinkedList_Proofs2 LinkedList_Proofs3.

Section hist.
  Context {T : Type} (zero : T).
  Implicit Types (m : mem T) (s : lists T).

  Lemma execs_app m os1 os2 :
    execs zero m (os1 ++ os2) =
    let '(m1, r1) := execs zero m os1 in let '(m2, r2) := execs zero m1 os2 in (m2, r1 ++ r2).
  Proof.
    revert m. induction os1 as [|o os IH]; intros m; simpl; [by destruct (execs zero m os2)|].
    destruct (exec zero m o) as [m1 r]. rewrite IH. destruct (execs zero m1 os) as [m2 rs].
    by destruct (execs zero m2 os2).
  Qed.

  Lemma spec_exec_det m s o s1 r1 s2 r2 : inv m s ->
    spec_exec zero s o s1 r1 -> spec_exec zero s o s2 r2 -> s1 = s2 /\ r1 = r2.
  Proof.
    intros I H1 H2. destruct o; cbn [spec_exec] in *; repeat case_decide; try (naive_solver).
    - destruct H1 as [-> H1], H2 as [-> H2]. split; [done|].
      destruct H1 as [(l1 & Hl1 & ->)|[Hn1 ->]], H2 as [(l2 & Hl2 & ->)|[Hn2 ->]]; try naive_solver.
      by rewrite (inv_disj m s e l1 l2).
    - destruct H1 as [-> H1], H2 as [-> H2]. split; [done|].
      destruct H1 as [(l1 & Hl1 & ->)|[Hn1 ->]], H2 as [(l2 & Hl2 & ->)|[Hn2 ->]]; try naive_solver.
      by rewrite (inv_disj m s e l1 l2).
  Qed.

  Lemma refine_execs os : forall m s rs s', inv m s -> spec_execs zero s os rs s' ->
    inv (execs zero m os).1 s' /\ (execs zero m os).2 = rs.
  Proof.
    induction os as [|o os IH]; intros m s rs s' I H; inversion H as [|? s1 ? ? r ? rs' Hp Ho Hr]; subst; [done|].
    destruct (refine_step zero m s o I Hp) as (s1' & E & I').
    destruct (spec_exec_det m s o _ _ _ _ I E Ho) as [-> E2].
    simpl. destruct (exec zero m o) as [m1 r1]. simpl in *. subst r1.
    destruct (IH m1 s1 rs' s' I' Hr) as [I2 E2]. destruct (execs zero m1 os) as [m2 r2]. simpl in *. by subst.
  Qed.

  Lemma proper_dec s o : {proper s o} + {~ proper s o}.
  Proof. destruct o; cbn [proper]; unfold known; try (by left); match goal with |- {?P} + {_} => exact (decide P) end. Qed.

  Lemma refine_history os : forall m s, inv m s ->
    (exists s', spec_execs zero s os (execs zero m os).2 s') \/
    (exists os1 o os2 s1 rs1, os = os1 ++ o :: os2 /\ spec_execs zero s os1 rs1 s1 /\
       rs1 = take (length os1) (execs zero m os).2 /\ ~ proper s1 o).
  Proof.
    induction os as [|o os IH]; intros m s I; [left; eexists; constructor|].
    destruct (proper_dec s o) as [Hp|Hp].
    - destruct (refine_step zero m s o I Hp) as (s1 & E & I').
      simpl. destruct (exec zero m o) as [m1 r1]. simpl in *.
      destruct (IH m1 s1 I') as [(s' & H)|(os1 & o' & os2 & s2 & rs1 & -> & H & Hr & Hn)];
        destruct (execs zero m1 _) as [m2 rs]; simpl in *.
      + left. eexists. econstructor; eauto.
      + right. exists (o :: os1), o', os2, s2, (r1 :: rs1). splits; [done|econstructor; eauto| |done].
        simpl. by rewrite Hr.
    - right. exists [], o, os, s, []. splits; [done|constructor|done|done].
  Qed.

  (** *** C08 *)
  Lemma foreign_ignored m s l e v : inv m s -> e ∉ elems s l -> lost s e <> Some l -> forall x,
    exec zero m (Remove l e) = (m, Ok (RVal (value_of zero s e))) /\
    exec zero m (InsertBefore l v e) = (m, Ok (RElt None)) /\
    exec zero m (InsertAfter l v e) = (m, Ok (RElt None)) /\
    exec zero m (MoveToFront l e) = (m, Ok RUnit) /\
    exec zero m (MoveToBack l e) = (m, Ok RUnit) /\
    exec zero m (MoveBefore l e x) = (m, Ok RUnit) /\
    exec zero m (MoveBefore l x e) = (m, Ok RUnit) /\
    exec zero m (MoveAfter l e x) = (m, Ok RUnit) /\
    exec zero m (MoveAfter l x e) = (m, Ok RUnit).
  Proof.
    intros I H1 H2 x. pose proof (rd_own_not m s e l I H2) as Ho.
    assert (own m e <> Some l) by tauto.
    unfold exec; cbn [run]. rewrite <- (rd_value zero m s e I).
    splits; (rewrite ?(decide_False (P := own m e = Some l)) by tauto); try done;
      by rewrite decide_True by tauto.
  Qed.
  Lemma self_move m l e : exec zero m (MoveBefore l e e) = (m, Ok RUnit) /\ exec zero m (MoveAfter l e e) = (m, Ok RUnit).
  Proof. unfold exec; cbn [run]. split; by rewrite decide_True by tauto. Qed.

  Lemma to_slice_one m l h v : nxt m (Root l) = Some (Elt h) -> nxt m (Elt h) = Some (Root l) ->
    vals m !! h = Some v -> to_slice zero l m = Ok [v].
  Proof.
    intros E1 E2 E3. unfold to_slice. pose proof (lookup_lt_Some _ _ _ E3) as L.
    destruct (length (vals m)) as [|n] eqn:El; [lia|]. cbn [collect].
    assert (N1 : iter_next zero l m (Root l) = Ok (Some v, Elt h)).
    { unfold iter_next. rewrite E1. rewrite decide_False by done. unfold value. by rewrite E3. }
    assert (N2 : iter_next zero l m (Elt h) = Ok (None, Root l)).
    { unfold iter_next. rewrite E2. by rewrite decide_True by done. }
    rewrite N1. cbn [rbind]. by rewrite N2.
  Qed.

  (** *** C09: Clear in any memory at all *)
  Lemma clear_then m l v :
    let m1 := (exec zero m (Clear l)).1 in
    (execs zero m1 [Len l; Front l; Back l; ToSlice l]) = (m1, [Ok (RInt 0); Ok (RElt None); Ok (RElt None); Panic]) /\
    (exists m2, execs zero m1 [PushFront l v; ToSlice l; Len l] =
      (m2, [Ok (RElt (Some (Elt (length (vals m))))); Ok (RSlice [v]); Ok (RInt 1)])) /\
    (exists m2, execs zero m1 [PushBack l v; ToSlice l; Len l] =
      (m2, [Ok (RElt (Some (Elt (length (vals m))))); Ok (RSlice [v]); Ok (RInt 1)])).
  Proof.
    cbn [exec run fst]. unfold clear.
    assert (Hp : forall at_, at_ = Some (Root l) -> 
       exists m2, insert_value l v at_ (init l (set_len l 0 (set_nxt (Root l) None m))) = Ok (m2, length (vals m)) /\
         to_slice zero l m2 = Ok [v] /\ len m2 l = 1%Z).
    { intros ? ->. unfold insert_value, link. cbn [deref rbind].
      set (h := length (vals _)). change (length (vals m)) with h.
      cbn [init set_len set_own set_nxt set_prv set_vals nxt prv own len vals deref rbind].
      repeat first [rewrite fn_lookup_insert | rewrite fn_lookup_insert_ne by done].
      cbn [init set_len set_own set_nxt set_prv set_vals nxt prv own len vals deref rbind].
      repeat first [rewrite fn_lookup_insert | rewrite fn_lookup_insert_ne by done].
      cbn [init set_len set_own set_nxt set_prv set_vals nxt prv own len vals deref rbind].
      eexists. split; [reflexivity|]. split.
      - apply (to_slice_one _ l h); cbn [init set_len set_own set_nxt set_prv set_vals nxt vals].
        + by repeat first [rewrite fn_lookup_insert | rewrite fn_lookup_insert_ne by done].
        + by repeat first [rewrite fn_lookup_insert | rewrite fn_lookup_insert_ne by done].
        + unfold h. cbn [init set_len set_nxt set_prv vals]. by rewrite lookup_app_r, Nat.sub_diag by done.
      - cbn [len set_len set_own set_prv set_nxt set_vals init].
        by repeat first [rewrite fn_lookup_insert | rewrite fn_lookup_insert_ne by done]. }
    splits.
    - cbn [execs]. unfold exec. cbn [run].
      unfold front, back. cbn [len set_len]. rewrite fn_lookup_insert. rewrite decide_True by done.
      unfold to_slice. cbn [collect]. unfold iter_next. cbn [nxt set_len set_nxt]. by rewrite fn_lookup_insert.
    - cbn [execs]. unfold exec. cbn [run].
      unfold lazy_init. cbn [nxt set_len set_nxt]. rewrite fn_lookup_insert.
      destruct (Hp (Some (Root l)) eq_refl) as (m2 & E & E2 & E3). rewrite E.
      cbn [rbind]. rewrite E2. cbn [rbind]. rewrite E3. eauto.
    - cbn [execs]. unfold exec. cbn [run].
      unfold lazy_init. cbn [nxt set_len set_nxt]. rewrite fn_lookup_insert.
      destruct (Hp (prv (init l (set_len l 0 (set_nxt (Root l) None m))) (Root l))) as (m2 & E & E2 & E3).
      { simpl. by rewrite fn_lookup_insert. }
      rewrite E.
      cbn [rbind]. rewrite E2. cbn [rbind]. rewrite E3. eauto.
  Qed.

  Lemma clear_orphan m s l e : inv m s -> e ∈ elems s l ->
    (execs zero m [Clear l; Remove l e; Len l]).2 = [Ok RUnit; Ok (RVal (value_of zero s e)); Ok (RInt (-1))].
  Proof.
    intros I He. destruct (elem_split _ _ He) as (p & q & Es).
    destruct (rd_next_split m s l e p q I Es) as [En Ep].
    cbn [execs]. unfold exec. cbn [run]. unfold clear. cbn [own set_len set_nxt].
    rewrite decide_True by (by eapply rd_own).
    unfold remove, unlink. cbn [nxt prv set_len set_nxt]. rewrite Ep. cbn [deref rbind nxt prv set_len set_nxt].
    rewrite !(fn_lookup_insert_ne (nxt m)) by done. rewrite En.
    set (pr := default _ _). set (nx := default _ _).
    assert (Hpr : pr <> Elt e).
    { unfold pr. pose proof (inv_nodup m s l I) as ND. rewrite Es in ND. apply NoDup_app in ND as (_ & D & _).
      destruct (last p) as [x|] eqn:E; [|done]. simpl. intros [= ->]. apply last_Some_elem_of in E. apply (D e E). left. }
    repeat first [rewrite fn_lookup_insert | rewrite fn_lookup_insert_ne by done]. rewrite En. fold nx. cbn [deref rbind].
    cbn [set_len set_own set_nxt set_prv set_vals nxt prv own len vals deref rbind].
    repeat first [rewrite fn_lookup_insert | rewrite fn_lookup_insert_ne by done].
    cbn [snd]. rewrite <- (rd_value zero m s e I). done.
  Qed.

  (** *** C10 *)
  Lemma iter_cycle m s l : inv m s -> ready s l = true -> forall k,
    exists outs fin, pulled (iter_next zero l m) (Root l) outs fin /\ length outs = k /\
      forall i, i < k -> outs !! i = Some (contents zero s l !! (i mod S (length (contents zero s l)))).
  Proof.
    intros I Hr k. unfold contents. rewrite fmap_length. set (n := length (elems s l)).
    assert (G : forall k j r, (Root l :: (Elt <$> elems s l)) !! j = Some r ->
      exists outs fin, pulled (iter_next zero l m) r outs fin /\ length outs = k /\
        forall i, i < k -> outs !! i = Some ((value_of zero s <$> elems s l) !! ((i + j) mod S n))).
    { clear k. induction k as [|k IH]; intros j r Hj.
      - exists [], r. splits; [constructor|done|lia].
      - pose proof (lookup_lt_Some _ _ _ Hj) as Lj. simpl in Lj. rewrite fmap_length in Lj. fold n in Lj.
        pose proof (iter_path zero m s l j r I Hr Hj) as E.
        destruct (elems s l !! j) as [e|] eqn:Ee.
        + destruct (IH (S j) (Elt e)) as (outs & fin & P & L & H); [simpl; by rewrite list_lookup_fmap, Ee|].
          exists (Some (value_of zero s e) :: outs), fin. splits; [by econstructor|simpl; lia|].
          intros [|i] Hi.
          * change (Some (Some (value_of zero s e)) = Some ((value_of zero s <$> elems s l) !! ((0 + j) mod S n))).
            rewrite Nat.add_0_l, Nat.mod_small, list_lookup_fmap, Ee by lia. done.
          * change (outs !! i = Some ((value_of zero s <$> elems s l) !! ((S i + j) mod S n))).
            rewrite H by lia. do 3 f_equal. lia.
        + destruct (IH 0 (Root l)) as (outs & fin & P & L & H); [done|].
          exists (None :: outs), fin. splits; [by econstructor|simpl; lia|].
          apply lookup_ge_None in Ee. fold n in Ee. assert (j = n) as -> by lia.
          intros [|i] Hi.
          * change (Some None = Some ((value_of zero s <$> elems s l) !! ((0 + n) mod S n))).
            rewrite Nat.add_0_l, Nat.mod_small, list_lookup_fmap by lia. by rewrite (lookup_ge_None_2 _ _ Ee).
          * change (outs !! i = Some ((value_of zero s <$> elems s l) !! ((S i + n) mod S n))).
            rewrite H by lia. do 2 f_equal. rewrite Nat.add_0_r.
            replace (S i + n) with (i + 1 * S n) by lia. by rewrite Nat.mod_add. }
    destruct (G k 0 (Root l) eq_refl) as (outs & fin & P & L & H). exists outs, fin. splits; [done|done|].
    intros i Hi. rewrite H by done. by rewrite Nat.add_0_r.
  Qed.

  (** *** C11 *)
  Lemma spec_execs_snoc s os rs s1 o r s2 : spec_execs zero s os rs s1 -> proper s1 o -> spec_exec zero s1 o s2 r ->
    spec_execs zero s (os ++ [o]) (rs ++ [r]) s2.
  Proof.
    induction 1; intros; simpl; [econstructor; eauto; constructor|]. econstructor; eauto.
  Qed.
  Lemma to_slice_spec m s l : inv m s -> ready s l = true -> exec zero m (ToSlice l) = (m, Ok (RSlice (contents zero s l))).
  Proof.
    intros I Hr. destruct (refine_step zero m s (ToSlice l) I Logic.I) as (s' & [-> E] & _). rewrite Hr in E.
    unfold exec in *. cbn [run] in *. destruct (to_slice zero l m); cbn [rbind snd] in *; by inversion E.
  Qed.
  Lemma contents_ext m s s' l : inv m s -> (exists vs, values s' = values s ++ vs) ->
    value_of zero s' <$> elems s l = contents zero s l.
  Proof.
    intros I [vs E]. apply list_fmap_ext. intros i e He. unfold value_of. rewrite E, lookup_app_l; [done|].
    apply (I_alloc _ _ I e l). left. by eapply elem_of_list_lookup_2.
  Qed.
  Lemma new_values s s' vs : values s' = values s ++ vs -> value_of zero s' <$> seq (next_id s) (length vs) = vs.
  Proof.
    intros E. apply list_eq. intros i. rewrite list_lookup_fmap.
    destruct (decide (i < length vs)) as [L|L].
    - rewrite lookup_seq_lt by done. simpl. unfold value_of. rewrite E, lookup_app_r by (unfold next_id; lia).
      destruct (lookup_lt_is_Some_2 vs i L) as [v Hv]. unfold next_id.
      replace (length (values s) + i - length (values s)) with i by lia. by rewrite Hv.
    - rewrite lookup_seq_ge by lia. simpl. symmetry. apply lookup_ge_None_2. lia.
  Qed.

  Lemma push_list_result m s o l s' out : inv m s ->
    (exec zero m o).2 = Ok RUnit -> inv (exec zero m o).1 s' -> ready s' l = true -> contents zero s' l = out ->
    (execs zero m [o; ToSlice l]).2 = [Ok RUnit; Ok (RSlice out)].
  Proof.
    intros I E I' Hr <-. cbn [execs]. destruct (exec zero m o) as [m1 r1]. simpl in *. subst r1.
    by rewrite (to_slice_spec m1 s' l I' Hr).
  Qed.

  Lemma push_back_list_copies os rs s l o : inv (execs zero mem0 os).1 s -> spec_execs zero lists0 os rs s ->
    exists s' rs', spec_execs zero lists0 (os ++ [PushBackList l o]) rs' s' /\
    contents zero s' l = contents zero s l ++ contents zero s o /\
    (exists fresh_handles, elems s' l = elems s l ++ fresh_handles /\
       Forall (fun h => next_id s <= h) fresh_handles /\ NoDup fresh_handles) /\
    (forall l', l' <> l -> elems s' l' = elems s l' /\ contents zero s' l' = contents zero s l') /\
    (execs zero (execs zero mem0 os).1 [PushBackList l o; ToSlice l]).2 =
      [Ok RUnit; Ok (RSlice (contents zero s l ++ contents zero s o))].
  Proof.
    intros I H. destruct (refine_step zero _ s (PushBackList l o) I Logic.I) as (s' & [E ->] & I').
    set (m := (execs zero mem0 os).1) in *.
    set (s' := with_elems _ _ _) in *. exists s'. eexists.
    assert (Ev : values s' = values s ++ contents zero s o) by done.
    assert (El : elems s' l = elems s l ++ seq (next_id s) (length (elems s o))) by (simpl; by rewrite fn_lookup_insert).
    assert (Ec : contents zero s' l = contents zero s l ++ contents zero s o).
    { unfold contents at 1. rewrite El, fmap_app. f_equal; [by apply (contents_ext m s s' l I); eauto|].
      etrans; [|apply (new_values s s' _ Ev)]. unfold contents. by rewrite fmap_length. }
    splits.
    - eapply spec_execs_snoc; [done|done|]. split; [reflexivity|done].
    - done.
    - eexists. split; [done|]. split; [|apply NoDup_seq]. apply Forall_forall. intros x Hx%elem_of_seq. lia.
    - intros l' Hl. assert (elems s' l' = elems s l') as Ee by (simpl; by rewrite fn_lookup_insert_ne).
      split; [done|]. unfold contents at 1. rewrite Ee. apply (contents_ext m s s' l' I). eauto.
    - eapply push_list_result; eauto. simpl. by rewrite fn_lookup_insert.
  Qed.
  Lemma push_front_list_copies os rs s l o : inv (execs zero mem0 os).1 s -> spec_execs zero lists0 os rs s ->
    exists s' rs', spec_execs zero lists0 (os ++ [PushFrontList l o]) rs' s' /\
    contents zero s' l = contents zero s o ++ contents zero s l /\
    (exists fresh_handles, elems s' l = fresh_handles ++ elems s l /\
       Forall (fun h => next_id s <= h) fresh_handles /\ NoDup fresh_handles) /\
    (forall l', l' <> l -> elems s' l' = elems s l' /\ contents zero s' l' = contents zero s l') /\
    (execs zero (execs zero mem0 os).1 [PushFrontList l o; ToSlice l]).2 =
      [Ok RUnit; Ok (RSlice (contents zero s o ++ contents zero s l))].
  Proof.
    intros I H. destruct (refine_step zero _ s (PushFrontList l o) I Logic.I) as (s' & [E ->] & I').
    set (m := (execs zero mem0 os).1) in *.
    set (s' := with_elems _ _ _) in *. exists s'. eexists.
    assert (Ev : values s' = values s ++ reverse (contents zero s o)) by done.
    assert (El : elems s' l = reverse (seq (next_id s) (length (elems s o))) ++ elems s l) by (simpl; by rewrite fn_lookup_insert).
    assert (Ec : contents zero s' l = contents zero s o ++ contents zero s l).
    { unfold contents at 1. rewrite El, fmap_app. f_equal; [|by apply (contents_ext m s s' l I); eauto].
      rewrite fmap_reverse. etrans; [|apply reverse_involutive]. f_equal.
      etrans; [|apply (new_values s s' _ Ev)]. unfold contents. by rewrite reverse_length, fmap_length. }
    splits.
    - eapply spec_execs_snoc; [done|done|]. split; [reflexivity|done].
    - done.
    - eexists. split; [done|]. split; [|by rewrite reverse_Permutation; apply NoDup_seq]. apply Forall_forall. intros x. rewrite elem_of_reverse. intros Hx%elem_of_seq. lia.
    - intros l' Hl. assert (elems s' l' = elems s l') as Ee by (simpl; by rewrite fn_lookup_insert_ne).
      split; [done|]. unfold contents at 1. rewrite Ee. apply (contents_ext m s s' l' I). eauto.
    - eapply push_list_result; eauto. simpl. by rewrite fn_lookup_insert.
  Qed.

  (** *** C13 *)
  Lemma node_path_elems m s l : inv m s -> ready s l = true -> forall q p, elems s l = p ++ q ->
    node_path (elt_next m) (Elt <$> head q) (Elt <$> q).
  Proof.
    intros I Hr. induction q as [|e q IH]; intros p Es; simpl; [done|].
    split; [done|]. destruct (rd_elt_next m s l e p q I Es) as [-> _]. apply (IH (p ++ [e])). by rewrite Es, <- app_assoc.
  Qed.
  Lemma iter_drains m s l : inv m s -> ready s l = true ->
    drains (iter_next zero l m) (Root l) (contents zero s l) (Root l).
  Proof.
    intros I Hr.
    assert (G : forall q p, elems s l = p ++ q ->
      exists r1, pulls (iter_next zero l m) (default (Root l) (Elt <$> last p)) (value_of zero s <$> q) r1 /\
        iter_next zero l m r1 = Ok (None, Root l)).
    { induction q as [|e q IH]; intros p Es.
      - exists (default (Root l) (Elt <$> last p)). split; [constructor|].
        pose proof (iter_path zero m s l (length p) (default (Root l) (Elt <$> last p)) I Hr) as E.
        rewrite E.
        + by rewrite lookup_ge_None_2 by (rewrite Es, app_nil_r; done).
        + rewrite Es, app_nil_r. destruct p as [|x p _] using rev_ind; [done|].
          rewrite last_snoc, app_length, Nat.add_1_r. simpl. rewrite fmap_app, lookup_app_r by (by rewrite fmap_length).
          by rewrite fmap_length, Nat.sub_diag.
      - destruct (IH (p ++ [e])) as (r1 & P & E); [by rewrite Es, <- app_assoc|]. rewrite last_snoc in P.
        exists r1. split; [|done]. rewrite fmap_cons. econstructor; [|exact P].
        rewrite (iter_path zero m s l (length p) _ I Hr).
        + rewrite Es. by rewrite lookup_app_r, Nat.sub_diag by done.
        + rewrite Es. destruct p as [|x p _] using rev_ind; [done|].
          rewrite last_snoc, app_length, Nat.add_1_r. simpl. rewrite !fmap_app, <- app_assoc, lookup_app_r by (by rewrite fmap_length).
          by rewrite fmap_length, Nat.sub_diag. }
    destruct (G (elems s l) [] eq_refl) as (r1 & P & E). exists r1. done.
  Qed.
  Lemma split_agrees m s l p : inv m s -> ready s l = true -> forall k,
    exists outs outs' fin fin',
      length outs = k /\
      pulled (split_next (contents zero s l) p) 0 outs fin /\
      pulled (walk_next (elt_next m) (len m l) p) (walk_init (front l m)) outs' fin' /\
      Forall2 (same_segment (elt_next m) (value zero m)
                 (fun xs => exists st, drains (iter_next zero l m) (Root l) xs st)) outs outs'.
  Proof.
    intros I Hr k.
    assert (Ec : contents zero s l = value zero m <$> (Elt <$> elems s l)).
    { unfold contents. rewrite <- list_fmap_compose. apply list_fmap_ext. intros i x _. symmetry. by apply (rd_value zero m s x). }
    assert (Ef : front l m = Elt <$> head (elems s l)).
    { unfold front. rewrite (I_len _ _ I). destruct (rd_root m s l I Hr) as [-> _].
      destruct (elems s l); [by rewrite decide_True|by rewrite decide_False]. }
    pose proof (walk_agrees (elt_next m) (value zero m)
       (fun xs => exists st, drains (iter_next zero l m) (Root l) xs st) (front l m) (Elt <$> elems s l) p) as W.
    rewrite fmap_length, <- (I_len _ _ I), <- Ec in W. apply W.
    - rewrite Ef. by eapply (node_path_elems m s l I Hr _ []).
    - eexists. by apply iter_drains.
  Qed.
End hist.
