From Verif Require Import Base Iter_Model Iter_Spec Split_Model Split_Proofs Stream_Model Stream_Spec Stream_Proofs.

Section proofs.
  Context {U : Type}.
  Notation W := (world U).

  (** ** slices are sources *)
  Lemma slice_iter_yields {T} (l : list T) : yields eq (slice_iter (U:=U) l) l.
  Proof.
    induction l as [|x l IH]; constructor; intros w.
    - eexists _, w. split; [|done]. exists 0. intros m _. done.
    - eexists _, w. splits; [|done|exact IH]. exists 0. intros m _. done.
  Qed.
  Lemma slice_gen_exhausted {T} (l : list T) p idx :
    split_next l p idx = Ok (None, idx) -> exhausted eq (slice_gen (U:=U) l p idx).
  Proof.
    intros H. cofix CIH. constructor. intros w. exists (slice_gen l p idx), w. splits; [|done|exact CIH].
    exists 0. intros m _. cbn. by rewrite H.
  Qed.
  Lemma slice_gen_yields {T} (l : list T) p idx segs fin :
    drains (split_next l p) idx segs fin -> split_next l p fin = Ok (None, fin) ->
    gyields eq (slice_gen (U:=U) l p idx) segs.
  Proof.
    intros (i & Hp & He) Hfin. induction Hp as [i|i i1 i2 v segs H1 Hp IH].
    - constructor. constructor. intros w. exists (slice_gen l p fin), w. splits; [|done|].
      + exists 0. intros m _. cbn. by rewrite He.
      + by apply slice_gen_exhausted.
    - constructor. intros w. eexists _, _, w. splits; [| |apply slice_iter_yields|by apply IH]; [|done].
      exists 0. intros m _. cbn. by rewrite H1.
  Qed.
  Lemma slice_source {T} (l : list T) q : source (slice_stream (U:=U) l q) 0 [l].
  Proof. unfold has_segments. eapply slice_gen_yields; apply split_seq; [done|done|lia]. Qed.

  (** ** pure pipelines *)
  Lemma fold_left_concat {A B} (f : A -> B -> A) ls a :
    fold_left (fun a l => fold_left f l a) ls a = fold_left f (concat ls) a.
  Proof. revert a. induction ls as [|l ls IH]; intros a; [done|]. simpl. by rewrite fold_left_app, IH. Qed.

  Definition step1 {T V} (p : pipe T V) (consume : V -> U -> U) (x : T) (w : W) : W :=
    match element p x w with
    | (Emit v, w') => World (ctr w') (consume v (usr w'))
    | (_, w') => w' end.

  (** pipelines without Take: every element of every segment is processed *)
  Fixpoint no_take {T V} (p : @pipe U T V) : Prop :=
    match p with
    | PSource => True
    | PMap p _ => no_take p
    | PFilter p _ | PInspect p _ | PSkipWhile p _ | PSkip _ p _ => no_take p
    | PTake _ _ _ => False
    | PEnumerate _ p => no_take p
    end.
  Lemma no_take_nostop {T V} (p : @pipe U T V) : no_take p -> forall x w w', element p x w <> (Stop, w').
  Proof.
    induction p; intros Hn x w w'; simpl in *; try done;
      specialize (IHp Hn x w); destruct (element p x w) as [[y| |] w1]; simpl in *; try done;
      try (destruct (f y (usr w1)) as [? ?]); try (destruct b); try case_decide; try done;
      intros E; simplify_eq; by eapply IHp.
  Qed.
  Lemma run_segment_no_take {T V R} (p : @pipe U T V) (f : R -> V -> U -> R * U) l acc w : no_take p ->
    run_segment p f l acc w =
    fold_left (fun '(acc, w) x => match element p x w with
                          | (Emit v, w') => let '(acc', u) := f acc v (usr w') in (acc', World (ctr w') u)
                          | (_, w') => (acc, w') end) l (acc, w).
  Proof.
    intros Hn. revert acc w. induction l as [|x l IH]; intros acc w; [done|]. cbn [run_segment fold_left].
    destruct (element p x w) as [[v| |] w1] eqn:E; [|by rewrite IH|by apply no_take_nostop in E].
    destruct (f acc v (usr w1)). by rewrite IH.
  Qed.
  Lemma run_segments_no_take {T V R} (p : @pipe U T V) (f : R -> V -> U -> R * U) ls acc w : no_take p ->
    run_segments p f ls acc w = run_segment p f (concat ls) acc w.
  Proof.
    intros Hn. revert acc w. induction ls as [|l ls IH]; intros acc w; [done|].
    cbn [run_segments concat]. rewrite (run_segment_no_take _ _ (l ++ concat ls)) by done.
    rewrite fold_left_app, <- (run_segment_no_take p f l) by done.
    destruct (run_segment p f l acc w) as [acc' w']. by rewrite IH, run_segment_no_take.
  Qed.

  Lemma run_segments_consume {T V} (p : @pipe U T V) (consume : V -> U -> U) ls w : no_take p ->
    (run_segments p (fun (_ : unit) v u => (tt, consume v u)) ls tt w).2 =
    fold_left (fun w x => step1 p consume x w) (concat ls) w.
  Proof.
    intros Hn. rewrite run_segments_no_take, run_segment_no_take by done.
    generalize (concat ls). intros l. revert w. induction l as [|x l IH]; intros w; [done|].
    cbn [fold_left]. unfold step1 at 2.
    destruct (element p x w) as [[v| |] w1]; apply IH.
  Qed.

  Lemma collects_run {T V} (p : @pipe U T V) (s : stream U T) ls w l m :
    NoDup (counters p) -> source s 0 ls ->
    (forall consume, (run_segments p (fun (_ : unit) v u => (tt, consume v u)) ls tt w).2 =
       World m (fold_left (fun u x => consume x u) l (usr w))) ->
    collects (build p s) w l m.
  Proof. intros Hnd Hs H consume. rewrite <- H. by apply pipeline_collect. Qed.

  (** *** Map, Filter, SkipWhile with callbacks whose answer is fixed *)
  Lemma collects_source {T} (s : stream U T) ls w : source s 0 ls -> collects s w (concat ls) (ctr w).
  Proof.
    intros Hs. apply (collects_run PSource s ls); [constructor|done|]. intros consume.
    rewrite run_segments_consume by done. generalize (concat ls). intros l. destruct w as [m u]. simpl.
    revert u. induction l as [|x l IH]; intros u; [done|]. simpl. unfold step1 at 2. simpl. apply IH.
  Qed.
  Lemma collects_map {T V} (f : T -> V) (s : stream U T) ls w : source s 0 ls ->
    collects (Map s (fun x u => (f x, u))) w (f <$> concat ls) (ctr w).
  Proof.
    intros Hs. apply (collects_run (PMap PSource _) s ls); [constructor|done|]. intros consume.
    rewrite run_segments_consume by done. generalize (concat ls). intros l. destruct w as [m u]. simpl.
    revert u. induction l as [|x l IH]; intros u; [done|]. simpl. unfold step1 at 2. simpl. apply IH.
  Qed.
  Lemma collects_filter {T} (f : T -> bool) (s : stream U T) ls w : source s 0 ls ->
    collects (Filter s (fun x u => (f x, u))) w (List.filter f (concat ls)) (ctr w).
  Proof.
    intros Hs. apply (collects_run (PFilter PSource _) s ls); [constructor|done|]. intros consume.
    rewrite run_segments_consume by done. generalize (concat ls). intros l. destruct w as [m u]. simpl.
    revert u. induction l as [|x l IH]; intros u; [done|]. simpl. unfold step1 at 2. simpl.
    destruct (f x); simpl; apply IH.
  Qed.
  Lemma collects_skipwhile {T} (f : T -> bool) (s : stream U T) ls w : source s 0 ls ->
    collects (SkipWhile s (fun x u => (f x, u))) w (List.filter (fun x => negb (f x)) (concat ls)) (ctr w).
  Proof.
    intros Hs. apply (collects_run (PSkipWhile PSource _) s ls); [constructor|done|]. intros consume.
    rewrite run_segments_consume by done. generalize (concat ls). intros l. destruct w as [m u]. simpl.
    revert u. induction l as [|x l IH]; intros u; [done|]. simpl. unfold step1 at 2. simpl.
    destruct (f x); simpl; apply IH.
  Qed.

  (** *** counters *)
  Lemma collects_skip {T} c n a (s : stream U T) ls w : source s 0 ls -> ctr w !! c = Some a ->
    collects (skip_at c s n) w (drop (Z.to_nat (n - 1 - a)) (concat ls))
             (<[c := (a + Z.of_nat (length (concat ls)))%Z]> (ctr w)).
  Proof.
    intros Hs Ha. apply (collects_run (PSkip c PSource n) s ls); [by apply NoDup_singleton|done|]. intros consume.
    rewrite run_segments_consume by done. generalize (concat ls). intros l. destruct w as [m u]. simpl in *.
    revert m u a Ha. induction l as [|x l IH]; intros m u a Ha.
    { simpl. rewrite Z.add_0_r, insert_id, drop_nil by done. done. }
    cbn [fold_left]. unfold step1 at 2. cbn [element ctr usr]. rewrite Ha. cbn [from_option id].
    case_decide as Hd.
    - rewrite (IH _ _ (a + 1)%Z) by apply lookup_insert. rewrite insert_insert. f_equal.
      + f_equal. simpl length. lia.
      + replace (Z.to_nat (n - 1 - a)) with (S (Z.to_nat (n - 1 - (a + 1)))) by lia. done.
    - rewrite (IH _ _ (a + 1)%Z) by apply lookup_insert. rewrite insert_insert. f_equal.
      + f_equal. simpl length. lia.
      + replace (Z.to_nat (n - 1 - a)) with 0 by lia. replace (Z.to_nat (n - 1 - (a + 1))) with 0 by lia.
        done.
  Qed.
  Lemma collects_enum {T} c a (s : stream U T) ls w : source s 0 ls -> ctr w !! c = Some a ->
    collects (enum_at c s) w (imap (fun i x => ((a + 1 + Z.of_nat i)%Z, x)) (concat ls))
             (<[c := (a + Z.of_nat (length (concat ls)))%Z]> (ctr w)).
  Proof.
    intros Hs Ha. apply (collects_run (PEnumerate c PSource) s ls); [by apply NoDup_singleton|done|]. intros consume.
    rewrite run_segments_consume by done. generalize (concat ls). intros l. destruct w as [m u]. simpl in *.
    revert m u a Ha. induction l as [|x l IH]; intros m u a Ha.
    { simpl. rewrite Z.add_0_r, insert_id by done. done. }
    cbn [fold_left]. unfold step1 at 2. cbn [element ctr usr]. rewrite Ha. cbn [from_option id].
    rewrite (IH _ _ (a + 1)%Z) by apply lookup_insert. rewrite insert_insert. f_equal.
    - f_equal. simpl length. lia.
    - cbn [imap fold_left]. f_equal.
      + apply imap_ext. intros i y _. simpl. f_equal. lia.
      + f_equal. f_equal. lia.
  Qed.
  Lemma run_take {T} c n a ls m u (consume : T -> U -> U) : m !! c = Some a ->
    (run_segments (PTake c PSource n) (fun (_ : unit) v u => (tt, consume v u)) ls tt (World m u)).2 =
    World (<[c := (a + Z.of_nat (length (take (Z.to_nat (n - a)) (concat ls))))%Z]> m)
          (fold_left (fun u x => consume x u) (take (Z.to_nat (n - a)) (concat ls)) u).
  Proof.
    revert m u a. induction ls as [|l ls IH]; intros m u a Ha.
    { simpl. rewrite take_nil. simpl. rewrite Z.add_0_r, insert_id by done. done. }
    cbn [run_segments].
    assert (Hseg : forall l m u a, m !! c = Some a ->
      run_segment (PTake c PSource n) (fun (_ : unit) (v : T) u => (tt, consume v u)) l tt (World m u) =
      (tt, World (<[c := (a + Z.of_nat (length (take (Z.to_nat (n - a)) l)))%Z]> m)
           (fold_left (fun u x => consume x u) (take (Z.to_nat (n - a)) l) u))).
    { clear. induction l as [|x l IH]; intros m u a Ha.
      - simpl. rewrite take_nil. simpl. rewrite Z.add_0_r, insert_id by done. done.
      - cbn [run_segment element ctr usr]. rewrite Ha. cbn [from_option id]. case_decide as Hd.
        + cbn [ctr usr]. rewrite ?Ha. cbn [from_option id].
          rewrite (IH _ _ (a + 1)%Z) by apply lookup_insert. rewrite insert_insert.
          replace (Z.to_nat (n - a)) with (S (Z.to_nat (n - (a + 1)))) by lia.
          cbn [take fold_left length]. f_equal. f_equal. f_equal. lia.
        + replace (Z.to_nat (n - a)) with 0 by lia. simpl. rewrite Z.add_0_r, insert_id by done. done. }
    rewrite (Hseg _ _ _ a) by done. rewrite (IH _ _ _ (lookup_insert _ _ _)). rewrite insert_insert. cbn [concat].
    rewrite firstn_app. rewrite app_length, fold_left_app.
    set (k := Z.to_nat (n - a)). rewrite take_length.
    replace (Z.to_nat (n - (a + Z.of_nat (k `min` length l)))) with (k - length l) by lia.
    f_equal. f_equal. lia.
  Qed.
  Lemma collects_take {T} c n a (s : stream U T) ls w : source s 0 ls -> ctr w !! c = Some a ->
    let l := take (Z.to_nat (n - a)) (concat ls) in
    collects (take_at c s n) w l (<[c := (a + Z.of_nat (length l))%Z]> (ctr w)).
  Proof.
    intros Hs Ha. apply (collects_run (PTake c PSource n) s ls); [by apply NoDup_singleton|done|]. intros consume.
    destruct w as [m u]. by apply run_take.
  Qed.

  (** the constructors allocate a fresh counter holding 0 *)
  Lemma new_ctr_spec (w : W) : let '(c, w') := new_ctr w in
    ctr w !! c = None /\ ctr w' !! c = Some 0%Z /\ usr w' = usr w /\
    (forall d, d <> c -> ctr w' !! d = ctr w !! d).
  Proof.
    unfold new_ctr. splits; simpl.
    - apply not_elem_of_dom, is_fresh.
    - apply lookup_insert.
    - done.
    - intros d Hd. by rewrite lookup_insert_ne.
  Qed.

  (** ** callbacks with arbitrary effects *)
  Lemma collect_run {T V} (p : @pipe U T V) (s : stream U T) ls w consume w' :
    NoDup (counters p) -> source s 0 ls -> no_take p ->
    fold_left (fun w x => step1 p consume x w) (concat ls) w = w' ->
    evaluates (fun fuel => collect (build p s) consume fuel w) w'.
  Proof. intros Hnd Hs Hn <-. rewrite <- run_segments_consume by done. by apply pipeline_collect. Qed.
  Lemma collect_map {T V} (f : T -> U -> V * U) (s : stream U T) ls w consume : source s 0 ls ->
    evaluates (fun fuel => collect (Map s f) consume fuel w)
      (World (ctr w) (fold_left (fun u x => let '(r, u') := f x u in consume r u') (concat ls) (usr w))).
  Proof.
    intros Hs. apply (collect_run (PMap PSource f) s ls); [constructor|done|done|].
    generalize (concat ls). intros l. destruct w as [m u]. simpl.
    revert u. induction l as [|x l IH]; intros u; [done|]. simpl. unfold step1 at 2. simpl.
    destruct (f x u). simpl. apply IH.
  Qed.
  Lemma collect_filter {T} (f : T -> U -> bool * U) (s : stream U T) ls w consume : source s 0 ls ->
    evaluates (fun fuel => collect (Filter s f) consume fuel w)
      (World (ctr w) (fold_left (fun u x => let '(b, u') := f x u in if b then consume x u' else u') (concat ls) (usr w))).
  Proof.
    intros Hs. apply (collect_run (PFilter PSource f) s ls); [constructor|done|done|].
    generalize (concat ls). intros l. destruct w as [m u]. simpl.
    revert u. induction l as [|x l IH]; intros u; [done|]. simpl. unfold step1 at 2. simpl.
    destruct (f x u) as [[] ?]; simpl; apply IH.
  Qed.
  Lemma collect_inspect {T} (f : T -> U -> U) (s : stream U T) ls w consume : source s 0 ls ->
    evaluates (fun fuel => collect (Inspect s f) consume fuel w)
      (World (ctr w) (fold_left (fun u x => consume x (f x u)) (concat ls) (usr w))).
  Proof.
    intros Hs. apply (collect_run (PInspect PSource f) s ls); [constructor|done|done|].
    generalize (concat ls). intros l. destruct w as [m u]. simpl.
    revert u. induction l as [|x l IH]; intros u; [done|]. simpl. unfold step1 at 2. simpl. apply IH.
  Qed.

  (** ** Zip, Chain, FlatMap *)
  Section eff.
    Context (E : W -> W -> Prop) (HR : forall w, E w w) (HT : forall a b c, E a b -> E b c -> E a c).

    Lemma yields_inv {T} (it : iter U T) l : yields E it l ->
      forall w, exists o it' w', returns it w o it' w' /\ E w w' /\
        match l with [] => o = None | v :: l' => o = Some v /\ yields E it' l' end.
    Proof.
      intros H w. inversion H as [? H0|? ? ? H0]; subst; destruct (H0 w) as (it' & w' & H1).
      - exists None, it', w'. naive_solver.
      - exists (Some v), it', w'. naive_solver.
    Qed.
    Lemma gyields_inv {T} (g : gen U T) ls : gyields E g ls ->
      forall w, exists o g' w', greturns g w o g' w' /\ E w w' /\
        match ls with [] => o = None /\ exhausted E g' | l :: ls' => exists it, o = Some it /\ yields E it l /\ gyields E g' ls' end.
    Proof.
      intros H w. inversion H as [? H0|? ? ? H0]; subst.
      - destruct H0 as [H0]. destruct (H0 w) as (g' & w' & H1 & H2 & H3). exists None, g', w'. naive_solver.
      - destruct (H0 w) as (it & g' & w' & H1). exists (Some it), g', w'. naive_solver.
    Qed.

    Lemma zip_yields {T R} l1 : forall l2 (a : iter U T) (b : iter U R),
      yields E a l1 -> yields E b l2 -> yields E (zip_iter a b) (zip l1 l2).
    Proof.
      induction l1 as [|x l1 IH]; intros l2 a b H1 H2.
      - constructor. intros w.
        destruct (yields_inv _ _ H1 w) as (o1 & a' & w1 & [N1 R1] & E1 & ->).
        destruct (yields_inv _ _ H2 w1) as (o2 & b' & w2 & [N2 R2] & E2 & _).
        exists (zip_iter a' b'), w2. split; [|by eauto]. exists (N1 + N2). intros m Hm. cbn.
        rewrite R1 by lia. rewrite R2 by lia. done.
      - destruct l2 as [|y l2]; simpl.
        + constructor. intros w.
          destruct (yields_inv _ _ H1 w) as (o1 & a' & w1 & [N1 R1] & E1 & -> & _).
          destruct (yields_inv _ _ H2 w1) as (o2 & b' & w2 & [N2 R2] & E2 & ->).
          exists (zip_iter a' b'), w2. split; [|by eauto]. exists (N1 + N2). intros m Hm. cbn.
          rewrite R1 by lia. rewrite R2 by lia. done.
        + constructor. intros w.
          destruct (yields_inv _ _ H1 w) as (o1 & a' & w1 & [N1 R1] & E1 & -> & H1').
          destruct (yields_inv _ _ H2 w1) as (o2 & b' & w2 & [N2 R2] & E2 & -> & H2').
          exists (zip_iter a' b'), w2. splits; [|by eauto|by apply IH]. exists (N1 + N2). intros m Hm. cbn.
          rewrite R1 by lia. rewrite R2 by lia. done.
    Qed.
    Lemma exhausted_coind {T} (P : gen U T -> Prop) :
      (forall g, P g -> forall w, exists g' w', greturns g w None g' w' /\ E w w' /\ P g') ->
      forall g, P g -> exhausted E g.
    Proof.
      intros HP. cofix CIH. intros g Hg. constructor. intros w.
      destruct (HP g Hg w) as (g' & w' & H1 & H2 & H3).
      exact (ex_intro _ g' (ex_intro _ w' (conj H1 (conj H2 (CIH g' H3))))).
    Qed.
    Lemma zip_exhausted {T R} : forall ls1 ls2 (a : gen U T) (b : gen U R),
      gyields E a ls1 -> gyields E b ls2 -> ls1 = [] \/ ls2 = [] -> exhausted E (zip_gen a b).
    Proof.
      intros ls1 ls2 a b H1 H2 Hor.
      apply (exhausted_coind (fun g => exists ls1 ls2 a b, g = zip_gen a b /\
         gyields E a ls1 /\ gyields E b ls2 /\ (ls1 = [] \/ ls2 = []))); [|by eauto 10].
      clear -HR HT. intros g (ls1 & ls2 & a & b & -> & H1 & H2 & Hor) w.
      destruct (gyields_inv _ _ H1 w) as (o1 & a' & w1 & [N1 R1] & E1 & Ho1).
      destruct (gyields_inv _ _ H2 w1) as (o2 & b' & w2 & [N2 R2] & E2 & Ho2).
      exists (zip_gen a' b'), w2. splits.
      - exists (N1 + N2). intros m Hm. cbn. rewrite R1 by lia. rewrite R2 by lia.
        destruct Hor; subst; simplify_eq.
        + destruct Ho1 as [-> _]. done.
        + destruct Ho2 as [-> _]. by destruct o1.
      - by eauto.
      - exists (tail ls1), (tail ls2), a', b'. splits; [done| | |].
        + destruct ls1; [destruct Ho1; by constructor|naive_solver].
        + destruct ls2; [destruct Ho2; by constructor|naive_solver].
        + destruct Hor; subst; [by left|by right].
    Qed.
    Lemma zip_gyields {T R} ls1 : forall ls2 (a : gen U T) (b : gen U R),
      gyields E a ls1 -> gyields E b ls2 -> gyields E (zip_gen a b) (zip_with zip ls1 ls2).
    Proof.
      induction ls1 as [|x ls1 IH]; intros ls2 a b H1 H2.
      - constructor. eapply zip_exhausted; eauto.
      - destruct ls2 as [|y ls2]; simpl.
        + constructor. eapply zip_exhausted; eauto.
        + constructor. intros w.
          destruct (gyields_inv _ _ H1 w) as (o1 & a' & w1 & [N1 R1] & E1 & ia & -> & Hy1 & H1').
          destruct (gyields_inv _ _ H2 w1) as (o2 & b' & w2 & [N2 R2] & E2 & ib & -> & Hy2 & H2').
          exists (zip_iter ia ib), (zip_gen a' b'), w2.
          splits; [|by eauto|by apply zip_yields|by apply IH]. exists (N1 + N2). intros m Hm. cbn.
          rewrite R1 by lia. rewrite R2 by lia. done.
    Qed.

    (** chain: remaining iterators [rest] of [pulls] after index [idx] *)
    Lemma chain_loop_yields {T} pulls (lss : list (list T)) : forall idx cur l w,
      yields E cur l ->
      Forall2 (yields E) (drop (S idx) pulls) lss -> S idx <= length pulls ->
      exists N o idx' cur' w', E w w' /\
        (forall n fuel, N <= n -> N <= fuel -> chain_loop pulls n idx cur fuel w = Ok (o, idx', cur', w')) /\
        match l ++ concat lss with
        | [] => o = None
        | v :: r => o = Some v /\ S idx' <= length pulls /\ exists l' lss', r = l' ++ concat lss' /\
                    yields E cur' l' /\ Forall2 (yields E) (drop (S idx') pulls) lss'
        end.
    Proof.
      induction lss as [|l2 lss IH]; intros idx cur l w Hy HF Hi;
        destruct (yields_inv _ _ Hy w) as (o & cur' & w1 & [N1 R1] & E1 & Ho).
      - destruct l as [|v l].
        + subst o. apply Forall2_nil_inv_r in HF.
          assert (length pulls = S idx) as Hl. { apply (f_equal length) in HF. rewrite drop_length in HF. simpl in HF. lia. }
          exists (S N1), None, (idx + 1), cur', w1. splits; [done| |done].
          intros [|n] fuel Hn Hf; [lia|]. cbn [chain_loop]. rewrite R1 by lia. rewrite decide_True by lia. done.
        + destruct Ho as [-> Hy']. exists (S N1), (Some v), idx, cur', w1. splits; [done| |].
          * intros [|n] fuel Hn Hf; [lia|]. cbn [chain_loop]. by rewrite R1 by lia.
          * simpl. splits; [done|done|]. exists l, []. splits; done.
      - destruct l as [|v l].
        + subst o. 
          destruct (drop (S idx) pulls) as [|c2 rest] eqn:Ed; [by apply Forall2_nil_inv_l in HF|].
          apply Forall2_cons in HF as [Hy2 HF].
          assert (pulls !! (idx + 1) = Some c2) as Hc2.
          { replace (idx + 1) with (S idx + 0) by lia. rewrite <- lookup_drop, Ed. done. }
          assert (Hlt : idx + 1 < length pulls) by (apply lookup_lt_Some in Hc2; lia).
          destruct (IH (idx + 1) c2 l2 w1 Hy2) as (N2 & o & idx' & cur2 & w2 & E2 & R2 & Hm).
          { replace (S (idx + 1)) with (S idx + 1) by lia. rewrite <- drop_drop, Ed. done. }
          { lia. }
          exists (S (N1 + N2)), o, idx', cur2, w2. splits; [by eauto| |exact Hm].
          intros [|n] fuel Hn Hf; [lia|]. cbn [chain_loop]. rewrite R1 by lia.
          rewrite decide_False by lia. rewrite Hc2. apply R2; lia.
        + destruct Ho as [-> Hy']. exists (S N1), (Some v), idx, cur', w1. splits; [done| |].
          * intros [|n] fuel Hn Hf; [lia|]. cbn [chain_loop]. by rewrite R1 by lia.
          * simpl. splits; [done|done|]. exists l, (l2 :: lss). splits; done.
    Qed.
    Lemma chain_iter_yields {T} pulls : forall k idx cur (l : list T) lss,
      length (l ++ concat lss) = k ->
      yields E cur l -> Forall2 (yields E) (drop (S idx) pulls) lss -> S idx <= length pulls ->
      yields E (chain_iter pulls idx cur) (l ++ concat lss).
    Proof.
      induction k as [k IH] using lt_wf_ind. intros idx cur l lss Hk Hy HF Hi.
      destruct (l ++ concat lss) as [|v r] eqn:El; constructor; intros w;
        destruct (chain_loop_yields pulls lss idx cur l w Hy HF Hi) as (N & o & idx' & cur' & w' & He & Hr & Hm);
        rewrite El in Hm.
      - subst o. exists (chain_iter pulls idx' cur'), w'. split; [|done]. exists N. intros m Hm. cbn.
        by rewrite Hr by lia.
      - destruct Hm as (-> & Hi' & l' & lss' & -> & Hy' & HF').
        exists (chain_iter pulls idx' cur'), w'. splits; [|done|].
        + exists N. intros m Hm. cbn. by rewrite Hr by lia.
        + eapply IH; [|reflexivity|done|done|done]. simpl in Hk. lia.
    Qed.

    Lemma chain_round_yields {T} (gs : list (gen U T)) lss : Forall2 (gyields E) gs lss -> forall w,
      exists N ps gs' w', E w w' /\
        (forall fuel, N <= fuel -> chain_round gs fuel w = Ok (ps, gs', w')) /\
        Forall2 (yields E) ps (omap head lss) /\
        Forall2 (gyields E) gs' (tail <$> lss).
    Proof.
      intros HF. induction HF as [|g ls gs lss Hg HF IH]; intros w.
      - exists 0, [], [], w. splits; [done|done|constructor|constructor].
      - destruct (gyields_inv _ _ Hg w) as (o & g' & w1 & [N1 R1] & E1 & Ho).
        destruct (IH w1) as (N2 & ps & gs' & w2 & E2 & R2 & Hp & Hgs).
        destruct ls as [|l ls].
        + destruct Ho as [-> Ho]. exists (N1 + N2), ps, (g' :: gs'), w2. splits; [by eauto| |done|].
          * intros fuel Hf. cbn [chain_round]. rewrite R1 by lia. by rewrite R2 by lia.
          * simpl. constructor; [|done]. by constructor.
        + destruct Ho as (it & -> & Hy & Hg').
          exists (N1 + N2), (it :: ps), (g' :: gs'), w2. splits; [by eauto| |by constructor|by constructor].
          intros fuel Hf. cbn [chain_round]. rewrite R1 by lia. by rewrite R2 by lia.
    Qed.
    Lemma omap_head_lookup {A} (lss : list (list A)) : omap head lss = omap (fun ls => ls !! 0) lss.
    Proof. induction lss as [|[|x l] lss IH]; [done|exact IH|]. cbn. f_equal. exact IH. Qed.
    Lemma omap_tail_lookup {A} (lss : list (list A)) r :
      omap (fun ls => ls !! r) (tail <$> lss) = omap (fun ls => ls !! S r) lss.
    Proof. induction lss as [|[|x l] lss IH]; [done|exact IH|]. cbn. destruct (l !! r); [f_equal|]; exact IH. Qed.
    Definition maxlen {A} (lss : list (list A)) := foldr max 0 (length <$> lss).
    Lemma maxlen_tail {A} (lss : list (list A)) : maxlen (tail <$> lss) = pred (maxlen lss).
    Proof.
      unfold maxlen. induction lss as [|[|x l] lss IH]; [done|exact IH|].
      cbn [fmap list_fmap foldr length tail]. etrans; [apply (f_equal (Nat.max _) IH)|]. lia.
    Qed.
    Lemma maxlen_0 {A} (lss : list (list A)) : maxlen lss = 0 <-> omap head lss = [].
    Proof.
      unfold maxlen. induction lss as [|[|x l] lss IH]; [done|exact IH|]. simpl.
      split; [lia|done].
    Qed.
    Lemma chain_segments_unfold {T} (lss : list (list (list T))) :
      chain_segments lss = match omap head lss with
                           | [] => []
                           | hs => concat hs :: chain_segments (tail <$> lss) end.
    Proof.
      pose proof (maxlen_0 lss) as H0. pose proof (maxlen_tail lss) as Ht. unfold maxlen in *.
      unfold chain_segments. rewrite Ht.
      destruct (foldr max 0 (length <$> lss)) as [|k] eqn:Ek.
      - rewrite (proj1 H0 eq_refl). done.
      - destruct (omap head lss) as [|h hs] eqn:Eh; [by pose proof (proj2 H0 eq_refl)|].
        cbn [seq fmap list_fmap]. f_equal.
        + by rewrite <- omap_head_lookup, Eh.
        + cbn [Nat.pred]. rewrite <- fmap_S_seq. rewrite <- list_fmap_compose. apply list_fmap_ext.
          intros i x _. simpl. by rewrite omap_tail_lookup.
    Qed.

    Lemma chain_exhausted {T} : forall (lss : list (list (list T))) gs,
      Forall2 (gyields E) gs lss -> omap head lss = [] -> exhausted E (chain_gen gs).
    Proof.
      intros lss gs HF Hh.
      apply (exhausted_coind (fun g => exists lss gs, g = chain_gen gs /\
         Forall2 (gyields E) gs lss /\ omap head lss = [])); [|by eauto 10].
      clear -HR HT. intros g (lss & gs & -> & HF & Hh) w.
      destruct (chain_round_yields gs lss HF w) as (N & ps & gs' & w' & He & Hr & Hp & Hg).
      rewrite Hh in Hp. apply Forall2_nil_inv_r in Hp. subst ps.
      exists (chain_gen gs'), w'. splits.
      - exists N. intros m Hm. cbn. by rewrite Hr.
      - done.
      - exists (tail <$> lss), gs'. splits; [done|done|].
        apply maxlen_0. rewrite maxlen_tail. apply maxlen_0 in Hh. by rewrite Hh.
    Qed.
    Lemma chain_gyields {T} k : forall (lss : list (list (list T))) gs,
      maxlen lss = k -> Forall2 (gyields E) gs lss -> gyields E (chain_gen gs) (chain_segments lss).
    Proof.
      induction k as [|k IH]; intros lss gs Hk HF; rewrite chain_segments_unfold.
      - apply maxlen_0 in Hk. rewrite Hk. constructor. by eapply chain_exhausted.
      - destruct (omap head lss) as [|h hs] eqn:Eh.
        { apply maxlen_0 in Eh. lia. }
        constructor. intros w.
        destruct (chain_round_yields gs lss HF w) as (N & ps & gs' & w' & He & Hr & Hp & Hg).
        rewrite Eh in Hp. destruct ps as [|p ps]; [by apply Forall2_nil_inv_l in Hp|].
        exists (chain_iter (p :: ps) 0 p), (chain_gen gs'), w'. splits.
        + exists N. intros m Hm. cbn. by rewrite Hr.
        + done.
        + apply Forall2_cons in Hp as [Hp1 Hp2]. cbn [concat].
          eapply chain_iter_yields; [reflexivity|done|done|simpl; lia].
        + apply IH; [|done]. rewrite maxlen_tail, Hk. done.
    Qed.

    (** FlatMap; [segs t] are the segments of the sub-stream for [t] *)
    Context {T V : Type} (f : T -> U -> stream U V * U) (segs : T -> list (list V)).
    Hypothesis Hf : forall t u, gyields E (activate (f t u).1 0) (segs t).
    Hypothesis He : forall t w, E w (on_usr (f t) w).2.

    Lemma on_usr_fst t (w : W) : (on_usr (f t) w).1 = (f t (usr w)).1.
    Proof. unfold on_usr. by destruct (f t (usr w)). Qed.

    Lemma flat_loop_yields lup : forall (up : iter U T) cur l w,
      yields E up lup -> yields E cur l ->
      exists N o up' cur' w', E w w' /\
        (forall n fuel, N <= n -> N <= fuel -> flat_loop f n up cur fuel w = Ok (o, up', cur', w')) /\
        match l ++ flat_elements segs lup with
        | [] => o = None
        | v :: r => o = Some v /\ exists l' lup' c, r = l' ++ flat_elements segs lup' /\ cur' = Some c /\
                    yields E c l' /\ yields E up' lup'
        end.
    Proof.
      induction lup as [|t lup IH]; intros up cur l w Hu Hc;
        destruct (yields_inv _ _ Hc w) as (o & cur' & w1 & [N1 R1] & E1 & Ho).
      - destruct l as [|v l].
        + subst o. destruct (yields_inv _ _ Hu w1) as (o2 & up' & w2 & [N2 R2] & E2 & ->).
          exists (S (N1 + N2)), None, up', (Some cur'), w2. splits; [by eauto| |done].
          intros [|n] fuel ? ?; [lia|]. cbn [flat_loop]. rewrite R1 by lia. by rewrite R2 by lia.
        + destruct Ho as [-> Ho]. exists (S N1), (Some v), up, (Some cur'), w1. splits; [done| |].
          * intros [|n] fuel ? ?; [lia|]. cbn [flat_loop]. by rewrite R1 by lia.
          * simpl. split; [done|]. exists l, [], cur'. done.
      - destruct l as [|v l].
        + subst o. destruct (yields_inv _ _ Hu w1) as (o2 & up' & w2 & [N2 R2] & E2 & -> & Hu').
          pose proof (on_usr_fst t w2) as Es. pose proof (He t w2) as E3.
          destruct (on_usr (f t) w2) as [s w3] eqn:Ef. simpl in Es, E3.
          pose proof (Hf t (usr w2)) as Hs. rewrite <- Es in Hs.
          destruct (gyields_inv _ _ Hs w3) as (o3 & g' & w4 & [N3 R3] & E4 & Ho3).
          cbn [flat_elements]. destruct (segs t) as [|seg sgs].
          * destruct Ho3 as [-> _]. exists (S (N1 + N2 + N3)), None, up', None, w4. splits; [by eauto| |done].
            intros [|n] fuel ? ?; [lia|]. cbn [flat_loop]. rewrite R1 by lia. rewrite R2 by lia. rewrite Ef.
            by rewrite R3 by lia.
          * destruct Ho3 as (c & -> & Hyc & _).
            destruct (IH up' c seg w4 Hu' Hyc) as (N4 & o & up2 & cur2 & w5 & E5 & R5 & Hm).
            exists (S (N1 + N2 + N3 + N4)), o, up2, cur2, w5. splits; [by eauto 10| |exact Hm].
            intros [|n] fuel ? ?; [lia|]. cbn [flat_loop]. rewrite R1 by lia. rewrite R2 by lia. rewrite Ef.
            rewrite R3 by lia. apply R5; lia.
        + destruct Ho as [-> Ho]. exists (S N1), (Some v), up, (Some cur'), w1. splits; [done| |].
          * intros [|n] fuel ? ?; [lia|]. cbn [flat_loop]. by rewrite R1 by lia.
          * simpl. split; [done|]. exists l, (t :: lup), cur'. done.
    Qed.
    Lemma flat_iter_yields k : forall up cur l lup, length (l ++ flat_elements segs lup) = k ->
      yields E up lup -> yields E cur l -> yields E (flat_iter f up (Some cur)) (l ++ flat_elements segs lup).
    Proof.
      induction k as [k IH] using lt_wf_ind. intros up cur l lup Hk Hu Hc.
      destruct (l ++ flat_elements segs lup) as [|v r] eqn:El; constructor; intros w;
        destruct (flat_loop_yields lup up cur l w Hu Hc) as (N & o & up' & cur' & w' & E1 & R1 & Hm);
        rewrite El in Hm.
      - subst o. exists (flat_iter f up' cur'), w'. split; [|done]. exists N. intros m Hm. cbn. by rewrite R1.
      - destruct Hm as (-> & l' & lup' & c & -> & -> & Hc' & Hu').
        exists (flat_iter f up' (Some c)), w'. splits; [|done|].
        + exists N. intros m Hm. cbn. by rewrite R1.
        + eapply IH; [|reflexivity|done|done]. simpl in Hk. lia.
    Qed.
    Lemma flat_iter_none_yields up : yields E (flat_iter f up None) [].
    Proof. constructor. intros w. exists (flat_iter f up None), w. split; [|done]. exists 0. intros m _. done. Qed.

    Lemma flat_exhausted : forall g, exhausted E g -> exhausted E (flat_gen f g).
    Proof.
      cofix CIH. intros g [Hg]. constructor. intros w. destruct (Hg w) as (g' & w' & [N HN] & E1 & Hg').
      exists (flat_gen f g'), w'. splits; [|done|by apply CIH]. exists N. intros m Hm. cbn. by rewrite HN.
    Qed.
    Lemma flat_gyields ls : forall g, gyields E g ls -> gyields E (flat_gen f g) (flat_elements segs <$> ls).
    Proof.
      induction ls as [|l ls IH]; intros g Hg.
      - inversion Hg; subst. constructor. by apply flat_exhausted.
      - constructor. intros w. destruct (gyields_inv _ _ Hg w) as (o & g' & w1 & [N1 R1] & E1 & up & -> & Hy & Hg').
        destruct (yields_inv _ _ Hy w1) as (o2 & up' & w2 & [N2 R2] & E2 & Ho).
        destruct l as [|t l].
        + subst o2. exists (flat_iter f up' None), (flat_gen f g'), w2. splits; [|by eauto|apply flat_iter_none_yields|by apply IH].
          exists (N1 + N2). intros m Hm. cbn. rewrite R1 by lia. by rewrite R2 by lia.
        + destruct Ho as [-> Hu'].
          pose proof (on_usr_fst t w2) as Es. pose proof (He t w2) as E3.
          destruct (on_usr (f t) w2) as [s w3] eqn:Ef. simpl in Es, E3.
          pose proof (Hf t (usr w2)) as Hs. rewrite <- Es in Hs.
          destruct (gyields_inv _ _ Hs w3) as (o3 & sg & w4 & [N3 R3] & E4 & Ho3).
          cbn [flat_elements]. destruct (segs t) as [|seg sgs].
          * destruct Ho3 as [-> _]. exists (flat_iter f up' None), (flat_gen f g'), w4.
            splits; [|by eauto|apply flat_iter_none_yields|by apply IH].
            exists (N1 + N2 + N3). intros m Hm. cbn. rewrite R1 by lia. rewrite R2 by lia. rewrite Ef.
            by rewrite R3 by lia.
          * destruct Ho3 as (c & -> & Hyc & _). exists (flat_iter f up' (Some c)), (flat_gen f g'), w4.
            splits; [|by eauto| |by apply IH].
            -- exists (N1 + N2 + N3). intros m Hm. cbn. rewrite R1 by lia. rewrite R2 by lia. rewrite Ef.
               by rewrite R3 by lia.
            -- eapply flat_iter_yields; [reflexivity|done|done].
    Qed.
  End eff.
End proofs.
