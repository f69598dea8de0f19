From Verif Require Import Base Iter_Model Iter_Spec Split_Model Split_Proofs Stream_Model Stream_Spec Stream_Proofs Stream_Proofs2.

Section proofs.
  Context {U : Type}.
  Notation W := (world U).

  Lemma first_ok {T} (s : stream U T) ls w : source s (parallelism s) ls ->
    evaluates (fun fuel => first s fuel w) (head (first_segment ls), w).
  Proof.
    intros Hs. destruct (gyields_inv _ _ _ Hs w) as (o & g' & w1 & [N1 R1] & <- & Ho).
    destruct ls as [|l ls].
    - destruct Ho as [-> _]. exists N1. intros k Hk. unfold first. by rewrite R1 by lia.
    - destruct Ho as (it & -> & Hy & _).
      destruct (yields_inv _ _ _ Hy w) as (o & it' & w1 & [N2 R2] & <- & Ho).
      exists (N1 + N2). intros k Hk. unfold first. rewrite R1 by lia. rewrite R2 by lia.
      destruct l as [|x l]; [by subst o|by destruct Ho as [-> _]].
  Qed.

  Lemma run_source {T R} (f : R -> T -> U -> R * U) ls acc w :
    run_segments PSource f ls acc w =
    let '(a, u) := fold_left (fun '(a, u) x => f a x u) (concat ls) (acc, usr w) in (a, World (ctr w) u).
  Proof.
    rewrite run_segments_no_take by done. generalize (concat ls). intros l.
    destruct w as [m u]. revert acc u. induction l as [|x l IH]; intros acc u; [done|].
    cbn [run_segment element fold_left usr ctr]. destruct (f acc x u). apply IH.
  Qed.
  Lemma fold_ok {T R} (f : R -> T -> U -> R * U) (s : stream U T) ls init w : source s 0 ls ->
    evaluates (fun fuel => fold_with s init f fuel w)
      (let '(a, u) := fold_left (fun '(a, u) x => f a x u) (concat ls) (init, usr w) in (a, World (ctr w) u)).
  Proof. intros Hs. rewrite <- run_source. by apply (pipeline_fold PSource f s ls init w); [constructor|]. Qed.
  Lemma fold_pure {T R} (f : R -> T -> R) l a (u : U) :
    fold_left (fun '(a, u) x => (f a x, u)) l (a, u) = (fold_left f l a, u).
  Proof. revert a. induction l as [|x l IH]; intros a; [done|]. simpl. apply IH. Qed.
  Lemma fold_ok_pure {T R} (f : R -> T -> R) (s : stream U T) ls init w : source s 0 ls ->
    evaluates (fun fuel => fold_with s init (fun a x u => (f a x, u)) fuel w) (fold_left f (concat ls) init, w).
  Proof.
    intros Hs. pose proof (fold_ok (fun a x u => (f a x, u)) s ls init w Hs) as H.
    cbn beta in H. rewrite fold_pure in H. by destruct w.
  Qed.

  Lemma reduce_ok {T} zero (f : T -> T -> T) (s : stream U T) ls w : parallelism s = 0%Z -> source s 0 ls ->
    evaluates (fun fuel => reduce zero s (fun a x u => (f a x, u)) fuel w)
      (match first_segment ls with [] => zero | x :: _ => fold_left f (concat ls) x end, w).
  Proof.
    intros Hp Hs. assert (source s (parallelism s) ls) as Hs' by (by rewrite Hp).
    destruct (first_ok s ls w Hs') as [N1 R1].
    destruct (first_segment ls) as [|x l] eqn:El.
    - exists N1. intros k Hk. unfold reduce. by rewrite R1.
    - destruct (fold_ok_pure f s ls x w Hs) as [N2 R2].
      exists (N1 + N2). intros k Hk. unfold reduce. rewrite R1 by lia. simpl. apply R2. lia.
  Qed.

  Lemma fold_max (f : Z -> Z -> Z) (le : Z -> Z -> Prop) l : 
    (forall x, le x x) -> (forall x y z, le x y -> le y z -> le x z) ->
    (forall a b, (f a b = a \/ f a b = b) /\ le a (f a b) /\ le b (f a b)) -> forall a,
    let r := fold_left f l a in r ∈ a :: l /\ le a r /\ Forall (fun x => le x r) l.
  Proof.
    intros Hr Ht Hf. induction l as [|x l IH]; intros a; simpl.
    - splits; [by left|done|constructor].
    - destruct (IH (f a x)) as (H1 & H2 & H3). destruct (Hf a x) as (H4 & H5 & H6). splits.
      + apply elem_of_cons in H1 as [H1|H1]; [|by do 2 right].
        rewrite H1. destruct H4 as [->| ->]; [by left|by right; left].
      + eauto.
      + constructor; [eauto|done].
  Qed.
  Lemma first_segment_in {T} (ls : list (list T)) x l : first_segment ls = x :: l -> x ∈ concat ls.
  Proof. destruct ls as [|l0 ls]; [done|]. simpl. unfold first_segment. simpl. intros ->. left. Qed.
  Lemma smax_ok (s : stream U Z) ls w : parallelism s = 0%Z -> source s 0 ls ->
    exists r, evaluates (fun fuel => smax s fuel w) (r, w) /\
      match first_segment ls with
      | [] => r = 0%Z
      | _ => r ∈ concat ls /\ Forall (fun x => (x <= r)%Z) (concat ls) end.
  Proof.
    intros Hp Hs. eexists. split; [exact (reduce_ok 0%Z (fun a b => if (a >? b)%Z then a else b) s ls w Hp Hs)|].
    destruct (first_segment ls) as [|x l] eqn:El; [done|].
    pose proof (first_segment_in _ _ _ El) as Hin.
    destruct (fold_max (fun a b => if (a >? b)%Z then a else b) Z.le (concat ls)) with x as (H1 & H2 & H3);
      [lia|lia|intros; case_match; lia|].
    split; [|done]. apply elem_of_cons in H1 as [H1|H1]; [by rewrite H1|done].
  Qed.
  Lemma smin_ok (s : stream U Z) ls w : parallelism s = 0%Z -> source s 0 ls ->
    exists r, evaluates (fun fuel => smin s fuel w) (r, w) /\
      match first_segment ls with
      | [] => r = 0%Z
      | _ => r ∈ concat ls /\ Forall (fun x => (r <= x)%Z) (concat ls) end.
  Proof.
    intros Hp Hs. eexists. split; [exact (reduce_ok 0%Z (fun a b => if (a <? b)%Z then a else b) s ls w Hp Hs)|].
    destruct (first_segment ls) as [|x l] eqn:El; [done|].
    pose proof (first_segment_in _ _ _ El) as Hin.
    destruct (fold_max (fun a b => if (a <? b)%Z then a else b) (fun x y => (y <= x)%Z) (concat ls)) with x as (H1 & H2 & H3);
      [lia|intros; lia|intros; case_match; lia|].
    split; [|done]. apply elem_of_cons in H1 as [H1|H1]; [by rewrite H1|done].
  Qed.
  Lemma sum_ok (s : stream U Z) ls w : source s 0 ls ->
    evaluates (fun fuel => sum s fuel w) (foldr Z.add 0%Z (concat ls), w).
  Proof.
    intros Hs. pose proof (fold_ok_pure Z.add s ls 0%Z w Hs) as H.
    replace (foldr Z.add 0%Z (concat ls)) with (fold_left Z.add (concat ls) 0%Z); [done|].
    apply fold_symmetric; intros; lia.
  Qed.

  Lemma tryfold_seg_ok {T R} (f : R -> T -> U -> (R * bool) * U) l : forall (it : iter U T) acc w, yields eq it l ->
    exists N, forall n fuel, N <= n -> N <= fuel ->
      tryfold_seg f n it acc fuel w =
      Ok (let '(a, ok, u) := try_left f acc l (usr w) in (a, ok, World (ctr w) u)).
  Proof.
    induction l as [|x l IH]; intros it acc w Hy;
      destruct (yields_inv _ _ _ Hy w) as (o & it' & w1 & [N1 R1] & <- & Ho).
    - subst o. exists (S N1). intros [|n] fuel ? ?; [lia|]. cbn [tryfold_seg]. rewrite R1 by lia.
      simpl. by destruct w.
    - destruct Ho as [-> Hy']. cbn [try_left].
      destruct (f acc x (usr w)) as [[acc' ok] u'] eqn:Ef. destruct ok.
      + destruct (IH it' acc' (World (ctr w) u') Hy') as [N2 R2]. exists (S (N1 + N2)).
        intros [|n] fuel ? ?; [lia|]. cbn [tryfold_seg]. rewrite R1 by lia. unfold on_usr. rewrite Ef.
        apply R2; lia.
      + exists (S N1). intros [|n] fuel ? ?; [lia|]. cbn [tryfold_seg]. rewrite R1 by lia. unfold on_usr. by rewrite Ef.
  Qed.
  Lemma try_fold_ok {T} zero init (f : T -> T -> U -> (T * bool) * U) (s : stream U T) ls w : source s 0 ls ->
    evaluates (fun fuel => try_fold zero s init f fuel w)
      (match ls with
       | [] => (zero, false, w)
       | l :: _ => let '(a, ok, u) := try_left f init l (usr w) in (a, ok, World (ctr w) u) end).
  Proof.
    intros Hs. destruct (gyields_inv _ _ _ Hs w) as (o & g' & w1 & [N1 R1] & <- & Ho).
    destruct ls as [|l ls].
    - destruct Ho as [-> _]. exists N1. intros k Hk. unfold try_fold. by rewrite R1.
    - destruct Ho as (it & -> & Hy & _). destruct (tryfold_seg_ok f l it init w Hy) as [N2 R2].
      exists (N1 + N2). intros k Hk. unfold try_fold. rewrite R1 by lia. apply R2; lia.
  Qed.

  (** stopping at the first rejected element *)
  Lemma try_left_stops {T R} (f : R -> T -> R * bool) l (a : R) (u : U) :
    (exists a', try_left (fun a x u => (f a x, u)) a l u = (a', true, u)) \/
    (exists p x r a' a'', l = p ++ x :: r /\
       try_left (fun a x u => (f a x, u)) a p u = (a', true, u) /\ f a' x = (a'', false) /\
       try_left (fun a x u => (f a x, u)) a l u = (a'', false, u)).
  Proof.
    revert a. induction l as [|x l IH]; intros a; cbn [try_left].
    - left. by exists a.
    - destruct (f a x) as [a1 []] eqn:Ef.
      + destruct (IH a1) as [(a' & H)|(p & y & r & a' & a'' & -> & H1 & H2 & H3)].
        * left. exists a'. done.
        * right. exists (x :: p), y, r, a', a''. splits; [done| |done|done].
          cbn [try_left]. by rewrite Ef.
      + right. exists [], x, l, a, a1. splits; done.
  Qed.

  (** AllMatch / AnyMatch with a callback answering [q x], with effect [e x] *)
  Lemma try_left_match {T R} (q : T -> bool) (e : T -> U -> U) (a : R) l u :
    exists calls, visits_until_reject q l calls /\
      try_left (fun a b u => let '(r, u') := (q b, e b u) in ((a, r), u')) a l u =
      (a, forallb q l, fold_left (fun u x => e x u) calls u).
  Proof.
    revert u. induction l as [|x l IH]; intros u.
    - exists []. split; [by left|done].
    - cbn [try_left forallb]. destruct (q x) eqn:Eq.
      + destruct (IH (e x u)) as (calls & Hv & H). exists (x :: calls). split.
        * destruct Hv as [[-> Hv]|(p & v & r & -> & -> & Hp & Hv)].
          -- left. split; [done|]. by constructor.
          -- right. exists (x :: p), v, r. splits; [done|done|by constructor|done].
        * cbn [fold_left andb]. exact H.
      + exists [x]. split; [|done]. right. exists [], x, l. splits; [done|done|constructor|done].
  Qed.
  Lemma all_match_ok {T} zero (q : T -> bool) (e : T -> U -> U) (s : stream U T) ls w :
    parallelism s = 0%Z -> source s 0 ls ->
    let l := first_segment ls in
    exists calls, visits_until_reject q l calls /\
      evaluates (fun fuel => all_match zero s (fun x u => (q x, e x u)) fuel w)
        (match l with [] => false | _ => forallb q l end,
         World (ctr w) (fold_left (fun u x => e x u) calls (usr w))).
  Proof.
    intros Hp Hs l. assert (source s (parallelism s) ls) as Hs' by (by rewrite Hp).
    destruct (first_ok s ls w Hs') as [N1 R1]. fold l in R1.
    destruct l as [|x l'] eqn:El.
    - exists []. split; [by left|]. exists N1. intros k Hk. unfold all_match. rewrite R1 by lia. by destruct w.
    - destruct (try_left_match q e x (x :: l') (usr w)) as (calls & Hv & Ht).
      exists calls. split; [done|].
      destruct (try_fold_ok zero x (fun a b u => let '(r, u') := (q b, e b u) in ((a, r), u')) s ls w Hs) as [N2 R2].
      exists (N1 + N2). intros k Hk. unfold all_match. rewrite R1 by lia. cbn [head].
      rewrite R2 by lia. destruct ls as [|l0 ls]; [done|]. unfold l, first_segment in El. simpl in El. subst l0.
      by rewrite Ht.
  Qed.
  Lemma any_match_ok {T} zero (q : T -> bool) (e : T -> U -> U) (s : stream U T) ls w :
    parallelism s = 0%Z -> source s 0 ls ->
    let l := first_segment ls in
    exists calls, visits_until_reject (fun x => negb (q x)) l calls /\
      evaluates (fun fuel => any_match zero s (fun x u => (q x, e x u)) fuel w)
        (existsb q l, World (ctr w) (fold_left (fun u x => e x u) calls (usr w))).
  Proof.
    intros Hp Hs l. assert (source s (parallelism s) ls) as Hs' by (by rewrite Hp).
    destruct (first_ok s ls w Hs') as [N1 R1]. fold l in R1.
    destruct l as [|x l'] eqn:El.
    - exists []. split; [by left|]. exists N1. intros k Hk. unfold any_match. rewrite R1 by lia. by destruct w.
    - destruct (try_left_match (fun x => negb (q x)) e x (x :: l') (usr w)) as (calls & Hv & Ht).
      exists calls. split; [done|].
      destruct (try_fold_ok zero x (fun a b u => let '(r, u') := (q b, e b u) in ((a, negb r), u')) s ls w Hs) as [N2 R2].
      exists (N1 + N2). intros k Hk. unfold any_match. rewrite R1 by lia. cbn [head].
      rewrite R2 by lia. destruct ls as [|l0 ls]; [done|]. unfold l, first_segment in El. simpl in El. subst l0.
      cbn beta iota in Ht |- *. rewrite Ht. f_equal. f_equal.
      generalize (x :: l'). intros l2. induction l2 as [|y l2 IH]; [done|]. simpl.
      destruct (q y); simpl; [done|exact IH].
  Qed.
End proofs.
