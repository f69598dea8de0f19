From Verif Require Import Base Stream_Model Stream_Spec Stream_Proofs Stream_Proofs2 StreamPar_Proofs ParPipe_Proofs PanicPar_Model PanicPar_Spec.

Lemma panics_returns {U T} (it : iter U T) w o it' w' : panics it w -> returns it w o it' w' -> False.
Proof. intros [n H1] [m H2]. specialize (H1 (n + m) ltac:(lia)). specialize (H2 (n + m) ltac:(lia)). congruence. Qed.

Lemma runs_some {U T} (it : iter U T) l b w x it' w' : runs it l b -> returns it w (Some x) it' w' -> exists l', l = x :: l' /\ runs it' l' b.
Proof.
  intros H R. destruct l as [|v l]; cbn in H.
  - destruct b; [by destruct (panics_returns _ _ _ _ _ (H w) R)|]. destruct (H w) as (i & w1 & R1). by destruct (returns_det _ _ _ _ _ _ _ _ R R1).
  - destruct (H w) as (i & w1 & R1 & HY). destruct (returns_det _ _ _ _ _ _ _ _ R R1) as ([= <-] & <- & <-). eauto.
Qed.
Lemma runs_none {U T} (it : iter U T) l b w it' w' : runs it l b -> returns it w None it' w' -> l = [] /\ b = false.
Proof.
  intros H R. destruct l as [|v l]; cbn in H.
  - destruct b; [by destruct (panics_returns _ _ _ _ _ (H w) R)|done].
  - destruct (H w) as (i & w1 & R1 & HY). by destruct (returns_det _ _ _ _ _ _ _ _ R R1).
Qed.
Lemma runs_panics {U T} (it : iter U T) l b w : runs it l b -> panics it w -> l = [] /\ b = true.
Proof.
  intros H R. destruct l as [|v l]; cbn in H.
  - destruct b; [done|]. destruct (H w) as (i & w1 & R1). by destruct (panics_returns _ _ _ _ _ R R1).
  - destruct (H w) as (i & w1 & R1 & HY). by destruct (panics_returns _ _ _ _ _ R R1).
Qed.
Lemma runs_can {U T} (it : iter U T) l b w : runs it l b -> (exists o it' w', returns it w o it' w') \/ panics it w.
Proof. intros H. destruct l as [|v l]; cbn in H; [destruct b; [by right|]|]; left; [destruct (H w) as (?&?&?)|destruct (H w) as (?&?&?&?)]; eauto. Qed.
Lemma gruns_some {U T} (g : gen U T) cs w it g' w' : gruns g cs -> greturns g w (Some it) g' w' ->
  exists c cs', cs = c :: cs' /\ runs it (elems c) (booms c) /\ gruns g' cs'.
Proof.
  intros H R. destruct cs as [|c cs]; cbn in H.
  - destruct (H w) as (i & w1 & R1). by destruct (greturns_det _ _ _ _ _ _ _ _ R R1).
  - destruct (H w) as (i & g1 & w1 & R1 & HY & HG). destruct (greturns_det _ _ _ _ _ _ _ _ R R1) as ([= <-] & <- & <-). eauto 10.
Qed.
Lemma gruns_none {U T} (g : gen U T) cs w g' w' : gruns g cs -> greturns g w None g' w' -> cs = [].
Proof.
  intros H R. destruct cs as [|c cs]; [done|]. cbn in H. destruct (H w) as (i & g1 & w1 & R1 & HY & HG).
  by destruct (greturns_det _ _ _ _ _ _ _ _ R R1).
Qed.
Lemma gruns_can {U T} (g : gen U T) cs w : gruns g cs -> exists o g' w', greturns g w o g' w'.
Proof. intros H. destruct cs as [|c cs]; cbn in H; [destruct (H w) as (?&?&?)|destruct (H w) as (?&?&?&?&?)]; eauto. Qed.

(** a stream with fixed segments in the sense of C66 *)
Lemma yields_runs {U T} (it : iter U T) l : Y it l -> runs it l false.
Proof.
  revert it. induction l as [|v l IH]; intros it H; cbn; intros w; destruct (yields_inv _ _ _ H w) as (o & i & w1 & R1 & _ & Ho).
  - subst o. eauto.
  - destruct Ho as [-> Ho]. eauto 10.
Qed.
Lemma stable_segments {U T} (s : stream U T) p segs : stable s p segs -> segments s p ((fun l => Course l false) <$> segs).
Proof.
  unfold has_segments, segments. intros H. change (gyields Any (activate s p) segs) in H. revert H. generalize (activate s p).
  induction segs as [|l segs IH]; intros g H; cbn; intros w; destruct (gyields_inv _ _ _ H w) as (o & i & w1 & R1 & _ & Ho).
  - destruct Ho as [-> _]. eauto.
  - destruct Ho as (it & -> & HY & HG). exists it, i, w1. splits; [done|by apply yields_runs|by apply IH].
Qed.

(** ** stages *)
Section stages.
  Context {U : Type}.
  Lemma wrap_runs {T R} (k : iter U T -> iter U R) (h : list T -> bool -> course R) :
    (forall it l b, runs it l b -> runs (k it) (elems (h l b)) (booms (h l b))) ->
    forall s p cs, segments s p cs -> segments (wrap k s) p ((fun c => h (elems c) (booms c)) <$> cs).
  Proof.
    intros Hk s p cs. unfold segments, wrap. cbn [activate]. generalize (activate s p). clear s.
    induction cs as [|c cs IH]; intros g H; cbn in *; intros w.
    - destruct (H w) as (g' & w' & n & R1). exists (wrap_gen k g'), w', n. intros m Hm. cbn. by rewrite (R1 m Hm).
    - destruct (H w) as (it & g' & w' & [n R1] & HY & HG). exists (k it), (wrap_gen k g'), w'. splits; [|by apply Hk|by apply IH].
      exists n. intros m Hm. cbn. by rewrite (R1 m Hm).
  Qed.
  Lemma mapP_runs {T R} (f : T -> U -> option (R * U)) g : answers f g -> forall it l b, runs it l b ->
    runs (mapP_iter f it) (elems (map_course g l b)) (booms (map_course g l b)).
  Proof.
    intros Hf it l b. revert it. induction l as [|x l IH]; intros it H; cbn [map_course].
    - cbn in *. destruct b.
      + intros w. destruct (H w) as [n R1]. exists n. intros m Hm. cbn. by rewrite (R1 m Hm).
      + intros w. destruct (H w) as (it' & w' & n & R1). exists (mapP_iter f it'), w', n. intros m Hm. cbn. by rewrite (R1 m Hm).
    - cbn in H. destruct (g x) as [y|] eqn:Eg.
      + cbn [elems booms runs]. intros w. destruct (H w) as (it' & w' & [n R1] & HY). pose proof (Hf x (usr w')) as A. rewrite Eg in A.
        destruct (f x (usr w')) as [[y' u]|] eqn:Ef; [subst y'|done]. exists (mapP_iter f it'), (World (ctr w') u). split; [|by apply IH].
        exists n. intros m Hm. cbn. by rewrite (R1 m Hm), Ef.
      + cbn [elems booms runs]. intros w. destruct (H w) as (it' & w' & [n R1] & HY). pose proof (Hf x (usr w')) as A. rewrite Eg in A.
        destruct (f x (usr w')) as [[y' u]|] eqn:Ef; [done|]. exists n. intros m Hm. cbn. by rewrite (R1 m Hm), Ef.
  Qed.
  Lemma keep_runs {T} (f : T -> U -> option (bool * U)) q : answers f q -> forall l it b w, runs it l b ->
    exists n, match elems (filter_course q l b) with
    | [] => if booms (filter_course q l b) then forall m m', n <= m -> n <= m' -> keepP_loop f m it m' w = Panic
            else exists it' w', forall m m', n <= m -> n <= m' -> keepP_loop f m it m' w = Ok (None, it', w')
    | v :: l' => exists it' w' l0, (forall m m', n <= m -> n <= m' -> keepP_loop f m it m' w = Ok (Some v, it', w')) /\
        runs it' l0 b /\ l' = elems (filter_course q l0 b) /\ booms (filter_course q l b) = booms (filter_course q l0 b) /\ length l0 < length l
    end.
  Proof.
    intros Hf. induction l as [|x l IH]; intros it b w H; cbn [filter_course].
    - cbn in *. destruct b.
      + destruct (H w) as [n R1]. exists (S n). intros [|m] m' Hm Hm'; [lia|]. cbn. by rewrite (R1 m') by lia.
      + destruct (H w) as (it' & w' & n & R1). exists (S n), it', w'. intros [|m] m' Hm Hm'; [lia|]. cbn. by rewrite (R1 m') by lia.
    - cbn in H. destruct (H w) as (it' & w' & [n R1] & HY). pose proof (Hf x (usr w')) as A.
      destruct (q x) as [[]|] eqn:Eq; destruct (f x (usr w')) as [[y' u]|] eqn:Ef; try done; try subst y'.
      + cbn [elems booms]. exists (S n), it', (World (ctr w') u), l. splits; try done; [|cbn; lia].
        intros [|m] m' Hm Hm'; [lia|]. cbn. by rewrite (R1 m'), Ef by lia.
      + destruct (IH it' b (World (ctr w') u) HY) as [n' Hn']. exists (S (n + n')). destruct (elems (filter_course q l b)) as [|v l'].
        * destruct (booms (filter_course q l b)).
          -- intros [|m] m' Hm Hm'; [lia|]. cbn. rewrite (R1 m'), Ef by lia. apply Hn'; lia.
          -- destruct Hn' as (i2 & w2 & Hn'). exists i2, w2. intros [|m] m' Hm Hm'; [lia|]. cbn. rewrite (R1 m'), Ef by lia. apply Hn'; lia.
        * destruct Hn' as (i2 & w2 & l0 & Hn' & H2 & H3 & H4 & H5). exists i2, w2, l0. splits; try done; [|cbn; lia].
          intros [|m] m' Hm Hm'; [lia|]. cbn. rewrite (R1 m'), Ef by lia. apply Hn'; lia.
      + cbn [elems booms]. exists (S n). intros [|m] m' Hm Hm'; [lia|]. cbn. by rewrite (R1 m'), Ef by lia.
  Qed.
  Lemma keepP_runs {T} (f : T -> U -> option (bool * U)) q : answers f q -> forall it l b, runs it l b ->
    runs (keepP_iter f it) (elems (filter_course q l b)) (booms (filter_course q l b)).
  Proof.
    intros Hf it l b. remember (length l) as N eqn:HN. revert it l HN. induction (lt_wf N) as [N _ IH]. intros it l -> H.
    destruct (elems (filter_course q l b)) as [|v l'] eqn:El.
    - cbn. destruct (booms (filter_course q l b)) eqn:Eb; intros w; destruct (keep_runs f q Hf l it b w H) as [n Hn]; rewrite El, Eb in Hn.
      + exists n. intros m Hm. cbn. by rewrite Hn.
      + destruct Hn as (it' & w' & Hn). exists (keepP_iter f it'), w', n. intros m Hm. cbn. by rewrite Hn.
    - cbn. intros w. destruct (keep_runs f q Hf l it b w H) as [n Hn]; rewrite El in Hn. destruct Hn as (it' & w' & l0 & Hn & H2 & -> & H4 & H5).
      exists (keepP_iter f it'), w'. split; [exists n; intros m Hm; cbn; by rewrite Hn|]. rewrite H4. by eapply IH.
  Qed.
End stages.

(** ** sequential *)
Section seq.
  Context {U T R : Type} (f : R -> T -> option R).
  Lemma foldP_seg_ok l : forall (it : iter U T) b acc w, runs it l b -> exists n o,
    (forall m m', n <= m -> n <= m' -> foldP_seg f m it acc m' w = Ok ((folding f acc l).1, o)) /\
    fst <$> o = (if b then None else (folding f acc l).2).
  Proof.
    induction l as [|x l IH]; intros it b acc w H; cbn in H.
    - destruct b.
      + destruct (H w) as [n R1]. exists (S n), None. split; [|done]. intros [|m] m' Hm Hm'; [lia|]. cbn. by rewrite (R1 m') by lia.
      + destruct (H w) as (it' & w' & n & R1). exists (S n), (Some (acc, w')). split; [|done]. intros [|m] m' Hm Hm'; [lia|]. cbn. by rewrite (R1 m') by lia.
    - destruct (H w) as (it' & w' & [n R1] & HY). cbn [folding]. destruct (f acc x) as [a|] eqn:Ef.
      + destruct (IH it' b a w' HY) as (n' & o & Hn & Ho). exists (S (n + n')), o. destruct (folding f a l) as [calls o'] eqn:E. cbn in *. split; [|done].
        intros [|m] m' Hm Hm'; [lia|]. cbn. rewrite (R1 m'), Ef by lia. by rewrite Hn by lia.
      + exists (S n), None. split; [|by destruct b]. intros [|m] m' Hm Hm'; [lia|]. cbn. by rewrite (R1 m'), Ef by lia.
  Qed.
  Lemma foldP_gen_ok cs : forall (g : gen U T) acc w, gruns g cs -> exists n,
    forall m m', n <= m -> n <= m' -> foldP_gen f m g acc m' w = Ok (fold_courses f acc cs).
  Proof.
    induction cs as [|c cs IH]; intros g acc w H; cbn in H.
    - destruct (H w) as (g' & w' & n & R1). exists (S n). intros [|m] m' Hm Hm'; [lia|]. cbn. by rewrite (R1 m') by lia.
    - destruct (H w) as (it & g' & w' & [n R1] & HY & HG). destruct (foldP_seg_ok (elems c) it (booms c) acc w' HY) as (n1 & o & Hn1 & Ho).
      cbn [fold_courses]. destruct (folding f acc (elems c)) as [calls o'] eqn:E. cbn in *. rewrite <-Ho. destruct o as [[a w'']|]; cbn.
      + destruct (IH g' a w'' HG) as [n2 Hn2]. exists (S (n + n1 + n2)). intros [|m] m' Hm Hm'; [lia|]. cbn. rewrite (R1 m') by lia.
        rewrite Hn1 by lia. cbn. rewrite Hn2 by lia. cbn. by destruct (fold_courses f a cs).
      + exists (S (n + n1)). intros [|m] m' Hm Hm'; [lia|]. cbn. rewrite (R1 m') by lia. by rewrite Hn1 by lia.
  Qed.
End seq.
