(** Property theorems for FoldWith and Collect at any parallelism over any stream (C66). *)
From Verif Require Import Base Split_Model Stream_Model Stream_Spec Stream_Proofs Stream_Proofs2 StreamPar_Proofs
  ParPipe_Model ParPipe_Spec ParPipe_Proofs ParPipe_Proofs2 ParPipe_Proofs3 ParPipe_Proofs4.
From Verif Require Stream_Props.

(** ** FoldWith on any stream with fixed segments; [segs] are what the generator
    hands out when activated with the stream's parallelism *)

(** A returned value combines init with the folds of exactly as many segments as
    the parallelism says, in some order. *)
Theorem C66_fold_value :
  forall (U T R : Type) (s : stream U T) (init : R) (f : R -> T -> R) (comb : R -> R -> R) (w : world U) segs,
  (1 <= parallelism s)%Z -> stable s (parallelism s) segs ->
  forall x v, rtc (gstep (parallelism s) init f comb) (ginit (parallelism s) s w) x -> gm x = GReturned v ->
  exists used lost, used ++ lost ≡ₚ segs /\ Z.of_nat (length used) = parallelism s /\
    v = fold_left comb ((fun seg => fold_left f seg init) <$> used) init.
Proof. intros U T R s init f comb w segs Hp Hs x v. by apply gfold_value. Qed.
Print Assumptions C66_fold_value.

(** As many segments as the parallelism says: no schedule panics or gets stuck,
    all are finite, and all can be completed. *)
Theorem C66_fold_returns :
  forall (U T R : Type) (s : stream U T) (init : R) (f : R -> T -> R) (comb : R -> R -> R) (w : world U) segs,
  (1 <= parallelism s)%Z -> stable s (parallelism s) segs -> Z.of_nat (length segs) = parallelism s ->
  let go := gstep (parallelism s) init f comb in let start := ginit (parallelism s) s w in
  (forall x, rtc go start x -> gcrashed x = false /\ ((exists y, go x y) \/ (exists v, gm x = GReturned v))) /\
  (exists b, forall m x, nsteps go m start x -> m <= b) /\
  (forall x, rtc go start x -> exists y v, rtc go x y /\ gm y = GReturned v).
Proof.
  intros U T R s init f comb w segs Hp Hs Hk go start. destruct (gfold_ok (parallelism s) init f comb s w segs Hp Hs Hk) as [H1 H2].
  split; [exact H1|]. split; [|exact H2]. by apply (gfold_bounded _ _ _ _ _ _ segs).
Qed.
Print Assumptions C66_fold_returns.

(** ... and with a commutative, associative combiner with unit init the value is
    the fold over all elements *)
Theorem C66_fold_sequential :
  forall (U T R : Type) (s : stream U T) (init : R) (f : R -> T -> R) (comb : R -> R -> R) (w : world U) segs,
  (1 <= parallelism s)%Z -> stable s (parallelism s) segs -> Z.of_nat (length segs) = parallelism s ->
  (forall a b c, comb a (comb b c) = comb (comb a b) c) -> (forall a b, comb a b = comb b a) ->
  (forall a, comb init a = a) -> (forall a b x, f (comb a b) x = comb a (f b x)) ->
  forall x v, rtc (gstep (parallelism s) init f comb) (ginit (parallelism s) s w) x -> gm x = GReturned v ->
  v = fold_left f (concat segs) init.
Proof.
  intros U T R s init f comb w segs Hp Hs Hk Ha Hc Hi Hh x v Hr Hm.
  destruct (gfold_value _ _ _ _ _ _ _ Hp Hs x v Hr Hm) as (used & lost & P & Hl & ->).
  assert (lost = []) as ->. { apply Permutation_length in P as L. rewrite app_length in L. destruct lost; [done|]. simpl in L. lia. }
  rewrite app_nil_r in P. rewrite <- (comb_segs init f comb Hc Hi Hh segs). apply comb_perm; [done|done|]. by rewrite P.
Qed.
Print Assumptions C66_fold_sequential.

(** Fewer segments: it never returns.  (It does not panic either.) *)
Theorem C66_fold_too_few_segments :
  forall (U T R : Type) (s : stream U T) (init : R) (f : R -> T -> R) (comb : R -> R -> R) (w : world U) segs,
  (1 <= parallelism s)%Z -> stable s (parallelism s) segs -> (Z.of_nat (length segs) < parallelism s)%Z ->
  forall x, rtc (gstep (parallelism s) init f comb) (ginit (parallelism s) s w) x ->
  gcrashed x = false /\ forall v, gm x <> GReturned v.
Proof. intros U T R s init f comb w segs Hp Hs Hk x. by apply (gfold_too_few _ _ _ _ _ _ segs). Qed.
Print Assumptions C66_fold_too_few_segments.

(** More segments: some schedule returns and then a goroutine sends on the closed channel. *)
Theorem C66_fold_too_many_segments :
  forall (U T R : Type) (s : stream U T) (init : R) (f : R -> T -> R) (comb : R -> R -> R) (w : world U) segs,
  (1 <= parallelism s)%Z -> stable s (parallelism s) segs -> (parallelism s < Z.of_nat (length segs))%Z ->
  exists x v, rtc (gstep (parallelism s) init f comb) (ginit (parallelism s) s w) x /\ gm x = GReturned v /\ gcrashed x = true.
Proof. intros U T R s init f comb w segs Hp Hs Hk. by apply (gfold_too_many _ _ _ _ _ _ segs). Qed.
Print Assumptions C66_fold_too_many_segments.

(** ** Collect on any stream with fixed segments: whatever their number,
    goroutine j delivers exactly segment j, in order; nothing else is delivered *)
Theorem C66_collect_exactly_once :
  forall (U T : Type) (s : stream U T) (consume : T -> U -> U) (w : world U) segs,
  stable s (parallelism s) segs ->
  forall x, rtc (pstep consume) (pinit s w) x ->
  (forall j, sent_by j (plog x) `prefix_of` default [] (segs !! j)) /\
  (pm x = PReturned ->
     (forall j seg, segs !! j = Some seg -> sent_by j (plog x) = seg) /\
     Forall (fun e => e.1 < length segs) (plog x) /\ (plog x).*2 ≡ₚ concat segs).
Proof.
  intros U T s consume w segs Hs x Hr. split; [intros j; by apply (collect_prefix consume s w)|].
  by apply (collect_returned consume s w).
Qed.
Print Assumptions C66_collect_exactly_once.

Theorem C66_collect_returns :
  forall (U T : Type) (s : stream U T) (consume : T -> U -> U) (w : world U) segs,
  stable s (parallelism s) segs ->
  (forall x, rtc (pstep consume) (pinit s w) x -> (exists y, pstep consume x y) \/ pm x = PReturned) /\
  (exists b, forall m x, nsteps (pstep consume) m (pinit s w) x -> m <= b) /\
  (forall x, rtc (pstep consume) (pinit s w) x -> exists y, rtc (pstep consume) x y /\ pm y = PReturned).
Proof.
  intros U T s consume w segs Hs. split; [intros x; by apply (collect_progress consume s w segs)|].
  split; [by apply (collect_bounded consume s w segs)|]. intros x. by apply (collect_completes consume s w segs).
Qed.
Print Assumptions C66_collect_returns.

(** ** Which streams have fixed segments *)

(** stages work on each segment by itself and keep the number of segments *)
Theorem C66_stages :
  forall (U T V : Type) (c : stages U T V) (s : stream U T) p segs, stable s p segs ->
  stable (made c s) p (meaning c <$> segs) /\ parallelism (made c s) = parallelism s.
Proof. intros U T V c s p segs Hs. split; [by apply made_stable|apply made_par]. Qed.
Print Assumptions C66_stages.

(** slices, activated with p *)
Theorem C66_slice_segments :
  forall (U T : Type) (l : list T) (q p : Z),
  ((1 <= p <= Z.of_nat (length l))%Z -> exists n segs, source (slice_stream (U:=U) l q) p segs /\ pieces l n segs /\
     Z.to_nat p <= n /\ (n = Z.to_nat p <-> (p | Z.of_nat (length l))%Z)) /\
  ((p <= 0)%Z -> source (slice_stream (U:=U) l q) p [l]) /\
  ((1 <= p)%Z -> l = [] -> source (slice_stream (U:=U) l q) p []).
Proof.
  intros U T l q p. splits.
  - intros [H1 H2]. destruct (cut_ok l p H1 H2) as (n & segs & Hc & H). exists n, segs. split; [by apply slice_cut|done].
  - intros Hp. by apply slice_cut, cut_seq.
  - intros Hp ->. by apply slice_cut, cut_empty.
Qed.
Print Assumptions C66_slice_segments.

(** ** Together: a source that is cut like the slice l, any stages on top *)
Theorem C66_pipeline_fold :
  forall (U T V R : Type) (src : stream U T) (l : list T) (c : stages U T V) (p : Z)
    (init : R) (f : R -> V -> R) (comb : R -> R -> R) (w : world U),
  like_slice src l -> (1 <= p <= Z.of_nat (length l))%Z ->
  let s := made c (Parallel src p) in
  ((p | Z.of_nat (length l))%Z ->
     (forall a b c, comb a (comb b c) = comb (comb a b) c) -> (forall a b, comb a b = comb b a) ->
     (forall a, comb init a = a) -> (forall a b x, f (comb a b) x = comb a (f b x)) ->
     (forall x, rtc (gstep (parallelism s) init f comb) (ginit (parallelism s) s w) x ->
        gcrashed x = false /\ (forall v, gm x = GReturned v -> v = fold_left f (meaning c l) init) /\
        exists y v, rtc (gstep (parallelism s) init f comb) x y /\ gm y = GReturned v)) /\
  (~ (p | Z.of_nat (length l))%Z ->
     exists x v, rtc (gstep (parallelism s) init f comb) (ginit (parallelism s) s w) x /\ gm x = GReturned v /\ gcrashed x = true).
Proof.
  intros U T V R src l c p init f comb w Hl [Hp Hn] s. destruct (like_segs src l w p Hl Hp Hn) as (n & segs & Hs & (Hc & Hk & _) & Hge & Hd).
  assert (Ep : parallelism s = p) by (unfold s; by rewrite made_par). rewrite Ep.
  assert (Hst : stable s p (meaning c <$> segs)) by (by apply made_stable, source_stable).
  assert (Hlen : length (meaning c <$> segs) = n) by (by rewrite fmap_length). split.
  - intros Hdv Ha Hco Hi Hh x Hr. apply Hd in Hdv. assert (Ek : Z.of_nat (length (meaning c <$> segs)) = p) by lia.
    destruct (gfold_ok p init f comb s w _ Hp Hst Ek) as [H1 H2]. split; [by apply H1|]. split; [|by apply H2].
    intros v Hm. rewrite <- Hc, <- meaning_concat. rewrite <- Ep in Hp, Hst, Ek, Hr.
    by eapply (C66_fold_sequential U V R s init f comb w _ Hp Hst Ek Ha Hco Hi Hh x v Hr Hm).
  - intros Hdv. apply (gfold_too_many p init f comb s w _ Hp Hst).
    assert (n <> Z.to_nat p) by tauto. lia.
Qed.
Print Assumptions C66_pipeline_fold.

(** an empty source: FoldWith never returns *)
Theorem C66_pipeline_fold_empty :
  forall (U T V R : Type) (src : stream U T) (c : stages U T V) (p : Z)
    (init : R) (f : R -> V -> R) (comb : R -> R -> R) (w : world U),
  like_slice src [] -> (1 <= p)%Z ->
  let s := made c (Parallel src p) in
  forall x, rtc (gstep (parallelism s) init f comb) (ginit (parallelism s) s w) x -> gcrashed x = false /\ forall v, gm x <> GReturned v.
Proof.
  intros U T V R src c p init f comb w Hl Hp s. assert (Ep : parallelism s = p) by (unfold s; by rewrite made_par). rewrite Ep.
  pose proof (like_empty src w p Hl Hp) as Hs. assert (Hst : stable s p (meaning c <$> [])) by (by apply made_stable, source_stable).
  intros x. apply (gfold_too_few p init f comb s w _ Hp Hst). simpl. lia.
Qed.
Print Assumptions C66_pipeline_fold_empty.

(** Collect: every element of [meaning c l] exactly once, whatever p *)
Theorem C66_pipeline_collect :
  forall (U T V : Type) (src : stream U T) (l : list T) (c : stages U T V) (p : Z) (consume : V -> U -> U) (w : world U),
  like_slice src l -> (p <= Z.of_nat (length l))%Z \/ l = [] ->
  let s := made c (Parallel src p) in
  forall x, rtc (pstep consume) (pinit s w) x ->
  (exists y, rtc (pstep consume) x y /\ pm y = PReturned) /\
  (pm x = PReturned -> (plog x).*2 ≡ₚ meaning c l /\
     exists segs, concat segs = l /\ forall j, sent_by j (plog x) = meaning c (default [] (segs !! j))).
Proof.
  intros U T V src l c p consume w Hl Hn s x Hr.
  assert (Ep : parallelism s = p) by (unfold s; by rewrite made_par).
  assert (exists segs, source src p segs /\ concat segs = l) as (segs & Hs & Hc).
  { destruct (decide (p <= 0)%Z) as [H0|H0]; [exists [l]; split; [by apply like_seq|by rewrite concat_cons, app_nil_r]|].
    destruct Hn as [Hn| ->]; [|exists []; split; [apply like_empty; [done|done|lia]|done]].
    destruct (like_segs src l w p Hl ltac:(lia) Hn) as (n & segs & Hs & (Hc & _) & _). eauto. }
  assert (Hst : stable s (parallelism s) (meaning c <$> segs)) by (rewrite Ep; by apply made_stable, source_stable).
  split; [by apply (collect_completes consume s w _ Hst)|]. intros Hm.
  destruct (collect_returned consume s w _ Hst x Hr Hm) as (H1 & H2 & H3). split; [by rewrite H3, meaning_concat, Hc|].
  exists segs. split; [done|]. intros j. destruct (segs !! j) as [sg|] eqn:Ej; simpl.
  - apply H1. by rewrite list_lookup_fmap, Ej.
  - pose proof (collect_prefix consume s w _ Hst x j Hr) as Hpre. rewrite list_lookup_fmap, Ej in Hpre. simpl in Hpre.
    rewrite meaning_nil. by apply prefix_nil_inv.
Qed.
Print Assumptions C66_pipeline_collect.

Theorem C66_slices_are_cut_like_themselves :
  forall (U T : Type) (l : list T) (q : Z), like_slice (slice_stream (U:=U) l q) l.
Proof. intros U T l q p Hp. destruct (cut_any _ _ Hp) as [segs Hc]. exists segs. split; by apply slice_cut. Qed.
Print Assumptions C66_slices_are_cut_like_themselves.

(** ** Zip in parallel *)
Lemma zip_take {A B} n : forall (a : list A) (b : list B), zip (take n a) (take n b) = take n (zip a b).
Proof. induction n as [|n IH]; intros [|x a] [|y b]; try done. simpl. by rewrite IH. Qed.
Lemma zip_drop {A B} n : forall (a : list A) (b : list B), zip (drop n a) (drop n b) = drop n (zip a b).
Proof. induction n as [|n IH]; intros [|x a] [|y b]; try done; simpl. - by destruct (drop n a). - by apply IH. Qed.
Lemma take_plus_app' {A} n m (l : list A) : take (n + m) l = take n l ++ take m (drop n l).
Proof. revert l. induction n as [|n IH]; intros [|x l]; simpl; try done. - by destruct m. - by rewrite IH. Qed.

(** equal lengths: the pairs of the two lists *)
Theorem C66_parallel_zip :
  forall (U T R : Type) (l1 : list T) (l2 : list R) (q1 q2 p : Z) (w : world U),
  length l1 = length l2 -> (1 <= p <= Z.of_nat (length l1))%Z ->
  exists segs, stable (Zip (slice_stream (U:=U) l1 q1) (slice_stream l2 q2)) p segs /\ concat segs = zip l1 l2.
Proof.
  intros U T R l1 l2 q1 q2 p w Hl [Hp Hn].
  destruct (Split_Proofs.split_drains l1 p Hp Hn) as [D1 E1]. destruct (Split_Proofs.split_drains l2 p Hp ltac:(by rewrite <- Hl)) as [D2 E2].
  rewrite <- Hl in D2, E2.
  eexists. split.
  - unfold has_segments. eapply zip_gyields; [done|done| |].
    + apply source_stable. apply slice_cut. eexists. by split.
    + apply source_stable. apply slice_cut. eexists. by split.
  - destruct (Split_Proofs.step_bounds (length l1) p Hp Hn) as [_ Hs]. set (step := length l1 / Z.to_nat p) in *.
    pose proof (Split_Proofs.nseg_spec (length l1) step Hs) as Hk. set (k := Split_Proofs.nseg (length l1) step) in *.
    assert (Hz : forall n i, concat (zip_with zip (Split_Proofs.chunk l1 step <$> seq i n) (Split_Proofs.chunk l2 step <$> seq i n))
      = take (n * step) (drop (i * step) (zip l1 l2))).
    { clear -Hl. induction n as [|n IH]; intros i; [done|].
      change (zip (Split_Proofs.chunk l1 step i) (Split_Proofs.chunk l2 step i) ++
        concat (zip_with zip (Split_Proofs.chunk l1 step <$> seq (S i) n) (Split_Proofs.chunk l2 step <$> seq (S i) n))
        = take (step + n * step) (drop (i * step) (zip l1 l2))).
      rewrite IH. unfold Split_Proofs.chunk. replace (S i * step) with (i * step + step) by lia.
      rewrite zip_take, zip_drop, <- drop_drop. symmetry. apply take_plus_app'. }
    rewrite Hz. rewrite drop_0. apply take_ge. rewrite zip_with_length. lia.
Qed.
Print Assumptions C66_parallel_zip.

(** different lengths: each side is cut on its own, and segment i of one is
    zipped with segment i of the other *)
Theorem C66_zip_different_lengths_refuted :
  exists l1 l2 segs, stable (Zip (slice_stream (U:=unit) l1 0) (slice_stream l2 0)) 2 segs /\
    l1 = [1; 2; 3; 4]%Z /\ l2 = [1; 2]%Z /\ concat segs = [(1, 1); (3, 2)]%Z /\ zip l1 l2 = [(1, 1); (2, 2)]%Z.
Proof.
  exists [1; 2; 3; 4]%Z, [1; 2]%Z, [[(1, 1)]; [(3, 2)]]%Z. split; [|done].
  change [[(1, 1)]; [(3, 2)]]%Z with (zip_with zip [[1; 2]; [3; 4]]%Z [[1]; [2]]%Z).
  eapply zip_gyields; [done|done| |]; apply source_stable; apply slice_cut.
  - eexists. apply (Split_Proofs.split_drains [1; 2; 3; 4]%Z 2); simpl; lia.
  - eexists. apply (Split_Proofs.split_drains [1; 2]%Z 2); simpl; lia.
Qed.
Print Assumptions C66_zip_different_lengths_refuted.

(** ** Chain in parallel: sequential streams are chained to a single segment,
    whatever the parallelism asked for afterwards, so FoldWith waits for ever *)
Theorem C66_parallel_chain_never_folds :
  forall (U T R : Type) (ss : list (stream U T)) (ls : list (list T)) (p : Z) (init : R) (f : R -> T -> R) (comb : R -> R -> R) (w : world U),
  ss <> [] -> Forall2 (fun s l => stable s (parallelism s) [l]) ss ls -> (2 <= p)%Z ->
  let s := Parallel (Chain ss) p in
  forall x, rtc (gstep (parallelism s) init f comb) (ginit (parallelism s) s w) x -> gcrashed x = false /\ forall v, gm x <> GReturned v.
Proof.
  intros U T R ss ls p init f comb w Hne H Hp s.
  pose proof (Stream_Props.C23_chain_concat U T ss ls p Hne H) as Hc.
  apply (C66_fold_too_few_segments _ _ _ s init f comb w [concat ls]); simpl; [lia|exact Hc|lia].
Qed.
Print Assumptions C66_parallel_chain_never_folds.

(** ** Non-vacuity: [1..4] in two segments, filtered and squared *)
Example demo_pipe : stages unit Z Z := ThenMap (ThenFilter Nothing Z.even (fun _ u => u)) (fun x => x * x)%Z (fun _ u => u).
Example demo_meaning : meaning demo_pipe [1; 2; 3; 4]%Z = [4; 16]%Z.
Proof. done. Qed.
Example demo_fold : forall x, rtc (gstep 2 0%Z Z.add Z.add) (ginit 2 (made demo_pipe (Parallel (slice_stream [1; 2; 3; 4]%Z 0) 2)) (World ∅ tt)) x ->
  gcrashed x = false /\ (forall v, gm x = GReturned v -> v = 20%Z).
Proof.
  intros x Hx. destruct (C66_pipeline_fold unit Z Z Z (slice_stream [1; 2; 3; 4]%Z 0) [1; 2; 3; 4]%Z demo_pipe 2 0%Z Z.add Z.add (World ∅ tt)) as [H _].
  - apply C66_slices_are_cut_like_themselves.
  - simpl. lia.
  - destruct (H ltac:(exists 2%Z; done) Z.add_assoc Z.add_comm Z.add_0_l ltac:(intros; lia) x) as (H1 & H2 & _); [exact Hx|]. by split.
Qed.
Example demo_chain : Forall2 (fun s l => stable s (parallelism s) [l]) [slice_stream (U:=unit) [1]%Z 0; slice_stream [2; 3]%Z 0] [[1]; [2; 3]]%Z.
Proof. constructor; [|constructor; [|constructor]]; apply source_stable; by apply C66_slice_segments. Qed.
