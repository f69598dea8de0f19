(** Property theorems for the parallel TryFold, AllMatch, AnyMatch and First (C64). *)
From Verif Require Import Base Split_Model Split_Proofs StreamPar_Proofs StreamTry_Model StreamTry_Spec StreamTry_Proofs StreamTry_Proofs2.

(** ** TryFold on a slice of length n with parallelism p, 1 <= p <= n *)

(** It always returns: no schedule gets stuck before, all schedules are
    finite, and every one can be completed. *)
Theorem C64_tryfold_returns :
  forall (T : Type) (zero : T) (s : list T) (p : Z) (init : T) (f : T -> T -> T * bool),
  (1 <= p)%Z -> (p <= Z.of_nat (length s))%Z ->
  (forall x, rtc (tstep zero s p init f) tinit x ->
     (exists y, tstep zero s p init f x y) \/ (exists v ok, tm x = TReturned v ok)) /\
  (exists b, forall m x, nsteps (tstep zero s p init f) m tinit x -> m <= b) /\
  (forall x, rtc (tstep zero s p init f) tinit x ->
     exists y v ok, rtc (tstep zero s p init f) x y /\ tm y = TReturned v ok).
Proof.
  intros T zero s p init f Hp Hn. splits.
  - by apply tf_progress.
  - eexists. by apply tf_bounded.
  - by apply tf_completes.
Qed.
Print Assumptions C64_tryfold_returns.

(** (v, true): v folds the values of exactly p of the segments the slice is
    cut into, all of which fold; none is left out iff p divides n. *)
Theorem C64_tryfold_true :
  forall (T : Type) (zero : T) (s : list T) (p : Z) (init : T) (f : T -> T -> T * bool),
  (1 <= p)%Z -> (p <= Z.of_nat (length s))%Z ->
  forall x v, rtc (tstep zero s p init f) tinit x -> tm x = TReturned v true ->
  exists segs used lost, concat segs = s /\ used ++ lost ≡ₚ segs /\ Forall (fun seg => seg <> []) segs
    /\ Z.of_nat (length used) = p /\ Forall (seg_ok f init) used
    /\ try_seq f (seg_val f init <$> used) init = (v, true)
    /\ (lost = [] <-> (p | Z.of_nat (length s))%Z).
Proof.
  intros T zero s p init f Hp Hn x v Hr Hm. destruct (tf_true zero s p init f Hp Hn x v Hr Hm) as (used & lost & Pm & Hl & Fo & E).
  destruct (all_segs_ok s p Hp Hn) as (Hc & Hne & Hk). exists (all_segs s p), used, lost. splits; try done.
  rewrite <- (k_eq_p s p Hp Hn), <- Hk. apply Permutation_length in Pm. rewrite app_length in Pm.
  split; [intros ->; cbn in Pm; lia|]. intros Ek. destruct lost; [done|]. cbn in Pm. lia.
Qed.
Print Assumptions C64_tryfold_true.

(** (v, false): folding the values of some of the segments, all of which
    fold, fails with v; or one of the other segments does not fold, and v is the value of the last of the segments
    received before, the zero value if there is none. *)
Theorem C64_tryfold_false :
  forall (T : Type) (zero : T) (s : list T) (p : Z) (init : T) (f : T -> T -> T * bool),
  (1 <= p)%Z -> (p <= Z.of_nat (length s))%Z ->
  forall x v, rtc (tstep zero s p init f) tinit x -> tm x = TReturned v false ->
  exists segs, concat segs = s /\ Forall (fun seg => seg <> []) segs /\
   exists used lost, used ++ lost ≡ₚ segs /\ Forall (seg_ok f init) used /\
   (try_seq f (seg_val f init <$> used) init = (v, false)
    \/ (exists seg, seg ∈ lost /\ ~ seg_ok f init seg) /\ (try_seq f (seg_val f init <$> used) init).2 = true /\
       v = default zero (last (seg_val f init <$> used))).
Proof.
  intros T zero s p init f Hp Hn x v Hr Hm. destruct (all_segs_ok s p Hp Hn) as (Hc & Hne & Hk).
  exists (all_segs s p). splits; try done. destruct (tf_false zero s p init f Hp Hn x v Hr Hm) as (used & lost & H1 & H2 & H3). exists used, lost. splits; try done. tauto.
Qed.
Print Assumptions C64_tryfold_false.

(** If p divides n, every goroutine ends. *)
Theorem C64_tryfold_leaves_no_goroutine :
  forall (T : Type) (zero : T) (s : list T) (p : Z) (init : T) (f : T -> T -> T * bool),
  (1 <= p)%Z -> (p <= Z.of_nat (length s))%Z -> (p | Z.of_nat (length s))%Z ->
  forall x, rtc (tstep zero s p init f) tinit x -> (forall y, ~ tstep zero s p init f x y) ->
  forall w, w ∈ tws x -> w = TSent \/ w = TQuit.
Proof. intros T zero s p init f Hp Hn Hd x. by apply tf_no_leak. Qed.
Print Assumptions C64_tryfold_leaves_no_goroutine.

(** n = 0: blocks for ever; 0 < n < p: spawns goroutines for ever *)
Theorem C64_tryfold_empty_deadlocks :
  forall (T : Type) (zero init : T) (f : T -> T -> T * bool) (p : Z), (1 <= p)%Z ->
  (forall x, rtc (tstep zero [] p init f) tinit x -> forall v ok, tm x <> TReturned v ok) /\
  rtc (tstep zero [] p init f) tinit (TState (TRecv 0 init zero) [] [] false) /\
  (forall y, ~ tstep zero [] p init f (TState (TRecv 0 init zero) [] [] false) y).
Proof. exact @tf_empty. Qed.
Print Assumptions C64_tryfold_empty_deadlocks.
Theorem C64_tryfold_short_never_returns :
  forall (T : Type) (zero init : T) (f : T -> T -> T * bool) (s : list T) (p : Z) x,
  (0 < Z.of_nat (length s) < p)%Z -> rtc (tstep zero s p init f) tinit x ->
  tm x = TSpawn 0 /\ exists y, tstep zero s p init f x y.
Proof. exact @tf_short. Qed.
Print Assumptions C64_tryfold_short_never_returns.

(** ** First, AllMatch and AnyMatch on a parallel slice stream *)
Theorem C64_first :
  forall (T : Type) (zero : T) (s : list T) (p : Z), (1 <= p)%Z ->
  first_par zero s p = if decide (p <= Z.of_nat (length s))%Z then Ok (hd zero s, true) else Ok (zero, false).
Proof.
  intros T zero s p Hp. case_decide as Hn.
  - by destruct (first_par_ok zero s p Hp Hn) as (m & l & -> & ->).
  - apply first_par_short; lia.
Qed.
Print Assumptions C64_first.

(** p divides n: in every schedule the answer is the right one, and there is one *)
Theorem C64_all_match :
  forall (T : Type) (zero : T) (s : list T) (p : Z) (cb : T -> bool),
  (1 <= p)%Z -> (p <= Z.of_nat (length s))%Z -> (p | Z.of_nat (length s))%Z ->
  forall b, all_match_returns zero s p cb b <-> b = forallb cb s.
Proof.
  intros T zero s p cb Hp Hn Hd.
  assert (HF : forall a y : T, (if cb y then (a, true) else (a, false)) = (a, cb y)) by (intros a y; by destruct (cb y)).
  destruct (first_par_ok zero s p Hp Hn) as (m & l & Es & E1).
  assert (G : forall b, all_match_returns zero s p cb b -> b = forallb cb s).
  { intros b (m' & ok & E & H). rewrite E1 in E. injection E as <- <-. destruct H as (x & v & Hr & Hm). destruct b.
    - destruct (match_true zero s p cb _ HF Hp Hn m x v Hr Hm) as [_ H]. by rewrite H.
    - symmetry. exact (match_false zero s p cb _ HF Hp Hn m l x v Es Hr Hm). }
  intros b. split; [apply G|]. intros ->.
  destruct (tf_completes zero s p m (fun a y => if cb y then (a, true) else (a, false)) Hp Hn tinit) as (y & v & ok & Hr & Hm); [constructor|].
  assert (A : all_match_returns zero s p cb ok). { exists m, true. split; [done|]. by exists y, v. }
  by rewrite <- (G _ A).
Qed.
Print Assumptions C64_all_match.
Theorem C64_any_match :
  forall (T : Type) (zero : T) (s : list T) (p : Z) (cb : T -> bool),
  (1 <= p)%Z -> (p <= Z.of_nat (length s))%Z -> (p | Z.of_nat (length s))%Z ->
  forall b, any_match_returns zero s p cb b <-> b = existsb cb s.
Proof.
  intros T zero s p cb Hp Hn Hd.
  assert (HF : forall a y : T, (if cb y then (a, false) else (a, true)) = (a, negb (cb y))) by (intros a y; by destruct (cb y)).
  assert (HE : existsb cb s = negb (forallb (fun y => negb (cb y)) s)).
  { clear. induction s as [|x s IH]; [done|]. cbn. rewrite IH. by destruct (cb x). }
  destruct (first_par_ok zero s p Hp Hn) as (m & l & Es & E1).
  assert (G : forall b, any_match_returns zero s p cb b -> b = existsb cb s).
  { intros b (m' & ok & E & H). rewrite E1 in E. injection E as <- <-. destruct H as (x & v & Hr & Hm). rewrite HE. destruct b; cbn in Hm.
    - by rewrite (match_false zero s p (fun y => negb (cb y)) _ HF Hp Hn m l x v Es Hr Hm).
    - destruct (match_true zero s p (fun y => negb (cb y)) _ HF Hp Hn m x v Hr Hm) as [_ H]. by rewrite (H Hd). }
  intros b. split; [apply G|]. intros ->.
  destruct (tf_completes zero s p m (fun a y => if cb y then (a, false) else (a, true)) Hp Hn tinit) as (y & v & ok & Hr & Hm); [constructor|].
  assert (A : any_match_returns zero s p cb (negb ok)). { exists m, true. split; [done|]. exists y, v. by rewrite negb_involutive. }
  by rewrite <- (G _ A).
Qed.
Print Assumptions C64_any_match.

(** any p <= n: one of the two answers can be trusted *)
Theorem C64_all_match_false_any_match_true_are_right :
  forall (T : Type) (zero : T) (s : list T) (p : Z) (cb : T -> bool),
  (1 <= p)%Z -> (p <= Z.of_nat (length s))%Z ->
  (all_match_returns zero s p cb false -> forallb cb s = false) /\
  (any_match_returns zero s p cb true -> existsb cb s = true).
Proof.
  intros T zero s p cb Hp Hn. destruct (first_par_ok zero s p Hp Hn) as (m & l & Es & E1).
  split; intros (m' & ok & E & H); rewrite E1 in E; injection E as <- <-; destruct H as (x & v & Hr & Hm).
  - refine (match_false zero s p cb _ _ Hp Hn m l x v Es Hr Hm). intros a y. by destruct (cb y).
  - assert (HE : existsb cb s = negb (forallb (fun y => negb (cb y)) s)).
    { clear. induction s as [|x s IH]; [done|]. cbn. rewrite IH. by destruct (cb x). }
    rewrite HE, (match_false zero s p (fun y => negb (cb y)) (fun a y => if cb y then (a, false) else (a, true)) ltac:(intros a y; cbn beta; destruct (cb y); reflexivity) Hp Hn m l x v Es Hr Hm).
    done.
Qed.
Print Assumptions C64_all_match_false_any_match_true_are_right.

(** ... the other not, when p does not divide n: 3 elements, parallelism 2 *)
Theorem C64_match_with_remainder_refuted :
  all_match_returns 0 [1; 2; 3] 2 (fun x => x <? 3) true /\ any_match_returns 0 [1; 2; 3] 2 (fun x => x =? 3) false.
Proof.
  split.
  - exists 1, true. split; [done|]. eexists _, _. split.
    + do 3 (eapply rtc_l; [eapply ts_spawn; reflexivity|]). eapply rtc_l; [eapply ts_spawned; reflexivity|].
      eapply rtc_l; [eapply ts_work with (i := 0); reflexivity|]. eapply rtc_l; [eapply ts_end with (i := 0); reflexivity|].
      eapply rtc_l; [eapply ts_work with (i := 1); reflexivity|]. eapply rtc_l; [eapply ts_end with (i := 1); reflexivity|].
      eapply rtc_l; [eapply ts_send with (i := 0); reflexivity|]. eapply rtc_l; [eapply ts_send with (i := 1); reflexivity|].
      do 2 (eapply rtc_l; [eapply ts_recv; [done|reflexivity]|]). eapply rtc_l; [eapply ts_return; reflexivity|]. constructor.
    + reflexivity.
  - exists 1, true. split; [done|]. eexists _, _. split.
    + do 3 (eapply rtc_l; [eapply ts_spawn; reflexivity|]). eapply rtc_l; [eapply ts_spawned; reflexivity|].
      eapply rtc_l; [eapply ts_work with (i := 0); reflexivity|]. eapply rtc_l; [eapply ts_end with (i := 0); reflexivity|].
      eapply rtc_l; [eapply ts_work with (i := 1); reflexivity|]. eapply rtc_l; [eapply ts_end with (i := 1); reflexivity|].
      eapply rtc_l; [eapply ts_send with (i := 0); reflexivity|]. eapply rtc_l; [eapply ts_send with (i := 1); reflexivity|].
      do 2 (eapply rtc_l; [eapply ts_recv; [done|reflexivity]|]). eapply rtc_l; [eapply ts_return; reflexivity|]. constructor.
    + reflexivity.
Qed.
Print Assumptions C64_match_with_remainder_refuted.

(** fewer elements than p: both answer false without looking at the elements *)
Theorem C64_match_short :
  forall (T : Type) (zero : T) (s : list T) (p : Z) (cb : T -> bool) b,
  (1 <= p)%Z -> (Z.of_nat (length s) < p)%Z ->
  (all_match_returns zero s p cb b <-> b = false) /\ (any_match_returns zero s p cb b <-> b = false).
Proof.
  intros T zero s p cb b Hp Hn. unfold all_match_returns, any_match_returns. rewrite first_par_short by done.
  split; (split; [intros (m & ok & [= <- <-] & H); done|intros ->; by exists zero, false]).
Qed.
Print Assumptions C64_match_short.

(** p does not divide n: a goroutine can be left blocked on its send for ever
    (5 elements, parallelism 3, the first one refused). *)
Theorem C64_tryfold_leaks_a_goroutine_refuted :
  exists x, rtc (tstep 0 [9; 1; 1; 1; 1] 3 0 (fun a y => (a, y <? 5))) tinit x
    /\ (forall y, ~ tstep 0 [9; 1; 1; 1; 1] 3 0 (fun a y => (a, y <? 5)) x y)
    /\ tm x = TReturned 0 false /\ tws x = [TQuit; TSent; TSent; TSent; TSend 0].
Proof.
  eexists. splits.
  - do 5 (eapply rtc_l; [eapply ts_spawn; reflexivity|]). eapply rtc_l; [eapply ts_spawned; reflexivity|].
    eapply rtc_l; [eapply ts_work with (i := 1); reflexivity|]. eapply rtc_l; [eapply ts_end with (i := 1); reflexivity|].
    eapply rtc_l; [eapply ts_work with (i := 2); reflexivity|]. eapply rtc_l; [eapply ts_end with (i := 2); reflexivity|].
    eapply rtc_l; [eapply ts_work with (i := 3); reflexivity|]. eapply rtc_l; [eapply ts_end with (i := 3); reflexivity|].
    eapply rtc_l; [eapply ts_work with (i := 4); reflexivity|]. eapply rtc_l; [eapply ts_end with (i := 4); reflexivity|].
    eapply rtc_l; [eapply ts_work_fail with (i := 0); reflexivity|].
    eapply rtc_l; [eapply ts_cancel with (i := 0); reflexivity|].
    eapply rtc_l; [eapply ts_done; done|].
    eapply rtc_l; [eapply ts_send with (i := 1); reflexivity|]. eapply rtc_l; [eapply ts_send with (i := 2); reflexivity|].
    eapply rtc_l; [eapply ts_send with (i := 3); reflexivity|]. constructor.
  - intros y H. inversion H as [| | | | | |? ? ? i ? ? ? Hi|? ? ? i ? ? ? ? Hi|? ? ? i ? ? ? ? Hi|? ? ? ? i Hi|? ? ? ? i ? Hi|? ? ? ? i ? Hi Hl]; subst;
      try (cbn in Hl; lia); do 5 (destruct i as [|i]; [done|]); done.
  - done.
  - done.
Qed.
Print Assumptions C64_tryfold_leaks_a_goroutine_refuted.

(** ** The hypotheses are met *)
Example C64_hypotheses_met :
  (forall b, all_match_returns 0 [1; 2; 3; 4] 2 (fun x => x <? 5) b <-> b = true) /\
  (forall b, all_match_returns 0 [1; 2; 3; 4] 2 (fun x => x <? 4) b <-> b = false) /\
  (exists x v, rtc (tstep 0 [1; 2; 3; 4] 2 0 (fun a y => (a + y, true))) tinit x /\ tm x = TReturned v true).
Proof.
  splits.
  - intros b. apply (C64_all_match nat 0 [1; 2; 3; 4] 2); [lia|cbn; lia|by exists 2%Z].
  - intros b. apply (C64_all_match nat 0 [1; 2; 3; 4] 2); [lia|cbn; lia|by exists 2%Z].
  - destruct (C64_tryfold_returns nat 0 [1; 2; 3; 4] 2 0 (fun a y => (a + y, true)) ltac:(lia) ltac:(cbn; lia)) as (_ & _ & H).
    destruct (H tinit) as (x & v & ok & Hr & Hm); [constructor|]. exists x, v. split; [done|]. destruct ok; [done|]. exfalso.
    assert (S : forall l a, (try_seq (fun a y => (a + y, true)) l a).2 = true) by (induction l; intros; [done|apply IHl]).
    destruct (C64_tryfold_false nat 0 [1; 2; 3; 4] 2 0 (fun a y => (a + y, true)) ltac:(lia) ltac:(cbn; lia) x v Hr Hm)
      as (segs & _ & _ & used & lost & _ & _ & [E|((seg & _ & Hb) & _)]).
    + specialize (S (seg_val (fun a y => (a + y, true)) 0 <$> used) 0). by rewrite E in S.
    + apply Hb, S.
Qed.
Example C64_false_met :
  exists x v, rtc (tstep 0 [9; 1] 2 0 (fun a y => (a, y <? 5))) tinit x /\ tm x = TReturned v false.
Proof.
  eexists _, _. split; [|shelve].
  do 2 (eapply rtc_l; [eapply ts_spawn; reflexivity|]). eapply rtc_l; [eapply ts_spawned; reflexivity|].
  eapply rtc_l; [eapply ts_work_fail with (i := 0); reflexivity|]. eapply rtc_l; [eapply ts_cancel with (i := 0); reflexivity|].
  eapply rtc_l; [eapply ts_done; done|]. constructor.
  Unshelve. 2: reflexivity.
Qed.
