(** Property theorems for TryFold, First, AllMatch and AnyMatch at any parallelism over any stream (C70). *)
From Verif Require Import Base Split_Model Stream_Model Stream_Spec Stream_Proofs Stream_Proofs2 StreamTry_Spec
  ParPipe_Model ParPipe_Spec ParPipe_Proofs ParPipe_Proofs2 ParPipe_Proofs3 ParPipe_Proofs4 TryPipe_Model TryPipe_Proofs TryPipe_Proofs2.
From Verif Require ParPipe_Props.

(** ** TryFold on any stream with fixed segments *)

(** At least as many segments as the parallelism says: no schedule gets stuck before the return, all are
    finite, and all can be completed to a return. *)
Theorem C70_tryfold_returns :
  forall (U T : Type) (zero : T) (s : stream U T) (p : Z) (init : T) (f : T -> T -> T * bool) (e : T -> T -> U -> U) (w : world U) segs,
  (1 <= p)%Z -> stable s p segs -> (p <= Z.of_nat (length segs))%Z ->
  let go := hstep zero s p init f e in
  (forall x, rtc go (hinit w) x -> (exists y, go x y) \/ (exists v ok, hm x = HReturned v ok)) /\
  (exists b, forall m x, nsteps go m (hinit w) x -> m <= b) /\
  (forall x, rtc go (hinit w) x -> exists y v ok, rtc go x y /\ hm y = HReturned v ok).
Proof.
  intros U T zero s p init f e w segs Hp Hs Hk go. split; [|split].
  - intros x. by apply (hprogress zero s p init f e w segs).
  - by apply (hbounded zero s p init f e w segs).
  - intros x. by apply (hcompletes zero s p init f e w segs).
Qed.
Print Assumptions C70_tryfold_returns.

(** (v, true): v folds the results of exactly p segments, all of which fold, in some order *)
Theorem C70_tryfold_true :
  forall (U T : Type) (zero : T) (s : stream U T) (p : Z) (init : T) (f : T -> T -> T * bool) (e : T -> T -> U -> U) (w : world U) segs,
  (1 <= p)%Z -> stable s p segs ->
  forall x v, rtc (hstep zero s p init f e) (hinit w) x -> hm x = HReturned v true ->
  exists used lost, used ++ lost ≡ₚ segs /\ Z.of_nat (length used) = p /\ Forall (seg_ok f init) used /\
    try_seq f (seg_val f init <$> used) init = (v, true).
Proof. intros U T zero s p init f e w segs Hp Hs x v. by apply htrue. Qed.
Print Assumptions C70_tryfold_true.

(** (v, false): folding some of the results fails with v, or a segment does not fold; in the latter case v is the result
    received last, or the zero value *)
Theorem C70_tryfold_false :
  forall (U T : Type) (zero : T) (s : stream U T) (p : Z) (init : T) (f : T -> T -> T * bool) (e : T -> T -> U -> U) (w : world U) segs,
  (1 <= p)%Z -> stable s p segs ->
  forall x v, rtc (hstep zero s p init f e) (hinit w) x -> hm x = HReturned v false ->
  exists used lost, used ++ lost ≡ₚ segs /\ (Z.of_nat (length used) <= p)%Z /\ Forall (seg_ok f init) used /\
   (try_seq f (seg_val f init <$> used) init = (v, false)
    \/ (exists seg, seg ∈ lost /\ ~ seg_ok f init seg) /\ (try_seq f (seg_val f init <$> used) init).2 = true /\
       v = default zero (last (seg_val f init <$> used))).
Proof. intros U T zero s p init f e w segs Hp Hs x v. by apply hfalse. Qed.
Print Assumptions C70_tryfold_false.

(** No more segments than the parallelism says: when nothing can move any more every goroutine has ended *)
Theorem C70_tryfold_leaves_no_goroutine :
  forall (U T : Type) (zero : T) (s : stream U T) (p : Z) (init : T) (f : T -> T -> T * bool) (e : T -> T -> U -> U) (w : world U) segs,
  (1 <= p)%Z -> stable s p segs -> (Z.of_nat (length segs) <= p)%Z ->
  forall x, rtc (hstep zero s p init f e) (hinit w) x -> (forall y, ~ hstep zero s p init f e x y) ->
  forall v, v ∈ hws x -> v = HSent \/ v = HQuit.
Proof. intros U T zero s p init f e w segs Hp Hs Hk x. by apply (hno_leak zero s p init f e w segs). Qed.
Print Assumptions C70_tryfold_leaves_no_goroutine.

(** Fewer segments: it never returns true, and if f never says no on the way it never returns at all *)
Theorem C70_tryfold_too_few_segments :
  forall (U T : Type) (zero : T) (s : stream U T) (p : Z) (init : T) (f : T -> T -> T * bool) (e : T -> T -> U -> U) (w : world U) segs,
  (1 <= p)%Z -> stable s p segs -> (Z.of_nat (length segs) < p)%Z ->
  forall x, rtc (hstep zero s p init f e) (hinit w) x -> hm x <> HPanicked /\
  (forall v, hm x <> HReturned v true) /\
  (Forall (seg_ok f init) segs ->
   (forall used lost, used ++ lost ≡ₚ segs -> (try_seq f (seg_val f init <$> used) init).2 = true) ->
   forall v ok, hm x <> HReturned v ok).
Proof.
  intros U T zero s p init f e w segs Hp Hs Hk x Hr.
  assert (H1 : forall v, hm x <> HReturned v true).
  { intros v Hm. destruct (htrue zero s p init f e w segs Hp Hs x v Hr Hm) as (used & lost & Pm & Hl & _).
    apply Permutation_length in Pm. rewrite app_length in Pm. lia. }
  split; [by eapply (hnot_panicked zero s p init f e w segs)|]. split; [done|]. intros Ho Hc v [|] Hm; [by eapply H1|].
  destruct (hfalse zero s p init f e w segs Hp Hs x v Hr Hm) as (used & lost & Pm & Hl & Fo & [E|((seg & Hi & Hb) & _)]).
  - specialize (Hc used lost Pm). rewrite E in Hc. done.
  - rewrite Forall_forall in Ho. apply Hb, Ho. rewrite <- Pm. apply elem_of_app. by right.
Qed.
Print Assumptions C70_tryfold_too_few_segments.

(** A negative parallelism panics at once, in every schedule *)
Theorem C70_negative_parallelism_panics :
  forall (U T : Type) (zero : T) (s : stream U T) (p : Z) (init : T) (f : T -> T -> T * bool) (e : T -> T -> U -> U) (w : world U),
  (p < 0)%Z -> forall x, rtc (hstep zero s p init f e) (hinit w) x ->
  x = hinit w \/ (hm x = HPanicked /\ hworld x = w /\ forall y, ~ hstep zero s p init f e x y).
Proof.
  intros U T zero s p init f e w Hp x Hr.
  assert (G : x = hinit w \/ x = HState HPanicked [] [] false w).
  { apply rtc_ind_r with (P := fun x => x = hinit w \/ x = HState HPanicked [] [] false w) (z := x) in Hr; [done|by left|].
    intros y z _ Hst [->| ->]; right; inversion Hst; subst; done || lia. }
  destruct G as [->| ->]; [by left|right]. split; [done|]. split; [done|]. intros y Hst. inversion Hst; subst; done.
Qed.
Print Assumptions C70_negative_parallelism_panics.

(** ** First: the first element of the first segment, even if later segments have elements *)
Theorem C70_first :
  forall (U T : Type) (zero : T) (s : stream U T) (p : Z) segs (w : world U), stable s p segs ->
  (exists v ok w', first_returns zero s p w v ok w') /\
  forall v ok w', first_returns zero s p w v ok w' ->
    match segs with (x :: _) :: _ => v = x /\ ok = true | _ => v = zero /\ ok = false end.
Proof. intros U T zero s p segs w. apply first_ok. Qed.
Print Assumptions C70_first.

(** ** AllMatch and AnyMatch: as many segments as the parallelism says, the first one not empty *)
Theorem C70_all_match :
  forall (U T : Type) (zero : T) (s : stream U T) (cb : T -> bool) (ce : T -> U -> U) (w : world U) x0 l0 segs,
  (1 <= parallelism s)%Z -> stable s (parallelism s) ((x0 :: l0) :: segs) -> Z.of_nat (length segs + 1) = parallelism s ->
  forall b, all_match zero s cb ce w b <-> b = forallb cb (concat ((x0 :: l0) :: segs)).
Proof.
  intros U T zero s cb ce w x0 l0 segs Hp Hs Hk. set (ls := (x0 :: l0) :: segs) in *.
  assert (HF : forall a y : T, (if cb y then (a, true) else (a, false)) = (a, cb y)) by (intros a y; by destruct (cb y)).
  destruct (first_ok zero s (parallelism s) ls w Hs) as [(v0 & ok0 & w1 & Hf) Hd].
  assert (Hk' : Z.of_nat (length ls) = parallelism s) by (unfold ls; cbn [length]; lia).
  assert (Hin : x0 ∈ concat ls) by (apply elem_of_list_In; by left).
  assert (G : forall b, all_match zero s cb ce w b -> b = forallb cb (concat ls)).
  { intros b (m & ok & w' & H1 & H2). destruct (Hd _ _ _ H1) as [-> ->]. destruct H2 as (x & v & Hr & Hm).
    exact (hmatch_all zero s (parallelism s) ls cb _ _ HF Hp Hs x0 w' x v b Hin Hk' Hr Hm). }
  intros b. split; [apply G|]. intros ->. destruct (Hd _ _ _ Hf) as [-> ->].
  destruct (hcompletes zero s (parallelism s) x0 (fun a y => if cb y then (a, true) else (a, false)) (fun _ y => ce y) w1 ls Hp Hs (hinit w1)) as (y & v & ok & Hr & Hm); [lia|constructor|].
  assert (A : all_match zero s cb ce w ok) by (exists x0, true, w1; split; [done|]; by exists y, v). rewrite <- (G _ A). done.
Qed.
Print Assumptions C70_all_match.

Theorem C70_any_match :
  forall (U T : Type) (zero : T) (s : stream U T) (cb : T -> bool) (ce : T -> U -> U) (w : world U) x0 l0 segs,
  (1 <= parallelism s)%Z -> stable s (parallelism s) ((x0 :: l0) :: segs) -> Z.of_nat (length segs + 1) = parallelism s ->
  forall b, any_match zero s cb ce w b <-> b = existsb cb (concat ((x0 :: l0) :: segs)).
Proof.
  intros U T zero s cb ce w x0 l0 segs Hp Hs Hk. set (ls := (x0 :: l0) :: segs) in *.
  assert (HF : forall a y : T, (if cb y then (a, false) else (a, true)) = (a, negb (cb y))) by (intros a y; by destruct (cb y)).
  assert (HE : existsb cb (concat ls) = negb (forallb (fun y => negb (cb y)) (concat ls))).
  { generalize (concat ls). intros l. clear. induction l as [|x l IH]; [done|]. cbn. rewrite IH. by destruct (cb x). }
  destruct (first_ok zero s (parallelism s) ls w Hs) as [(v0 & ok0 & w1 & Hf) Hd].
  assert (Hk' : Z.of_nat (length ls) = parallelism s) by (unfold ls; cbn [length]; lia).
  assert (Hin : x0 ∈ concat ls) by (apply elem_of_list_In; by left).
  assert (G : forall b, any_match zero s cb ce w b -> b = existsb cb (concat ls)).
  { intros b (m & ok & w' & H1 & H2). destruct (Hd _ _ _ H1) as [-> ->]. destruct H2 as (x & v & Hr & Hm).
    pose proof (hmatch_all zero s (parallelism s) ls (fun y => negb (cb y)) _ _ HF Hp Hs x0 w' x v _ Hin Hk' Hr Hm) as E.
    rewrite HE, <- E. by destruct b. }
  intros b. split; [apply G|]. intros ->. destruct (Hd _ _ _ Hf) as [-> ->].
  destruct (hcompletes zero s (parallelism s) x0 (fun a y => if cb y then (a, false) else (a, true)) (fun _ y => ce y) w1 ls Hp Hs (hinit w1)) as (y & v & ok & Hr & Hm); [lia|constructor|].
  assert (A : any_match zero s cb ce w (negb ok)) by (exists x0, true, w1; split; [done|]; exists y, v; by rewrite negb_involutive). rewrite <- (G _ A). done.
Qed.
Print Assumptions C70_any_match.

(** No segment at all, or an empty first one: both return false whatever the other segments hold *)
Theorem C70_match_with_empty_first_segment :
  forall (U T : Type) (zero : T) (s : stream U T) (cb : T -> bool) (ce : T -> U -> U) (w : world U) segs,
  stable s (parallelism s) segs -> head segs = None \/ head segs = Some [] ->
  forall b, (all_match zero s cb ce w b <-> b = false) /\ (any_match zero s cb ce w b <-> b = false).
Proof.
  intros U T zero s cb ce w segs Hs Hh b. destruct (first_ok zero s (parallelism s) segs w Hs) as [(v0 & ok0 & w1 & Hf) Hd].
  assert (N : forall v ok w', first_returns zero s (parallelism s) w v ok w' -> ok = false).
  { intros v ok w' H. specialize (Hd v ok w' H). destruct segs as [|[|y l] ls]; try by destruct Hd. by destruct Hh. }
  pose proof (N _ _ _ Hf) as ->.
  split; (split; [intros (m & ok & w' & H1 & H2); by rewrite (N _ _ _ H1) in H2|intros ->; by exists v0, false, w1]).
Qed.
Print Assumptions C70_match_with_empty_first_segment.

(** ** Together: a source that is cut like the slice l (C66: slices, linked lists, skip lists, red-black trees), any stages on
    top, the parallelism dividing the length.  The answers are right unless the stages leave nothing of the first n/p elements;
    then both are false. *)
Theorem C70_pipeline_match :
  forall (U T V : Type) (zero : V) (src : stream U T) (l : list T) (c : stages U T V) (p : Z) (cb : V -> bool) (ce : V -> U -> U) (w : world U),
  like_slice src l -> (1 <= p <= Z.of_nat (length l))%Z -> (p | Z.of_nat (length l))%Z ->
  let s := made c (Parallel src p) in
  let first := meaning c (take (length l / Z.to_nat p) l) in
  forall b,
  (all_match zero s cb ce w b <-> b = match first with [] => false | _ => forallb cb (meaning c l) end) /\
  (any_match zero s cb ce w b <-> b = match first with [] => false | _ => existsb cb (meaning c l) end).
Proof.
  intros U T V zero src l c p cb ce w Hl [Hp Hn] Hd s first b.
  destruct (like_first src l w p Hl Hp Hn) as (rest & Hs & Hc & Hge & Hk). apply Hk in Hd. clear Hk.
  assert (Ep : parallelism s = p) by (unfold s; by rewrite made_par).
  assert (Hst : stable s (parallelism s) (first :: (meaning c <$> rest))).
  { rewrite Ep. change (stable s p (meaning c <$> (take (length l / Z.to_nat p) l :: rest))). by apply made_stable, source_stable. }
  assert (Em : concat (first :: (meaning c <$> rest)) = meaning c l).
  { rewrite <- Hc, <- meaning_concat. done. }
  rewrite <- Em. clearbody first. destruct first as [|x0 l0].
  - apply (C70_match_with_empty_first_segment U V zero s cb ce w _ Hst). by right.
  - split; [apply C70_all_match|apply C70_any_match]; try done; rewrite ?Ep; try lia; rewrite fmap_length; lia.
Qed.
Print Assumptions C70_pipeline_match.

(** so a Filter before AllMatch or AnyMatch can make a parallel stream answer differently from the sequential one: of [1; 2]
    the even numbers, in two segments *)
Theorem C70_filtered_match_refuted :
  let s := made (ThenFilter Nothing Z.even (fun _ u => u)) (Parallel (slice_stream (U:=unit) [1; 2]%Z 0) 2) in
  forall b, (all_match 0%Z s Z.even (fun _ u => u) (World ∅ tt) b <-> b = false) /\
            (any_match 0%Z s Z.even (fun _ u => u) (World ∅ tt) b <-> b = false).
Proof.
  intros s b. apply (C70_pipeline_match unit Z Z 0%Z (slice_stream [1; 2]%Z 0) [1; 2]%Z (ThenFilter Nothing Z.even (fun _ u => u)) 2).
  - apply ParPipe_Props.C66_slices_are_cut_like_themselves.
  - cbn. lia.
  - by exists 1%Z.
Qed.
Print Assumptions C70_filtered_match_refuted.

(** ** Non-vacuity *)
(** [1..4] in two segments, doubled: everything is even *)
Example C70_demo : forall b, all_match 0%Z (made (ThenMap Nothing (Z.mul 2) (fun _ u => u)) (Parallel (slice_stream (U:=unit) [1; 2; 3; 4]%Z 0) 2))
  Z.even (fun _ u => u) (World ∅ tt) b <-> b = true.
Proof.
  intros b. apply (C70_pipeline_match unit Z Z 0%Z (slice_stream [1; 2; 3; 4]%Z 0) [1; 2; 3; 4]%Z (ThenMap Nothing (Z.mul 2) (fun _ u => u)) 2).
  - apply ParPipe_Props.C66_slices_are_cut_like_themselves.
  - cbn. lia.
  - by exists 2%Z.
Qed.
(** three segments for parallelism 2: the hypotheses of C70_tryfold_returns, and of C70_tryfold_too_few_segments with 4 *)
Example C70_segments : stable (slice_stream (U:=unit) [1; 2; 3]%Z 0) 2 [[1]; [2]; [3]]%Z.
Proof. apply source_stable, slice_cut. eexists. apply (Split_Proofs.split_drains [1; 2; 3]%Z 2); simpl; lia. Qed.
Example C70_few : stable (Stream 4 (fun _ => slice_gen (U:=unit) [1; 2; 3]%Z 2 0)) 4 [[1]; [2]; [3]]%Z.
Proof. exact C70_segments. Qed.
