(** Property theorems for sequential streams (C21-C24). *)
From Verif Require Import Base Iter_Model Iter_Spec Split_Model Stream_Model Stream_Spec.
From Verif Require Import Stream_Proofs Stream_Proofs2 Stream_Proofs3.

(** C21.  The general theorem: a pipeline of any depth of Map, Filter, Inspect,
    SkipWhile, Skip, Take and Enumerate over any source, with callbacks that may read and write
    shared state, behaves as one loop over the source's elements ([run_segments]). *)
Theorem C21_pipeline_is_one_loop :
  forall (U T V R : Type) (p : pipe T V) (f : R -> V -> U -> R * U) (s : stream U T) ls init w,
  NoDup (counters p) -> source s 0 ls ->
  evaluates (fun fuel => fold_with (build p s) init f fuel w) (run_segments p f ls init w).
Proof. exact @pipeline_fold. Qed.
Print Assumptions C21_pipeline_is_one_loop.

Theorem C21_collect_pipeline :
  forall (U T V : Type) (p : pipe T V) (consume : V -> U -> U) (s : stream U T) ls w,
  NoDup (counters p) -> source s 0 ls ->
  evaluates (fun fuel => collect (build p s) consume fuel w)
            (run_segments p (fun (_ : unit) v u => (tt, consume v u)) ls tt w).2.
Proof. exact @pipeline_collect. Qed.
Print Assumptions C21_collect_pipeline.

(** Single stages with arbitrary, state-dependent callbacks: the callback runs once
    per element, in order, and the consumer right after it. *)
Theorem C21_collect_map :
  forall (U T V : Type) (f : T -> U -> V * U) (s : stream U T) ls w consume, source s 0 ls ->
  evaluates (fun fuel => collect (Map s f) consume fuel w)
    (World (ctr w) (fold_left (fun u x => let '(r, u') := f x u in consume r u') (concat ls) (usr w))).
Proof. exact @collect_map. Qed.
Print Assumptions C21_collect_map.

Theorem C21_collect_filter :
  forall (U T : Type) (f : T -> U -> bool * U) (s : stream U T) ls w consume, source s 0 ls ->
  evaluates (fun fuel => collect (Filter s f) consume fuel w)
    (World (ctr w) (fold_left (fun u x => let '(b, u') := f x u in if b then consume x u' else u') (concat ls) (usr w))).
Proof. exact @collect_filter. Qed.
Print Assumptions C21_collect_filter.

Theorem C21_collect_inspect :
  forall (U T : Type) (f : T -> U -> U) (s : stream U T) ls w consume, source s 0 ls ->
  evaluates (fun fuel => collect (Inspect s f) consume fuel w)
    (World (ctr w) (fold_left (fun u x => consume x (f x u)) (concat ls) (usr w))).
Proof. exact @collect_inspect. Qed.
Print Assumptions C21_collect_inspect.

(** with pure callbacks: the list functions *)
Theorem C21_map_filter_lists :
  forall (U T V : Type) (f : T -> V) (q : T -> bool) (s : stream U T) ls w, source s 0 ls ->
  collects s w (concat ls) (ctr w) /\
  collects (Map s (fun x u => (f x, u))) w (f <$> concat ls) (ctr w) /\
  collects (Filter s (fun x u => (q x, u))) w (List.filter q (concat ls)) (ctr w).
Proof.
  intros U T V f q s ls w Hs.
  exact (conj (collects_source s ls w Hs) (conj (collects_map f s ls w Hs) (collects_filter q s ls w Hs))).
Qed.
Print Assumptions C21_map_filter_lists.

(** slices are sources: with parallelism 0 a single segment *)
Theorem C21_slices_are_sources :
  forall (U T : Type) (l : list T) q, source (slice_stream (U:=U) l q) 0 [l].
Proof. exact @slice_source. Qed.
Print Assumptions C21_slices_are_sources.

(** Parallel changes nothing but the parallelism: whatever parallelism the
    result is activated with, it has the segments of the given stream; the last
    Parallel wins. *)
Theorem C21_parallel :
  forall (U T : Type) (s : stream U T) (p q : Z) ls,
  parallelism (Parallel s p) = p /\ (source (Parallel s p) q ls <-> source s q ls) /\
  Parallel (Parallel s p) q = Parallel s q.
Proof. done. Qed.
Print Assumptions C21_parallel.

(** C22.  [a] is the value the stream's counter has before this activation. *)
Theorem C22_take :
  forall (U T : Type) c n a (s : stream U T) ls w, source s 0 ls -> ctr w !! c = Some a ->
  let l := take (Z.to_nat (n - a)) (concat ls) in
  collects (take_at c s n) w l (<[c := (a + Z.of_nat (length l))%Z]> (ctr w)).
Proof. exact @collects_take. Qed.
Print Assumptions C22_take.

Theorem C22_skip :
  forall (U T : Type) c n a (s : stream U T) ls w, source s 0 ls -> ctr w !! c = Some a ->
  collects (skip_at c s n) w (drop (Z.to_nat (n - 1 - a)) (concat ls))
           (<[c := (a + Z.of_nat (length (concat ls)))%Z]> (ctr w)).
Proof. exact @collects_skip. Qed.
Print Assumptions C22_skip.

Theorem C22_skip_while :
  forall (U T : Type) (f : T -> bool) (s : stream U T) ls w, source s 0 ls ->
  collects (SkipWhile s (fun x u => (f x, u))) w (List.filter (fun x => negb (f x)) (concat ls)) (ctr w).
Proof. exact @collects_skipwhile. Qed.
Print Assumptions C22_skip_while.

Theorem C22_enumerate :
  forall (U T : Type) c a (s : stream U T) ls w, source s 0 ls -> ctr w !! c = Some a ->
  collects (enum_at c s) w (imap (fun i x => ((a + 1 + Z.of_nat i)%Z, x)) (concat ls))
           (<[c := (a + Z.of_nat (length (concat ls)))%Z]> (ctr w)).
Proof. exact @collects_enum. Qed.
Print Assumptions C22_enumerate.

(** the constructors start the counter at 0, in a fresh cell *)
Theorem C22_counters_start_at_zero :
  forall (U T : Type) (s : stream U T) n (w : world U),
  exists c w', ctr w !! c = None /\ ctr w' !! c = Some 0%Z /\ usr w' = usr w /\
    (forall d, d <> c -> ctr w' !! d = ctr w !! d) /\
    Skip s n w = (skip_at c s n, w') /\ Take s n w = (take_at c s n, w') /\
    Enumerate s w = (enum_at c s, w').
Proof.
  intros U T s n w. pose proof (new_ctr_spec w) as H. destruct (new_ctr w) as [c w'] eqn:E.
  exists c, w'. unfold Skip, Take, Enumerate. rewrite E. naive_solver.
Qed.
Print Assumptions C22_counters_start_at_zero.

(** C23 *)
Theorem C23_zip :
  forall (U T R : Type) (s : stream U T) (r : stream U R) p ls1 ls2,
  stable s p ls1 -> stable r p ls2 -> stable (Zip s r) p (zip_with zip ls1 ls2).
Proof.
  intros U T R s r p ls1 ls2 H1 H2.
  eapply zip_gyields; [done|done|exact H1|exact H2].
Qed.
Print Assumptions C23_zip.

Theorem C23_chain :
  forall (U T : Type) (ss : list (stream U T)) (lss : list (list (list T))) p,
  Forall2 (fun s ls => stable s (parallelism s) ls) ss lss ->
  stable (Chain ss) p (chain_segments lss) /\ parallelism (Chain ss) = 0%Z.
Proof.
  intros U T ss lss p H. split; [|done].
  eapply chain_gyields; [done|done|reflexivity|].
  by apply Forall2_fmap_l.
Qed.
Print Assumptions C23_chain.

(** single-segment sources: concatenation *)
Theorem C23_chain_concat :
  forall (U T : Type) (ss : list (stream U T)) (ls : list (list T)) p, ss <> [] ->
  Forall2 (fun s l => stable s (parallelism s) [l]) ss ls ->
  stable (Chain ss) p [concat ls].
Proof.
  intros U T ss ls p Hne H. destruct (C23_chain U T ss ((fun l => [l]) <$> ls) p) as [Hc _].
  { apply Forall2_fmap_r. exact H. }
  replace (chain_segments ((fun l => [l]) <$> ls)) with [concat ls] in Hc; [done|].
  unfold chain_segments. rewrite <- list_fmap_compose.
  assert (foldr max 0 ((length ∘ (fun l => [l])) <$> ls) = 1) as ->.
  { assert (ls <> []) as Hne' by (intros ->; by apply Forall2_nil_inv_r in H).
    clear -Hne'. induction ls as [|l ls IH]; [done|]. destruct ls as [|l2 ls]; [done|].
    rewrite fmap_cons. cbn [foldr]. rewrite IH by done. done. }
  simpl. do 2 f_equal. clear. induction ls as [|l ls IH]; [done|]. simpl. by f_equal.
Qed.
Print Assumptions C23_chain_concat.

Theorem C23_flat_map :
  forall (U T V : Type) (s : stream U T) (f : T -> U -> stream U V * U) (segs : T -> list (list V)) p ls,
  (forall t u, stable (f t u).1 0 (segs t)) -> stable s p ls ->
  stable (FlatMap s f) p (flat_elements segs <$> ls).
Proof.
  intros U T V s f segs p ls Hf Hs.
  eapply flat_gyields; [done|done|exact Hf|done|exact Hs].
Qed.
Print Assumptions C23_flat_map.

(** sub-streams that each have exactly one segment (e.g. slices): the usual flat map *)
Theorem C23_flat_map_concat :
  forall (T V : Type) (g : T -> list V) (l : list T), flat_elements (fun t => [g t]) l = concat (g <$> l).
Proof. intros T V g l. induction l as [|t l IH]; [done|]. simpl. by rewrite IH. Qed.
Print Assumptions C23_flat_map_concat.

(** C24 *)
Theorem C24_fold :
  forall (U T R : Type) (f : R -> T -> U -> R * U) (s : stream U T) ls init w, source s 0 ls ->
  evaluates (fun fuel => fold_with s init f fuel w)
    (let '(a, u) := fold_left (fun '(a, u) x => f a x u) (concat ls) (init, usr w) in (a, World (ctr w) u)).
Proof. exact @fold_ok. Qed.
Print Assumptions C24_fold.

Theorem C24_sum :
  forall (U : Type) (s : stream U Z) ls w, source s 0 ls ->
  evaluates (fun fuel => sum s fuel w) (foldr Z.add 0%Z (concat ls), w).
Proof. exact @sum_ok. Qed.
Print Assumptions C24_sum.

Theorem C24_first :
  forall (U T : Type) (s : stream U T) ls w, source s (parallelism s) ls ->
  evaluates (fun fuel => first s fuel w) (head (first_segment ls), w).
Proof. exact @first_ok. Qed.
Print Assumptions C24_first.

(** the first element is used twice: as the start value and as an element *)
Theorem C24_reduce :
  forall (U T : Type) zero (f : T -> T -> T) (s : stream U T) ls w, parallelism s = 0%Z -> source s 0 ls ->
  evaluates (fun fuel => reduce zero s (fun a x u => (f a x, u)) fuel w)
    (match first_segment ls with [] => zero | x :: _ => fold_left f (concat ls) x end, w).
Proof. exact @reduce_ok. Qed.
Print Assumptions C24_reduce.

Theorem C24_max :
  forall (U : Type) (s : stream U Z) ls w, parallelism s = 0%Z -> source s 0 ls ->
  exists r, evaluates (fun fuel => smax s fuel w) (r, w) /\
    match first_segment ls with
    | [] => r = 0%Z
    | _ => r ∈ concat ls /\ Forall (fun x => (x <= r)%Z) (concat ls) end.
Proof. exact @smax_ok. Qed.
Print Assumptions C24_max.

Theorem C24_min :
  forall (U : Type) (s : stream U Z) ls w, parallelism s = 0%Z -> source s 0 ls ->
  exists r, evaluates (fun fuel => smin s fuel w) (r, w) /\
    match first_segment ls with
    | [] => r = 0%Z
    | _ => r ∈ concat ls /\ Forall (fun x => (r <= x)%Z) (concat ls) end.
Proof. exact @smin_ok. Qed.
Print Assumptions C24_min.

Theorem C24_try_fold :
  forall (U T : Type) zero init (f : T -> T -> U -> (T * bool) * U) (s : stream U T) ls w, source s 0 ls ->
  evaluates (fun fuel => try_fold zero s init f fuel w)
    (match ls with
     | [] => (zero, false, w)
     | l :: _ => let '(a, ok, u) := try_left f init l (usr w) in (a, ok, World (ctr w) u) end).
Proof. exact @try_fold_ok. Qed.
Print Assumptions C24_try_fold.

(** [try_left] stops at the first rejected element *)
Theorem C24_try_fold_stops :
  forall (U T R : Type) (f : R -> T -> R * bool) l (a : R) (u : U),
  (exists a', try_left (fun a x u => (f a x, u)) a l u = (a', true, u)) \/
  (exists p x r a' a'', l = p ++ x :: r /\
     try_left (fun a x u => (f a x, u)) a p u = (a', true, u) /\ f a' x = (a'', false) /\
     try_left (fun a x u => (f a x, u)) a l u = (a'', false, u)).
Proof. exact @try_left_stops. Qed.
Print Assumptions C24_try_fold_stops.

(** AllMatch: true iff non-empty and all match; the callback runs on the elements up to
    and including the first that does not match *)
Theorem C24_all_match :
  forall (U T : Type) zero (q : T -> bool) (e : T -> U -> U) (s : stream U T) ls w,
  parallelism s = 0%Z -> source s 0 ls ->
  let l := first_segment ls in
  exists calls, visits_until_reject q l calls /\
    evaluates (fun fuel => all_match zero s (fun x u => (q x, e x u)) fuel w)
      (match l with [] => false | _ => forallb q l end,
       World (ctr w) (fold_left (fun u x => e x u) calls (usr w))).
Proof. exact @all_match_ok. Qed.
Print Assumptions C24_all_match.

Theorem C24_any_match :
  forall (U T : Type) zero (q : T -> bool) (e : T -> U -> U) (s : stream U T) ls w,
  parallelism s = 0%Z -> source s 0 ls ->
  let l := first_segment ls in
  exists calls, visits_until_reject (fun x => negb (q x)) l calls /\
    evaluates (fun fuel => any_match zero s (fun x u => (q x, e x u)) fuel w)
      (existsb q l, World (ctr w) (fold_left (fun u x => e x u) calls (usr w))).
Proof. exact @any_match_ok. Qed.
Print Assumptions C24_any_match.

(** Reduce is not the usual reduction: its result on a one-element stream is f x x *)
Theorem C24_reduce_single_refuted :
  exists (l : list Z) (f : Z -> Z -> Z) w,
  l = [3%Z] /\ evaluates (fun fuel => reduce 0%Z (slice_stream (U:=unit) l 0) (fun a x u => (f a x, u)) fuel w) (6%Z, w).
Proof.
  exists [3%Z], Z.add, (World ∅ tt). split; [done|].
  exact (reduce_ok 0%Z Z.add (slice_stream [3%Z] 0) [[3%Z]] (World ∅ tt) eq_refl (slice_source [3%Z] 0)).
Qed.
Print Assumptions C24_reduce_single_refuted.

(** ** Non-vacuity: concrete pipelines, run *)
Example C21_run_pipeline :
  collect (Filter (Map (slice_stream [1;2;3;4;5] 0) (fun x u => (x * 10, u ++ [x])))
                  (fun x u => (20 <? x, u))) (fun x u => u ++ [x]) 20 (World ∅ [])
  = Ok (World ∅ [1; 2; 3; 30; 4; 40; 5; 50]).
Proof. vm_compute. done. Qed.
Example C22_run_take_twice :   (* Take(3), collected twice: 3 elements, then none *)
  let '(s, w) := Take (slice_stream [1;2;3;4;5] 0) 3 (World ∅ []) in
  (let! w1 := collect s (fun x u => u ++ [x]) 20 w in
   let! w2 := collect s (fun x u => u ++ [x]) 20 w1 in Ok (usr w1, usr w2)) = Ok ([1;2;3], [1;2;3]).
Proof. vm_compute. done. Qed.
Example C22_run_skip :         (* Skip(3) drops only two *)
  let '(s, w) := Skip (slice_stream [1;2;3;4;5] 0) 3 (World ∅ []) in
  (let! w1 := collect s (fun x u => u ++ [x]) 20 w in Ok (usr w1)) = Ok [3;4;5].
Proof. vm_compute. done. Qed.
Example C23_run_chain_flatmap :
  (let! w := collect (Chain [FlatMap (slice_stream [1;2;3] 0) (fun x u => (slice_stream [x; x + 10] 5, u));
                             slice_stream [7;8] 2]) (fun x u => u ++ [x]) 20 (World ∅ []) in Ok (usr w))
  = Ok [1; 11; 2; 12; 3; 13; 7; 8].
Proof. vm_compute. done. Qed.
Example C24_hypotheses_met :
  parallelism (slice_stream (U:=unit) [4%Z; 9%Z; 2%Z] 0) = 0%Z /\
  source (slice_stream (U:=unit) [4%Z; 9%Z; 2%Z] 0) 0 [[4%Z; 9%Z; 2%Z]] /\
  smax (slice_stream (U:=unit) [4%Z; 9%Z; 2%Z] 0) 20 (World ∅ tt) = Ok (9%Z, World ∅ tt).
Proof. splits; [done|apply slice_source|vm_compute; done]. Qed.
