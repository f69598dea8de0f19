(** C73: TryFold with callbacks that panic. *)
From Verif Require Import Base Split_Model Stream_Model Stream_Spec ParPipe_Proofs PanicPar_Model PanicPar_Spec PanicPar_Proofs PanicTry_Model PanicTry_Spec PanicTry_Proofs.
From Verif Require ParPipe_Proofs3 ParPipe_Proofs4 PanicPar_Props.

(** parallelism 0: only the first segment is looked at; the callback is called with
    its elements up to the first refusal or panic, and a panic reaches the caller *)
Theorem C73_tryfold_sequential {U T} (zero : T) (f : T -> T -> option (T * bool)) (s : stream U T) init w cs : segments s 0 cs ->
  exists n, forall fuel, n <= fuel -> TryFoldP_seq zero f s init fuel w =
    Ok (match cs with [] => ([], Some (zero, false)) | c :: _ => (tried f init (elems c), result (try_course f init c)) end).
Proof.
  intros H. unfold segments in H. destruct cs as [|c cs]; cbn in H.
  - destruct (H w) as (g' & w' & n & Hn). exists n. intros fuel L. unfold TryFoldP_seq. by rewrite Hn by lia.
  - destruct (H w) as (it & g' & w' & [n Hn] & Hy & _). destruct (tryP_seg_ok f _ it _ init w' Hy) as [n2 Hn2].
    exists (n + n2). intros fuel L. unfold TryFoldP_seq. rewrite Hn by lia. rewrite Hn2 by lia. by destruct c.
Qed.
Print Assumptions C73_tryfold_sequential.

(** a negative parallelism panics at once, without a callback, and the process goes on *)
Theorem C73_tryfold_negative_parallelism {U T} (zero : T) (s : stream U T) (p : Z) (init : T) (f : T -> T -> option (T * bool)) (e : T -> T -> U -> U) (w0 : world U) :
  (p < 0)%Z -> forall x, rtc (zstep zero s p init f e) (zinit w0) x ->
  x = zinit w0 \/ (zm x = ZPanicked /\ zcrashed x = false /\ zworld x = w0 /\ forall y, ~ zstep zero s p init f e x y).
Proof.
  intros Hp x Hr. assert (G : x = zinit w0 \/ x = ZState ZPanicked [] [] false false w0).
  { apply rtc_ind_r with (P := fun x => x = zinit w0 \/ x = ZState ZPanicked [] [] false false w0) (z := x) in Hr; [done|by left|].
    intros y z _ Hst [->| ->]; right; inversion Hst; subst; done || lia || (exfalso; destruct_or?; naive_solver). }
  destruct G as [->| ->]; [by left|right]. splits; [done|done|done|]. intros y Hst. inversion Hst; subst; naive_solver.
Qed.
Print Assumptions C73_tryfold_negative_parallelism.

(** what comes out: a returned value folds results of segments that fold, as many as
    the parallelism says if the answer is true; false means that folding such results
    was refused, or a segment's; the call panics only if folding such results does;
    the process is terminated only if a segment panics *)
Theorem C73_tryfold_results {U T} (zero : T) (s : stream U T) (p : Z) (init : T) (f : T -> T -> option (T * bool)) (e : T -> T -> U -> U) (w0 : world U) cs :
  (1 <= p)%Z -> segments s p cs -> forall x, rtc (zstep zero s p init f e) (zinit w0) x ->
  (forall v, zm x = ZReturned v true -> exists used vs, used ⊆+ cs /\ accepted f init used vs /\ Z.of_nat (length used) = p /\ trying f init vs = Accepts v) /\
  (forall v, zm x = ZReturned v false -> exists used vs, used ⊆+ cs /\ accepted f init used vs /\
     (trying f init vs = Refuses v \/ (exists c v', c ∈ cs /\ try_course f init c = Refuses v') /\ v = default zero (last vs))) /\
  (zm x = ZPanicked -> exists used vs, used ⊆+ cs /\ accepted f init used vs /\ trying f init vs = Panics) /\
  (zcrashed x = true -> exists c, c ∈ cs /\ try_course f init c = Panics).
Proof.
  intros Hp Hs x Hr. pose proof (zinv_reach zero s p init f e w0 cs Hp Hs x Hr) as I. splits.
  - intros v Hm. destruct (zresult zero p init f e cs x I) as (used & lost & Pm & Ac & H); [by rewrite Hm|]. rewrite Hm in H.
    exists used, (sv init f <$> used). split; [rewrite <-Pm; by apply submseteq_inserts_r|]. by destruct H.
  - intros v Hm. destruct (zresult zero p init f e cs x I) as (used & lost & Pm & Ac & H); [by rewrite Hm|]. rewrite Hm in H.
    exists used, (sv init f <$> used). split; [rewrite <-Pm; by apply submseteq_inserts_r|]. split; [done|]. destruct H as [_ [H|(H & _ & E)]]; [by left|by right].
  - intros Hm. destruct (zresult zero p init f e cs x I) as (used & lost & Pm & Ac & H); [by rewrite Hm|]. rewrite Hm in H.
    exists used, (sv init f <$> used). split; [rewrite <-Pm; by apply submseteq_inserts_r|]. by destruct H.
  - by apply (zcrash_in zero p init f e cs).
Qed.
Print Assumptions C73_tryfold_results.

(** at least as many segments as the parallelism says: every execution ends, with
    TryFold returned or panicked or the process terminated; with exactly as many no
    goroutine is left unless the process was terminated *)
Theorem C73_tryfold_ends {U T} (zero : T) (s : stream U T) (p : Z) (init : T) (f : T -> T -> option (T * bool)) (e : T -> T -> U -> U) (w0 : world U) cs :
  (1 <= p)%Z -> segments s p cs -> (p <= Z.of_nat (length cs))%Z ->
  (exists bound, forall n x, nsteps (zstep zero s p init f e) n (zinit w0) x -> n <= bound) /\
  forall x, rtc (zstep zero s p init f e) (zinit w0) x ->
    ((exists y, zstep zero s p init f e x y) \/ zcrashed x = true \/ (exists v ok, zm x = ZReturned v ok) \/ zm x = ZPanicked) /\
    (Z.of_nat (length cs) = p -> (forall y, ~ zstep zero s p init f e x y) -> zcrashed x = false -> Forall (fun v => v = ZSent \/ v = ZQuit) (zws x)).
Proof.
  intros Hp Hs Hk. split; [by eapply zbounded|]. intros x Hr. pose proof (zinv_reach zero s p init f e w0 cs Hp Hs x Hr) as I. split.
  - destruct (zcrashed x) eqn:Hc; [by right; left|]. destruct (zprogress zero s p init f e cs Hp Hs x Hk I Hc) as [?|?]; auto.
  - intros Hk' St Hc. apply Forall_lookup. intros i v Hi. destruct (zno_leak zero s p init f e cs Hp Hs x i v ltac:(lia) I Hc Hi) as [[y Hy]|?]; [|done].
    by destruct (St y).
Qed.
Print Assumptions C73_tryfold_ends.

(** as many segments as the parallelism says, and one that panics: TryFold never
    returns true; and if no segment is refused and no fold of results is, every
    execution ends with the process terminated *)
Theorem C73_tryfold_panic {U T} (zero : T) (s : stream U T) (p : Z) (init : T) (f : T -> T -> option (T * bool)) (e : T -> T -> U -> U) (w0 : world U) cs :
  (1 <= p)%Z -> segments s p cs -> Z.of_nat (length cs) = p -> (exists c, c ∈ cs /\ try_course f init c = Panics) ->
  forall x, rtc (zstep zero s p init f e) (zinit w0) x ->
    (forall v, zm x <> ZReturned v true) /\
    ((forall c v, c ∈ cs -> try_course f init c <> Refuses v) ->
     (forall used vs v, used ⊆+ cs -> accepted f init used vs -> trying f init vs <> Refuses v) ->
     (zcrashed x = false <-> exists y, zstep zero s p init f e x y)).
Proof.
  intros Hp Hs Hk (c & Hc & Hb) x Hr. pose proof (zinv_reach zero s p init f e w0 cs Hp Hs x Hr) as I.
  assert (N : forall v, zm x <> ZReturned v true) by (intros v; by eapply znot_true).
  split; [done|]. intros R1 R2. split; [|intros [y Hy]; by inversion Hy].
  intros Hcr. destruct (C73_tryfold_results zero s p init f e w0 cs Hp Hs x Hr) as (_ & Hf & _).
  assert (Hcanc : zcanc x = false).
  { destruct (zcanc x) eqn:E; [|done]. destruct (zi_canc _ _ _ _ _ _ I E) as [(c' & v & Hi & Hv)|[v Hm]]; [by destruct (R1 c' v Hi)|].
    destruct (Hf v Hm) as (used & vs & Sb & Ac & [Hv|[(c' & v' & Hi & Hv) _]]); [by destruct (R2 used vs v Sb Ac)|by destruct (R1 c' v' Hi)]. }
  destruct (zprogress zero s p init f e cs Hp Hs x ltac:(lia) I Hcr) as [?|Hm]; [done|].
  assert (Hl : length (zws x) = length cs). { pose proof (zi_main _ _ _ _ _ _ I) as L. destruct Hm as [(v & ok & Hm)|Hm]; by rewrite Hm in L. }
  apply elem_of_list_lookup in Hc as [i Hi]. destruct (lookup_lt_is_Some_2 (zws x) i) as [w Hw]; [rewrite Hl; by eapply lookup_lt_Some|].
  destruct (zno_leak zero s p init f e cs Hp Hs x i w ltac:(lia) I Hcr Hw) as [?|Hq]; [done|].
  pose proof (zi_ws _ _ _ _ _ _ I i w Hw) as Hz. rewrite Hi in Hz. cbn in Hz. destruct Hq as [->| ->]; cbn in Hz; [|congruence].
  destruct Hz as [v Hz]. congruence.
Qed.
Print Assumptions C73_tryfold_panic.

(** if one segment is refused and another panics, TryFold can return false and the
    process still be terminated by the panic afterwards *)
Theorem C73_tryfold_panic_after_return {U T} (zero : T) (s : stream U T) (p : Z) (init : T) (f : T -> T -> option (T * bool)) (e : T -> T -> U -> U) (w0 : world U) cs :
  (1 <= p)%Z -> segments s p cs ->
  (exists c1 v, c1 ∈ cs /\ try_course f init c1 = Refuses v) -> (exists c2, c2 ∈ cs /\ try_course f init c2 = Panics) ->
  exists x y, rtc (zstep zero s p init f e) (zinit w0) x /\ zm x = ZReturned zero false /\ zcrashed x = false /\
    rtc (zstep zero s p init f e) x y /\ zm y = ZReturned zero false /\ zcrashed y = true.
Proof. intros Hp Hs (c1 & v & H1 & E1) (c2 & H2 & E2). exact (crash_after_return zero s p init f e w0 cs Hp Hs c1 c2 v H1 H2 E1 E2). Qed.
Print Assumptions C73_tryfold_panic_after_return.

(** ** Non-vacuity: [10, 0, 5, 2] mapped by 100/x in two segments, [10] and a panic, and [20, 50] *)
Definition sum_to (limit : Z) (a x : Z) : option (Z * bool) := Some ((a + x)%Z, (a + x <=? limit)%Z).
Example demo_verdicts : try_course (sum_to 60) 0%Z (Course [10]%Z true) = Panics /\ try_course (sum_to 60) 0%Z (Course [20; 50]%Z false) = Refuses 70%Z.
Proof. done. Qed.
Example demo_crash_after_return : exists x y,
  rtc (zstep 0%Z PanicPar_Props.demo 2 0%Z (sum_to 60) (fun _ _ u => u)) (zinit (World ∅ 0)) x /\ zm x = ZReturned 0%Z false /\ zcrashed x = false /\
  rtc (zstep 0%Z PanicPar_Props.demo 2 0%Z (sum_to 60) (fun _ _ u => u)) x y /\ zm y = ZReturned 0%Z false /\ zcrashed y = true.
Proof.
  eapply C73_tryfold_panic_after_return; [lia|exact PanicPar_Props.demo_segments| |].
  - exists (Course [20; 50]%Z false), 70%Z. split; [by right; left|done].
  - exists (Course [10]%Z true). split; [by left|done].
Qed.
Example demo_always_crashes x :
  rtc (zstep 0%Z PanicPar_Props.demo 2 0%Z (fun a x => Some ((a + x)%Z, true)) (fun _ _ u => u)) (zinit (World ∅ 0)) x ->
  (zcrashed x = false <-> exists y, zstep 0%Z PanicPar_Props.demo 2 0%Z (fun a x => Some ((a + x)%Z, true)) (fun _ _ u => u) x y).
Proof.
  intros Hx. destruct (C73_tryfold_panic 0%Z PanicPar_Props.demo 2 0%Z (fun a x => Some ((a + x)%Z, true)) (fun _ _ u => u) (World ∅ 0) _ ltac:(lia) PanicPar_Props.demo_segments eq_refl) with (x := x) as [_ H].
  - exists (Course [10]%Z true). split; [by left|done].
  - exact Hx.
  - assert (G : forall l a v, trying (fun a x => Some ((a + x)%Z, true)) a l <> Refuses v) by (induction l as [|y l IH]; intros a v; [done|apply IH]).
    apply H; [|intros; apply G]. intros c v _. unfold try_course. specialize (G (elems c) 0%Z v). destruct (trying _ _ (elems c)); [by destruct (booms c)|done|done].
Qed.
Example demo_sequential_try : exists n, forall fuel, n <= fuel ->
  TryFoldP_seq 0%Z (sum_to 60) (slice_stream (U:=nat) [20; 50; 7]%Z 0) 0%Z fuel (World ∅ 0) = Ok ([20; 50]%Z, Some (70%Z, false)).
Proof.
  apply (C73_tryfold_sequential 0%Z (sum_to 60) (slice_stream (U:=nat) [20; 50; 7]%Z 0) 0%Z (World ∅ 0) [Course [20; 50; 7]%Z false]).
  apply (PanicPar_Props.C73_stable_streams _ _ [[20; 50; 7]]%Z). apply ParPipe_Proofs3.source_stable, ParPipe_Proofs3.slice_cut. by apply ParPipe_Proofs4.cut_seq.
Qed.
