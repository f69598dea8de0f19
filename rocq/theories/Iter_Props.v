(** Property theorems for iterator (C28, C29, C30). *)
From Verif Require Import Base Iter_Model Iter_Spec Iter_Proofs.

(** C28.  [rtc (pstep_all ..) (pinit p0) s]: [s] is reachable by some schedule of
    the producer goroutine and clients calling next and stop; the producer's
    push function [p0, pstep, pnext] is arbitrary. *)
Theorem C28_never_reordered_or_duplicated :
  forall (T P : Type) (pstep : P -> option T) (pnext : P -> bool -> P) (p0 : P) (s : pstate),
  rtc (pstep_all pstep pnext) (pinit p0) s ->
  sublist (somes (results s)) (pushed s).
Proof. exact @pull_sublist. Qed.
Print Assumptions C28_never_reordered_or_duplicated.

Theorem C28_prefix_until_stop :
  forall (T P : Type) (pstep : P -> option T) (pnext : P -> bool -> P) (p0 : P) (s : pstate),
  rtc (pstep_all pstep pnext) (pinit p0) s -> cancelled s = false ->
  (exists r, pushed s = somes (results s) ++ r /\ length r <= 1) /\
  (None ∈ results s -> pushed s = somes (results s)).
Proof. exact @pull_prefix. Qed.
Print Assumptions C28_prefix_until_stop.

Theorem C28_exhaustion_is_final :
  forall (T P : Type) (pstep : P -> option T) (pnext : P -> bool -> P) (p0 : P) (s : pstate),
  rtc (pstep_all pstep pnext) (pinit p0) s ->
  (exists d k, results s = (Some <$> d) ++ replicate k None) /\
  (None ∈ results s -> prod s = Closed).
Proof. exact @pull_exhaustion. Qed.
Print Assumptions C28_exhaustion_is_final.

Theorem C28_after_push_returns_only_exhaustion :
  forall (T P : Type) (pstep : P -> option T) (pnext : P -> bool -> P) (s s' : pstate),
  prod s = Returned \/ prod s = Closed -> rtc (pstep_all pstep pnext) s s' ->
  (prod s' = Returned \/ prod s' = Closed) /\
  exists k, results s' = results s ++ replicate k None.
Proof. exact @after_return. Qed.
Print Assumptions C28_after_push_returns_only_exhaustion.

(** what the producer's callback answers: true for the values that a next
    received and only for those, false only after stop; and these answers are
    what drives the producer *)
Theorem C28_producer_is_told :
  forall (T P : Type) (pstep : P -> option T) (pnext : P -> bool -> P) (p0 : P) (s : pstate),
  rtc (pstep_all pstep pnext) (pinit p0) s ->
  exists h p, ran pstep pnext p0 h p /\ somes (results s) = accepted h /\
    (forall v, (v, false) ∈ h -> cancelled s = true) /\
    match prod s with
    | Running q => q = p /\ pushed s = h.*1
    | Offering q v => q = p /\ pstep p = Some v /\ pushed s = h.*1 ++ [v]
    | _ => pstep p = None /\ pushed s = h.*1
    end.
Proof. exact @pull_told. Qed.
Print Assumptions C28_producer_is_told.

(** every call of next returns once: it is blocked or has one result *)
Theorem C28_one_result_per_next :
  forall (T P : Type) (pstep : P -> option T) (pnext : P -> bool -> P) (p0 : P),
  (forall s, rtc (pstep_all pstep pnext) (pinit p0) s <-> exists k, runs_to pstep pnext p0 k s) /\
  (forall k s, runs_to pstep pnext p0 k s -> waiting s + length (results s) = k).
Proof. intros T P ps pn p0. exact (conj (runs_reach ps pn p0) (runs_count ps pn p0)). Qed.
Print Assumptions C28_one_result_per_next.

(** no deadlock: a blocked next, or a stopped producer, always has a next step *)
Theorem C28_next_and_stop_make_progress :
  forall (T P : Type) (pstep : P -> option T) (pnext : P -> bool -> P) (s : pstate),
  (waiting s <> 0 -> exists s', pint pstep pnext s s') /\
  (cancelled s = true -> prod s <> Closed -> exists s', pint pstep pnext s s').
Proof. intros T P ps pn s. exact (conj (pull_progress ps pn s) (stopped_progress ps pn s)). Qed.
Print Assumptions C28_next_and_stop_make_progress.

(** but without stop an abandoned iterator blocks its goroutine for ever *)
Theorem C28_abandoned_producer_is_blocked :
  forall (T P : Type) (pstep : P -> option T) (pnext : P -> bool -> P) p v l r s',
  ~ pint pstep pnext (PState (Offering p v) false 0 l r) s'.
Proof. exact @pull_leak. Qed.
Print Assumptions C28_abandoned_producer_is_blocked.

(** C29 *)
Theorem C29_cast_to_push :
  forall (T St : Type) (next : St -> res (option T * St)) (f : T -> bool) (l : list T)
         (s s' : St) (log : list T) (fuel : nat),
  drains next s l s' -> length l < fuel ->
  exists calls s2, cast_to_push fuel next s (recorder f) log = Ok (s2, log ++ calls) /\
    visits_until_reject f l calls /\
    ((calls = l /\ Forall (fun v => f v = true) l /\ s2 = s') \/
     (Exists (fun v => f v = false) l /\ pulls next s calls s2)).
Proof. exact @cast_to_push_ok. Qed.
Print Assumptions C29_cast_to_push.

Theorem C29_iter_all_ignores_rejection :
  forall (T St : Type) (next : St -> res (option T * St)) (f : T -> bool) (l : list T)
         (s s' : St) (log : list T) (fuel : nat),
  drains next s l s' -> length l < fuel ->
  iter_all fuel next s (recorder f) log = Ok (s', log ++ l).
Proof. exact @iter_all_ok. Qed.
Print Assumptions C29_iter_all_ignores_rejection.

Theorem C29_slice_all_stops_at_rejection :
  forall (T : Type) (f : T -> bool) (s log : list T),
  exists calls, slice_all s (recorder f) log = Ok (log ++ calls) /\ visits_until_reject f s calls.
Proof. exact @slice_all_ok. Qed.
Print Assumptions C29_slice_all_stops_at_rejection.

(** [visits_until_reject] determines the visited elements *)
Theorem C29_visits_determined :
  forall (T : Type) (f : T -> bool) (l c1 c2 : list T),
  visits_until_reject f l c1 -> visits_until_reject f l c2 -> c1 = c2.
Proof. exact @visits_unique. Qed.
Print Assumptions C29_visits_determined.

Theorem C29_from_slice :
  forall (T : Type) (s : list T),
  drains (from_slice s) 0 s (length s) /\ from_slice s (length s) = Ok (None, length s).
Proof. intros T s. exact (conj (from_slice_drains s) (from_slice_exhausted s)). Qed.
Print Assumptions C29_from_slice.

(** C30 *)
Theorem C30_lines :
  forall (f : list N * option N -> bool) (bytes : list N) (fin : ferr),
  exists ls rest calls, splits_into bytes ls rest /\
  lines (recorder f) (Content bytes fin) [] = Ok calls /\
  ((Forall (fun l => f (l, None) = true) ls /\
     calls = ((fun l => (l, None)) <$> ls) ++
             match fin with EOF => [] | ReadErr e => [([], Some e)] end) \/
   (exists p l r, ls = p ++ l :: r /\ Forall (fun l => f (l, None) = true) p /\
     f (l, None) = false /\ calls = (fun l => (l, None)) <$> (p ++ [l]))).
Proof. exact lines_ok. Qed.
Print Assumptions C30_lines.

(** the decomposition into lines is unique, so C30_lines determines the calls *)
Theorem C30_lines_determined :
  forall bytes ls1 r1 ls2 r2,
  splits_into bytes ls1 r1 -> splits_into bytes ls2 r2 -> ls1 = ls2 /\ r1 = r2.
Proof. intros bytes ls1. exact (splits_unique bytes ls1). Qed.
Print Assumptions C30_lines_determined.

Theorem C30_lines_lossless_iff :
  forall bytes ls rest, splits_into bytes ls rest ->
  (concat ls = bytes <-> bytes = [] \/ exists p, bytes = p ++ [newline]).
Proof. exact lines_complete_iff. Qed.
Print Assumptions C30_lines_lossless_iff.

Theorem C30_unopenable_file :
  forall (f : list N * option N -> bool) (e : N),
  lines (recorder f) (NoOpen e) [] = Ok [([], Some e)].
Proof. exact lines_noopen. Qed.
Print Assumptions C30_unopenable_file.

(** Non-vacuity *)
Example C29_drains_example : drains (from_slice [4;5;6]) 0 [4;5;6] 3.
Proof. exact (from_slice_drains [4;5;6]). Qed.
Example C29_push_example :
  cast_to_push 5 (from_slice [4;5;6]) 0 (recorder (fun v => negb (Nat.eqb v 5))) [] = Ok (2, [4;5]).
Proof. reflexivity. Qed.
Example C30_example :
  lines (recorder (fun _ => true)) (Content [97;10;10;98]%N EOF) [] =
    Ok [([97;10]%N, None); ([10]%N, None)].
Proof. reflexivity. Qed.
(** a producer pushing 1,2,3 and stopping when told to: next, next, stop. *)
Example C28_example : exists s,
  rtc (pstep_all (fun l : list nat => head l) (fun l b => if b : bool then tail l else []))
      (pinit [1;2;3]) s /\ results s = [Some 1; Some 2; None] /\ pushed s = [1;2;3].
Proof.
  eexists. split.
  - eapply rtc_l; [apply PNext|]. eapply rtc_l; [apply PInt, PCall; reflexivity|].
    eapply rtc_l; [apply PInt, PSend|]. cbn.
    eapply rtc_l; [apply PInt, PCall; reflexivity|].
    eapply rtc_l; [apply PNext|]. eapply rtc_l; [apply PInt, PSend|]. cbn.
    eapply rtc_l; [apply PInt, PCall; reflexivity|]. eapply rtc_l; [apply PStop|].
    eapply rtc_l; [apply PInt, PDone|]. cbn.
    eapply rtc_l; [apply PInt, PRet; reflexivity|]. eapply rtc_l; [apply PInt, PClose|].
    eapply rtc_l; [apply PNext|]. eapply rtc_l; [apply PInt, PRecvClosed|]. apply rtc_refl.
  - done.
Qed.
