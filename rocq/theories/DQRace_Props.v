(** Data races of the delay queue. *)
From stdpp Require Import functions.
From Verif Require Import Base PQ_Model DelayQueue_Model DelayQueue_Spec DelayQueue_Proofs DelayQueue_Props Race_Spec DQRace_Model.

Local Lemma touches_kinds {T} (x : sys T) t a : a ∈ dq_touches x t ->
  in_cs (pcs x t) = true
  \/ pcs x t = LnRead /\ a = read Size
  \/ atomic a = true /\ place a = Sleeping.
Proof.
  unfold dq_touches. destruct (pcs x t) eqn:E; cbn [in_cs]; rewrite ?elem_of_cons, ?elem_of_nil; intros H; try done; try (by left);
    right; repeat (destruct H as [->|H]; [by auto|]); done.
Qed.
Local Lemma touches_sleeping {T} (x : sys T) t a : a ∈ dq_touches x t -> place a = Sleeping -> atomic a = true.
Proof.
  unfold dq_touches. destruct (pcs x t) eqn:E; rewrite ?elem_of_cons, ?elem_of_nil; intros H P; try done;
    repeat (destruct H as [->|H]; [done|]); done.
Qed.
Local Lemma touches_write_size {T} (x : sys T) t a : a ∈ dq_touches x t -> writes a = true -> place a = Size ->
  (exists v, pcs x t = PuPush v) \/ (exists d rd, pcs x t = PoPop d rd).
Proof.
  unfold dq_touches. destruct (pcs x t) eqn:E; rewrite ?elem_of_cons, ?elem_of_nil; intros H W P; try done; eauto;
    repeat (destruct H as [->|H]; [done|]); done.
Qed.

(** ** C71 *)

(** The only races are on the heap's counter, between a Len and a Push or Pop
    working on the heap under the mutex. *)
Theorem C71_delay_queue_races_only_on_the_size {T} zero expi comp size (x : sys T) t u l :
  reached zero expi comp size anything x -> race dq_touches x t u l ->
  l = Size
  /\ (pcs x t = LnRead /\ ((exists v, pcs x u = PuPush v) \/ (exists d rd, pcs x u = PoPop d rd))
      \/ pcs x u = LnRead /\ ((exists v, pcs x t = PuPush v) \/ (exists d rd, pcs x t = PoPop d rd))).
Proof.
  intros I%reached_inv (N & a & b & Ha & Hb & (Ep & W & A) & El).
  destruct (touches_kinds x t a Ha) as [C1|[[E1 ->]|[A1 P1]]].
  - destruct (touches_kinds x u b Hb) as [C2|[[E2 ->]|[A2 P2]]].
    + apply (i_mutex _ _ _ I) in C1, C2. rewrite C1 in C2. injection C2 as C2. done.
    + cbn in Ep. split; [by rewrite <-El|]. right. split; [done|]. apply (touches_write_size x t a Ha); [|done]. by destruct W.
    + rewrite A2 in A. rewrite (touches_sleeping x t a Ha) in A by by rewrite Ep. by destruct A.
  - cbn in Ep, El. split; [done|]. left. split; [done|]. apply (touches_write_size x u b Hb); [|done]. by destruct W.
  - rewrite A1 in A. rewrite (touches_sleeping x u b Hb) in A by by rewrite <-Ep. by destruct A.
Qed.
Print Assumptions C71_delay_queue_races_only_on_the_size.

(** without Len there is none *)
Definition no_len {T} (l : label T) : Prop := forall t, l <> LCall t CLen.
Theorem C71_delay_queue_race_free_without_len {T} zero expi comp size (x : sys T) t u l :
  reached zero expi comp size no_len x -> ~ race dq_touches x t u l.
Proof.
  intros (q0 & E & H) Hr.
  assert (Q : forall i, pcs x i <> LnRead).
  { assert (Q0 : forall i, pcs (start q0 : sys T) i <> LnRead) by done. clear E Hr. induction H as [|y z w (lb & Hl & St) _ IH]; [done|].
    apply IH. clear IH. inversion St as [? i c Hi|? i p v Ts|? i j Hi Hj| |]; subst; unfold set_pc, set_ctx, set_now; cbn [pcs]; try done; intros k.
    - destruct (decide (k = i)) as [->|Nk]; [rewrite fn_lookup_insert|by rewrite fn_lookup_insert_ne].
      destruct c; try done. by destruct (Hl i).
    - assert (Ep : pcs v = pcs y) by by inversion Ts.
      destruct (decide (k = i)) as [->|Nk]; [rewrite fn_lookup_insert|by rewrite fn_lookup_insert_ne, Ep].
      inversion Ts; subst; repeat case_match; done.
    - destruct (decide (k = j)) as [->|Nk]; [by rewrite fn_lookup_insert|rewrite fn_lookup_insert_ne by done].
      destruct (decide (k = i)) as [->|Nk']; [by rewrite fn_lookup_insert|by rewrite fn_lookup_insert_ne]. }
  assert (R : reached zero expi comp size anything x).
  { exists q0. split; [done|]. clear E Hr Q. induction H as [|y z w (lb & Hl & St) _ IH]; [by constructor|].
    eapply rtc_l; [|exact IH]. by exists lb. }
  destruct (C71_delay_queue_races_only_on_the_size _ _ _ _ x t u l R Hr) as [_ [[F _]|[F _]]]; by apply Q in F.
Qed.
Print Assumptions C71_delay_queue_race_free_without_len.

(** the race is there: one goroutine in Push, another in Len *)
Theorem C71_delay_queue_len_races_refuted :
  exists x : sys Z, reached 0%Z id Zcomp 4 anything x /\ pcs x 0 = PuPush 7%Z /\ pcs x 1 = LnRead /\ race dq_touches x 0 1 Size.
Proof.
  eexists. split; [exists q0; split; [by vm_compute|]|].
  - call 0 (CPush 7%Z). go 0 t_pu_lock. call 1 (@CLen Z). by constructor.
  - split; [reflexivity|]. split; [reflexivity|]. split; [done|].
    exists (write Size), (read Size). split; [do 3 right; by left|]. split; [by left|]. split; [|done]. unfold conflict. cbn. auto.
Qed.
Print Assumptions C71_delay_queue_len_races_refuted.

(** [dq_touches] lists every change *)
Theorem C71_delay_queue_writes_are_listed {T} zero expi comp (x : sys T) lb y :
  step zero expi comp x lb y ->
  (qsize (q y) <> qsize (q x) -> exists t, write Size ∈ dq_touches x t)
  /\ (PQ_Model.elements (q y) <> PQ_Model.elements (q x) -> exists t, write Elements ∈ dq_touches x t)
  /\ (sleeping y <> sleeping x -> exists t, atomic_write Sleeping ∈ dq_touches x t).
Proof.
  intros St. inversion St as [|? t p z Ts| | |]; subst; try done.
  inversion Ts; subst; unfold dq_touches; cbn [q sleeping set_pc pcs]; splits; try done; intros _; exists t;
    match goal with E : ?P t = _ |- context [?P t] => rewrite E end; set_solver.
Qed.
Print Assumptions C71_delay_queue_writes_are_listed.
