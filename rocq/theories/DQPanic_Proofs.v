(** Proofs for C77. *)
From Verif Require Import Base PQ_Model PQ_Spec PQ_Proofs DelayQueue_Model DelayQueue_Spec DelayQueue_Proofs DelayQueue_Proofs2 DelayQueue_Proofs3 DQPanic_Model DQPanic_Spec.

Section dq.
  Context {T : Type} (zero : T) (expi : T -> Z) (comp : T -> T -> Z).
  Notation Inv := (Inv zero expi).

  (** a panic of the comparator is a step of the queue with some other comparator *)
  Lemma comp_step x t v d : pcs x t = PuComp v d -> step zero expi (fun _ _ => 1%Z) x LRun (set_pc t Idle x).
  Proof.
    intros H. destruct x as [Q h s n c P L]. cbn [pcs] in H.
    pose proof (t_pu_comp zero expi (fun _ _ => 1%Z) t v d Q h s n c P L H) as S. cbn in S. exact (s_run _ _ _ _ _ _ _ S).
  Qed.
  Lemma pstep_step x l y ok : pstep zero expi comp x l y -> exp_fine ok l -> ok LRun ->
    exists comp' l', ok l' /\ step zero expi comp' x l' y.
  Proof.
    intros H Hl HR. destruct H as [x l y H|x t v H|x t v d H]; [|done|].
    - by exists comp, l.
    - eexists _, _. split; [exact HR|]. by eapply comp_step.
  Qed.
  Lemma pruns_inv ok x y : pruns zero expi comp (exp_fine ok) x y -> ok LRun -> Inv x -> Inv y.
  Proof.
    intros H HR. induction H as [|x y z (l & Hl & H) _ IH]; [done|]. intros I. apply IH.
    destruct (pstep_step _ _ _ _ H Hl HR) as (c' & l' & _ & S). by eapply step_inv.
  Qed.
  Lemma pruns_hs c x y : pruns zero expi comp (exp_fine (one_consumer c)) x y -> Inv x -> HS c x -> HS c y.
  Proof.
    intros H. induction H as [|x y z (l & Hl & H) _ IH]; [done|]. intros I HI.
    destruct (pstep_step _ _ _ _ H Hl Logic.I) as (c' & l' & Hl' & S). apply IH; [by eapply step_inv|by eapply step_hs].
  Qed.

  (** after a panic of Expiration the mutex stays locked *)
  Definition locked (t : nat) (Q : queue (T * Z)) (L : list (ev T)) (W : nat -> pc T) (y : sys T) : Prop :=
    holder y = Some t /\ q y = Q /\ (forall u, in_cs (pcs y u) = false) /\ (exists l, log y = L ++ l /\ Forall outside l)
    /\ forall u, wants_lock (W u) -> pcs y u = W u.
  Lemma outside_snoc (L L' : list (ev T)) e : (exists l, L' = L ++ l /\ Forall outside l) -> outside e -> exists l, L' ++ [e] = L ++ l /\ Forall outside l.
  Proof. intros (l & -> & F) He. exists (l ++ [e]). split; [by rewrite app_assoc|]. apply Forall_app. split; [done|]. by constructor. Qed.
  Lemma locked_upd t Q L W x : locked t Q L W x ->
    forall u p x', holder x' = holder x -> q x' = q x -> pcs x' = pcs x -> (exists l, log x' = L ++ l /\ Forall outside l) ->
      in_cs p = false -> ~ wants_lock (W u) -> locked t Q L W (set_pc u p x').
  Proof.
    intros (A1 & A2 & A3 & A4 & A5) u p x' B1 B2 B3 B4 B5 B6. unfold locked, set_pc; cbn. rewrite B1, B2, B3. splits; try done.
    - intros z. destruct (decide (z = u)) as [->|Hz]; [by rewrite fn_lookup_insert|by rewrite fn_lookup_insert_ne].
    - intros z Hz. destruct (decide (z = u)) as [->|Hzu]; [done|]. rewrite fn_lookup_insert_ne by done. by apply A5.
  Qed.
  Lemma locked_step t Q L W x l y : pstep zero expi comp x l y -> locked t Q L W x -> locked t Q L W y.
  Proof.
    intros H (A1 & A2 & A3 & A4 & A5).
    pose proof (locked_upd t Q L W x (conj A1 (conj A2 (conj A3 (conj A4 A5))))) as Upd.
    assert (Nw : forall u, ~ wants_lock (pcs x u) -> ~ wants_lock (W u)).
    { intros u Hu Hw. apply Hu. by rewrite (A5 u Hw). }
    destruct H as [x l y H|x u v H|x u v d H].
    - destruct H as [x u c Hpc|x u p y H|x u z Hs Hr|x u Hc|x n].
      + unfold set_ctx. cbn. assert (G : locked t Q L W (set_pc u (start_pc c) x)).
        { apply (Upd u _ x); try done; [by destruct c|]. apply Nw. rewrite Hpc. by intros []. }
        exact G.
      + pose proof (A3 u) as Hcs. inversion H; subst; cbn [holder q pcs log] in *;
          match goal with E : _ u = _ |- _ => rewrite E in Hcs; cbn in Hcs; try discriminate Hcs end; try discriminate A1.
        all: apply Upd; cbn [holder q pcs log]; try done; try (by repeat case_match);
          try (apply Nw; match goal with E : ?P ?z = _ |- ~ wants_lock (?P ?z) => rewrite E; by intros [] end).
        all: by apply outside_snoc.
      + assert (G : locked t Q L W (set_pc u Idle x)). { apply (Upd u _ x); try done. apply Nw. rewrite Hs. by intros []. }
        apply (locked_upd _ _ _ _ _ G z PoLock (set_pc u Idle x)); try done.
        apply Nw. destruct Hr as [[w ->]| ->]; by intros [].
      + done.
      + done.
    - pose proof (A3 u) as Hcs. by rewrite H in Hcs.
    - apply Upd; try done. apply Nw. rewrite H. by intros [].
  Qed.
  Lemma locked_runs t Q L W ok x y : pruns zero expi comp ok x y -> locked t Q L W x -> locked t Q L W y.
  Proof. induction 1 as [|x y z (l & _ & H) _ IH]; [done|]. intros J. apply IH. by eapply locked_step. Qed.
End dq.
