From Verif Require Import Base PQ_Model PQ_Spec PQ_Proofs DelayQueue_Model DelayQueue_Spec.

Lemma dcomp_ok {T} : cmp_ok (@dcomp T).
Proof. split; unfold dcomp; intros; repeat case_match; lia. Qed.
Lemma dcomp_le {T} (a b : T * Z) : (dcomp a b <= 0)%Z <-> (a.2 <= b.2)%Z.
Proof. unfold dcomp. repeat case_match; lia. Qed.

Section dq.
  Context {T : Type} (zero : T) (expi : T -> Z) (comp : T -> T -> Z).
  Notation dn := (dnil zero).
  Notation DC := (@dcomp T).

  Definition in_cs (p : pc T) : bool :=
    match p with
    | PuPush _ | PuPeek _ | PuUnlock _ _ | PoPeek | PoClock _ | PoPop _ _ | PoUnlock _ _ | PlRead | PlUnlock _ _ => true
    | _ => false
    end.
  Definition pc_ok (Q : queue (T * Z)) (p : pc T) : Prop :=
    match p with
    | PuPeek _ => q_bag Q <> []
    | PoClock d => q_peek dn Q = Ok (d, true)
    | PoPop d rd => q_peek dn Q = Ok (d, true) /\ (d.2 <= rd)%Z
    | PoUnlock None delta | PoStore delta => (0 <= delta)%Z
    | Crashed => False
    | _ => True
    end.
  Definition never_early (L : list (ev T)) : Prop :=
    forall t v rd rest, Taken t v rd rest ∈ L -> (expi v <= rd)%Z /\ forall w, w ∈ rest -> (expi v <= expi w)%Z.

  Record Inv (x : sys T) : Prop := {
    i_q : q_inv DC (q x);
    i_exp : forall d, d ∈ q_bag (q x) -> d.2 = expi d.1;
    i_mutex : forall t, in_cs (pcs x t) = true <-> holder x = Some t;
    i_pc : forall t, pc_ok (q x) (pcs x t);
    i_perm : pushed (log x) ≡ₚ queued x ++ taken (log x);
    i_hand : forall t, taken_by t (log x) = settled_by t (log x) ++ in_hand (pcs x t);
    i_early : never_early (log x);
  }.

  Lemma pc_ok_other Q Q' p : in_cs p = false -> pc_ok Q p -> pc_ok Q' p.
  Proof. by destruct p. Qed.

  Lemma inv_update x t p Q' h' s' n' c' L' :
    Inv x ->
    q_inv DC Q' -> (forall d, d ∈ q_bag Q' -> d.2 = expi d.1) ->
    (forall u, in_cs ((<[t:=p]> (pcs x) : nat -> pc T) u) = true <-> h' = Some u) ->
    (Q' = q x \/ in_cs (pcs x t) = true) -> pc_ok Q' p ->
    pushed L' ≡ₚ (fst <$> q_bag Q') ++ taken L' ->
    (forall u, taken_by u L' = settled_by u L' ++ in_hand ((<[t:=p]> (pcs x) : nat -> pc T) u)) ->
    never_early L' -> Inv (Sys Q' h' s' n' c' (<[t:=p]> (pcs x)) L').
  Proof.
    intros I Hq He Hm Hc Hp Hperm Hhand Hearly. split; simpl; try done.
    intros u. destruct (decide (u = t)) as [->|Hne]; [by rewrite fn_lookup_insert|].
    rewrite fn_lookup_insert_ne by done. destruct Hc as [->|Hc]; [apply I|].
    apply (pc_ok_other (q x)); [|apply I].
    destruct (in_cs (pcs x u)) eqn:E; [|done]. apply (i_mutex _ I) in E. apply (i_mutex _ I) in Hc. congruence.
  Qed.

  (** steps that leave the queue and the log alone *)
  Lemma inv_local x t p h' s' n' c' :
    Inv x -> pc_ok (q x) p -> in_hand p = in_hand (pcs x t) ->
    (forall u, in_cs ((<[t:=p]> (pcs x) : nat -> pc T) u) = true <-> h' = Some u) ->
    Inv (Sys (q x) h' s' n' c' (<[t:=p]> (pcs x)) (log x)).
  Proof.
    intros I Hp Hh Hm. eapply inv_update; eauto; try apply I.
    intros u. destruct (decide (u = t)) as [->|Hne].
    - rewrite fn_lookup_insert, Hh. apply I.
    - rewrite fn_lookup_insert_ne by done. apply I.
  Qed.

  Lemma mutex_same x t p : Inv x -> in_cs p = in_cs (pcs x t) ->
    forall u, in_cs ((<[t:=p]> (pcs x) : nat -> pc T) u) = true <-> holder x = Some u.
  Proof.
    intros I E u. rewrite <- (i_mutex _ I). destruct (decide (u = t)) as [->|Hne].
    - by rewrite fn_lookup_insert, E.
    - by rewrite fn_lookup_insert_ne.
  Qed.
  Lemma mutex_acquire x t p : Inv x -> holder x = None -> in_cs p = true ->
    forall u, in_cs ((<[t:=p]> (pcs x) : nat -> pc T) u) = true <-> Some t = Some u.
  Proof.
    intros I E Hp u. destruct (decide (u = t)) as [->|Hne].
    - by rewrite fn_lookup_insert, Hp.
    - rewrite fn_lookup_insert_ne, (i_mutex _ I), E by done. naive_solver.
  Qed.
  Lemma mutex_release x t p : Inv x -> in_cs (pcs x t) = true -> in_cs p = false ->
    forall u, in_cs ((<[t:=p]> (pcs x) : nat -> pc T) u) = true <-> (None : option nat) = Some u.
  Proof.
    intros I E Hp u. apply (i_mutex _ I) in E. destruct (decide (u = t)) as [->|Hne].
    - by rewrite fn_lookup_insert, Hp.
    - rewrite fn_lookup_insert_ne, (i_mutex _ I), E by done. naive_solver.
  Qed.

  Lemma omap_snoc {A B} (f : A -> option B) l a :
    omap f (l ++ [a]) = omap f l ++ match f a with Some b => [b] | None => [] end.
  Proof. by rewrite omap_app. Qed.

  Lemma early_snoc L e : never_early L ->
    (forall t v rd rest, e = Taken t v rd rest -> (expi v <= rd)%Z /\ forall w, w ∈ rest -> (expi v <= expi w)%Z) ->
    never_early (L ++ [e]).
  Proof.
    intros H He t v rd rest [Hin|Hin]%elem_of_app; [by eapply H|].
    apply elem_of_list_singleton in Hin. by eapply He.
  Qed.

  Lemma tstep_inv t x p y : tstep zero expi comp t x p y -> Inv x -> Inv (set_pc t p y).
  Proof.
    intros H I. inversion H as
      [v ?????? Hpc|v b ? Q' ?????? Hpc Hpush|v d ok ??????? Hpc Hpeek|v d ??????? Hpc|v d ??????? Hpc|??????? Hpc
      |?????? Hpc|d ok ??????? Hpc Hpeek|d ??????? Hpc|d rd r ? Q' ?????? Hpc Hpop|item delta ??????? Hpc|delta ??????? Hpc
      |dl ??????? Hpc|??????? Hpc|w ??????? Hpc|d ??????? Hpc|d ??????? Hpc|??????? Hpc
      |?????? Hpc|v ok ??????? Hpc Hread|v ok ??????? Hpc|??????? Hpc]; subst; clear H;
      unfold set_pc; cbn [q holder sleeping now ctxs pcs log];
      match goal with _ : Inv ?X |- _ => pose (X0 := X); pose proof (i_pc X I t) as Hok end;
      cbn [pcs q] in Hok; rewrite Hpc in Hok; cbn [pc_ok] in Hok.
    - apply (inv_local X0 t); [done|done|by simpl; rewrite Hpc|]. by apply (mutex_acquire X0).
    - (* pq.Push *)
      destruct (q_push_ok dn DC dcomp_ok Q (v, expi v) (i_q _ I)) as (Q1 & E & Hq & Hs & Hp).
      rewrite E in Hpush. injection Hpush as <- <-.
      apply (inv_update X0 t); try done; cbn [X0].
      + intros d. rewrite Hp. intros [->|Hd]%elem_of_cons; [done|]. by apply (i_exp _ I).
      + apply (mutex_same X0); [done|]. simpl. by rewrite Hpc.
      + right. simpl. by rewrite Hpc.
      + simpl. intros E'. rewrite E' in Hp. by apply Permutation_nil_cons in Hp.
      + unfold pushed, taken. rewrite !omap_snoc. fold (pushed L) (taken L). rewrite app_nil_r.
        rewrite (i_perm _ I). simpl. rewrite Hp. simpl. unfold queued. simpl. solve_Permutation.
      + intros u. unfold taken_by, settled_by. rewrite !omap_snoc, !app_nil_r.
        pose proof (i_hand _ I u) as Hh. simpl in Hh. unfold taken_by, settled_by in Hh. rewrite Hh. f_equal.
        destruct (decide (u = t)) as [->|]; [by rewrite fn_lookup_insert, Hpc|by rewrite fn_lookup_insert_ne].
      + apply early_snoc; [apply (i_early _ I)|done].
    - destruct (q_peek_ok dn DC dcomp_ok Q (i_q _ I) Hok) as (d' & E & _). rewrite E in Hpeek. injection Hpeek as <- <-.
      apply (inv_local X0 t); [done|done|by simpl; rewrite Hpc|]. apply (mutex_same X0); [done|]. simpl. by rewrite Hpc.
    - apply (inv_local X0 t); [done|done|by simpl; rewrite Hpc|]. apply (mutex_release X0); [done|by simpl; rewrite Hpc|done].
    - apply (inv_local X0 t); [done|by case_decide|simpl; rewrite Hpc; by case_decide|]. apply (mutex_same X0); [done|]. simpl. rewrite Hpc. by case_decide.
    - apply (inv_local X0 t); [done|by destruct s|simpl; rewrite Hpc; by destruct s|]. apply (mutex_same X0); [done|]. simpl. rewrite Hpc. by destruct s.
    - apply (inv_local X0 t); [done|done|by simpl; rewrite Hpc|]. by apply (mutex_acquire X0).
    - apply (inv_local X0 t); [done| |simpl; rewrite Hpc; by destruct ok|].
      + destruct ok; [done|]. simpl. lia.
      + apply (mutex_same X0); [done|]. simpl. rewrite Hpc. by destruct ok.
    - apply (inv_local X0 t); [done| |simpl; rewrite Hpc; by case_decide|].
      + case_decide; simpl; [lia|]. split; [done|]. lia.
      + apply (mutex_same X0); [done|]. simpl. rewrite Hpc. by case_decide.
    - (* pq.Pop *)
      destruct Hok as [Hpk Hrd].
      assert (Hne : q_bag Q <> []).
      { intros E. apply (q_peek_empty dn DC) in E; [|apply (i_q _ I)]. congruence. }
      destruct (q_pop_ok dn DC dcomp_ok Q (i_q _ I) Hne) as (d' & Q1 & E & Hq & Hs & H0 & Hp & Hl).
      destruct (q_peek_ok dn DC dcomp_ok Q (i_q _ I) Hne) as (d'' & E' & H0' & _). rewrite E' in Hpk. injection Hpk as ->.
      rewrite H0 in H0'. injection H0' as ->.
      rewrite E in Hpop. injection Hpop as <- <-.
      assert (Hexp : forall d', d' ∈ q_bag Q1 -> d'.2 = expi d'.1).
      { intros d' Hd. apply (i_exp _ I). simpl. rewrite Hp. by right. }
      assert (Hd : d.2 = expi d.1) by (apply (i_exp _ I); simpl; rewrite Hp; by left).
      apply (inv_update X0 t); try done; cbn [X0].
      + apply (mutex_same X0); [done|]. simpl. by rewrite Hpc.
      + right. simpl. by rewrite Hpc.
      + unfold pushed, taken. rewrite !omap_snoc. fold (pushed L) (taken L). rewrite app_nil_r.
        rewrite (i_perm _ I). simpl. unfold queued. simpl. fold (q_bag Q). rewrite Hp. simpl. solve_Permutation.
      + intros u. unfold taken_by, settled_by. rewrite !omap_snoc.
        pose proof (i_hand _ I u) as Hh. simpl in Hh. unfold taken_by, settled_by in Hh. rewrite Hh.
        destruct (decide (u = t)) as [->|].
        * rewrite Hpc, fn_lookup_insert, decide_True by done. simpl. by rewrite !app_nil_r.
        * rewrite fn_lookup_insert_ne by done. rewrite decide_False by done. by rewrite !app_nil_r.
      + apply early_snoc; [apply (i_early _ I)|]. intros ? ? ? ? [= <- <- <- <-]. split; [lia|].
        intros w Hw. apply elem_of_list_fmap in Hw as (d' & -> & Hd'). fold (q_bag Q1) in Hd'.
        rewrite <- Hd, <- (Hexp d' Hd'). apply dcomp_le. apply Hl. rewrite Hp. by right.
    - apply (inv_local X0 t); [done| |simpl; rewrite Hpc; by destruct item|].
      + by destruct item.
      + apply (mutex_release X0); [done|by simpl; rewrite Hpc|by destruct item].
    - apply (inv_local X0 t); [done| |simpl; rewrite Hpc; by repeat case_decide|].
      + repeat case_decide; simpl; lia || done.
      + apply (mutex_same X0); [done|]. simpl. rewrite Hpc. by repeat case_decide.
    - apply (inv_local X0 t); [done|done|by simpl; rewrite Hpc|]. apply (mutex_same X0); [done|]. simpl. by rewrite Hpc.
    - apply (inv_local X0 t); [done|by destruct s|simpl; rewrite Hpc; by destruct s|]. apply (mutex_same X0); [done|]. simpl. rewrite Hpc. by destruct s.
    - apply (inv_local X0 t); [done|done|by simpl; rewrite Hpc|]. apply (mutex_same X0); [done|]. simpl. by rewrite Hpc.
    - (* return *)
      apply (inv_update X0 t); try done; cbn [X0]; try apply I.
      + apply (mutex_same X0); [done|]. simpl. by rewrite Hpc.
      + by left.
      + unfold pushed, taken. rewrite !omap_snoc, !app_nil_r. apply (i_perm _ I).
      + intros u. unfold taken_by, settled_by. rewrite !omap_snoc.
        pose proof (i_hand _ I u) as Hh. simpl in Hh. unfold taken_by, settled_by in Hh. rewrite Hh.
        destruct (decide (u = t)) as [->|].
        * rewrite Hpc, fn_lookup_insert, decide_True by done. simpl. by rewrite !app_nil_r.
        * rewrite fn_lookup_insert_ne by done. rewrite decide_False by done. by rewrite !app_nil_r.
      + apply early_snoc; [apply (i_early _ I)|done].
    - (* drop *)
      apply (inv_update X0 t); try done; cbn [X0]; try apply I.
      + apply (mutex_same X0); [done|]. simpl. by rewrite Hpc.
      + by left.
      + unfold pushed, taken. rewrite !omap_snoc, !app_nil_r. apply (i_perm _ I).
      + intros u. unfold taken_by, settled_by. rewrite !omap_snoc.
        pose proof (i_hand _ I u) as Hh. simpl in Hh. unfold taken_by, settled_by in Hh. rewrite Hh.
        destruct (decide (u = t)) as [->|].
        * rewrite Hpc, fn_lookup_insert, decide_True by done. simpl. by rewrite !app_nil_r.
        * rewrite fn_lookup_insert_ne by done. rewrite decide_False by done. by rewrite !app_nil_r.
      + apply early_snoc; [apply (i_early _ I)|done].
    - apply (inv_local X0 t); [done|done|by simpl; rewrite Hpc|]. apply (mutex_same X0); [done|]. simpl. by rewrite Hpc.
    - apply (inv_local X0 t); [done|done|by simpl; rewrite Hpc|]. by apply (mutex_acquire X0).
    - apply (inv_local X0 t); [done|done|by simpl; rewrite Hpc|]. apply (mutex_same X0); [done|]. simpl. by rewrite Hpc.
    - (* poll returns *)
      apply (inv_update X0 t); try done; cbn [X0]; try apply I.
      + apply (mutex_release X0); [done|by simpl; rewrite Hpc|done].
      + by left.
      + unfold pushed, taken. rewrite !omap_snoc, !app_nil_r. apply (i_perm _ I).
      + intros u. unfold taken_by, settled_by. rewrite !omap_snoc, !app_nil_r.
        pose proof (i_hand _ I u) as Hh. simpl in Hh. unfold taken_by, settled_by in Hh. rewrite Hh. f_equal.
        destruct (decide (u = t)) as [->|]; [by rewrite fn_lookup_insert, Hpc|by rewrite fn_lookup_insert_ne].
      + apply early_snoc; [apply (i_early _ I)|done].
    - (* Len *)
      apply (inv_update X0 t); try done; cbn [X0]; try apply I.
      + apply (mutex_same X0); [done|]. simpl. by rewrite Hpc.
      + by left.
      + unfold pushed, taken. rewrite !omap_snoc, !app_nil_r. apply (i_perm _ I).
      + intros u. unfold taken_by, settled_by. rewrite !omap_snoc, !app_nil_r.
        pose proof (i_hand _ I u) as Hh. simpl in Hh. unfold taken_by, settled_by in Hh. rewrite Hh. f_equal.
        destruct (decide (u = t)) as [->|]; [by rewrite fn_lookup_insert, Hpc|by rewrite fn_lookup_insert_ne].
      + apply early_snoc; [apply (i_early _ I)|done].
  Qed.

  Lemma step_inv x l y : step zero expi comp x l y -> Inv x -> Inv y.
  Proof.
    intros H I. destruct H as [x t c Hpc|x t p y H|x t u Hs Hr|x t Hc|x n].
    - unfold set_ctx, set_pc; simpl. apply (inv_local x t); [done| | |].
      + by destruct c.
      + rewrite Hpc. by destruct c.
      + apply (mutex_same x); [done|]. rewrite Hpc. by destruct c.
    - by eapply tstep_inv.
    - assert (I1 : Inv (set_pc t Idle x)).
      { apply (inv_local x t); [done|done|by rewrite Hs|]. apply (mutex_same x); [done|]. by rewrite Hs. }
      assert (u <> t) by (intros ->; rewrite Hs in Hr; destruct Hr as [[? Hr]|Hr]; discriminate Hr).
      assert (E : pcs (set_pc t Idle x) u = pcs x u) by (simpl; by rewrite fn_lookup_insert_ne).
      apply (inv_local (set_pc t Idle x) u); [done|done| |].
      + rewrite E. by destruct Hr as [[w ->]| ->].
      + apply (mutex_same (set_pc t Idle x)); [done|]. rewrite E. by destruct Hr as [[w ->]| ->].
    - destruct I. split; done.
    - destruct I. split; done.
  Qed.

  Lemma start_inv size q0 : start_q zero size = Ok q0 -> Inv (start q0).
  Proof.
    intros E. destruct (q_new_ok dn DC size []) as (q1 & E1 & Hq & Hb).
    unfold start_q in E. rewrite E in E1. injection E1 as <-.
    split; simpl; try done.
    - intros d Hd. rewrite Hb in Hd. set_solver.
    - unfold queued. simpl. fold (q_bag q0). by rewrite Hb.
    - intros ? ? ? ? H. set_solver.
  Qed.

  Lemma runs_inv ok x y : runs zero expi comp ok x y -> Inv x -> Inv y.
  Proof. induction 1 as [|x y z (l & _ & H) _ IH]; [done|]. intros I. apply IH. by eapply step_inv. Qed.

  (** *** without contexts nothing is dropped *)
  Definition NoCtx (x : sys T) : Prop := (forall t, ctxs x t = None) /\ dropped (log x) = [].
  Lemma step_noctx x l y : step zero expi comp x l y -> no_ctx l -> NoCtx x -> NoCtx y.
  Proof.
    intros H Hl [Hc Hd]. destruct H as [x t c Hpc|x t p y H|x t u Hs Hr|x t Hx|x n]; simpl in *.
    - split; [|done]. intros u. simpl. destruct (decide (u = t)) as [->|].
      + rewrite fn_lookup_insert. by destruct c.
      + by rewrite fn_lookup_insert_ne.
    - inversion H; subst; simpl in *; (split; [done|]); unfold dropped in *; simpl; rewrite ?omap_snoc, ?Hd; try done.
      match goal with E : _ = Some true |- _ => by rewrite Hc in E end.
    - by split.
    - by rewrite Hc in Hx.
    - by split.
  Qed.
  Lemma runs_noctx x y : runs zero expi comp no_ctx x y -> NoCtx x -> NoCtx y.
  Proof. induction 1 as [|x y z (l & ? & H) _ IH]; [done|]. intros I. apply IH. by eapply step_noctx. Qed.
End dq.
