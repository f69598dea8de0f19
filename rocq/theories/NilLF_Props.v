(** C81: a lock-free skip list made with a nil comparator. *)
From Verif Require LFGap_Proofs.
From Verif Require Import Base Lin_Spec LockFree_Model LockFree_Spec LFPanic_Model LFPanic_Spec LFPanic_Proofs LFPanic_Props NilLF_Model NilLF_Spec NilLF_Proofs.

(** C81, lock-free skip list: whatever the goroutines do, at most one element gets
    in.  Every call that returns answers as on the empty list (Rank and Len 0 or
    1), except that Add answers true, which happens once at most; nothing is ever
    removed; and when no call is in progress Len and Rank count the element. *)
Theorem C81_lockfree_list_without_comparator :
  forall (T : Type) (zero : T) (dummy : T -> T -> Z) n h x,
  exec (nstep dummy) (sys_init zero n) h x ->
  exists s, stored x s /\ length s <= 1 /\
  (forall o r, answered h o r -> nil_answer zero o r) /\
  (forall o, answered h o (RBool true) -> length s = 1) /\
  (forall h1 h2 h3 t u, h <> h1 ++ Did (Return t (RBool true)) :: h2 ++ Did (Return u (RBool true)) :: h3) /\
  (quiet x -> size (shared x) = Z.of_nat (length s)) /\
  (forall h' y, exec (nstep dummy) x h' y -> exists s', stored y s' /\ length s <= length s').
Proof.
  intros T zero dummy n h x E. destruct (inv_reach _ _ _ _ _ E) as (ph & I). destruct (inv_stored _ dummy _ _ _ I) as (s & S & Ls).
  exists s. split; [done|]. split; [destruct (inserted ph); lia|].
  assert (Tr : forall t, Did (Return t (RBool true)) ∈ h -> 0 < length (filter is_true h)).
  { intros t Ht. assert (Did (Return t (RBool true)) ∈ filter is_true h) as F by (by apply elem_of_list_filter).
    destruct (filter is_true h); [by apply elem_of_nil in F|cbn; lia]. }
  split; [|split; [|split; [|split]]].
  - intros o r (t & h1 & h2 & h3 & Eh & F). by eapply inv_answered.
  - intros o (t & h1 & h2 & h3 & -> & F). assert (0 < length (filter is_true (h1 ++ Did (Call t o) :: h2 ++ Did (Return t (RBool true)) :: h3))) as L.
    { apply (Tr t). apply elem_of_app. right. right. apply elem_of_app. right. by left. }
    rewrite (v_true _ _ _ _ I) in L. rewrite Ls. destruct ph; cbn; try done; lia.
  - intros h1 h2 h3 t u ->. pose proof (v_true _ _ _ _ I) as V. rewrite filter_app, filter_cons_True, filter_app, filter_cons_True, app_length in V by done.
    cbn in V. rewrite app_length in V. cbn in V. destruct ph; lia.
  - intros Q. rewrite (v_size _ _ _ _ I), Ls. pose proof (v_owner _ _ _ _ I) as V. destruct ph as [|t w l|t w|w]; cbn; try done.
    destruct V as [(v & a & b & V)|V]; by apply Q in V.
  - intros h' y E'. destruct (inv_exec _ _ _ _ _ _ _ E' I) as (ph' & I' & K). destruct (inv_stored _ dummy _ _ _ I') as (s' & S' & Ls').
    exists s'. split; [done|]. rewrite Ls, Ls'. destruct ph; cbn; [lia|..]; (assert (ph' <> PEmpty) by (by apply K)); by destruct ph'.
Qed.
Print Assumptions C81_lockfree_list_without_comparator.

(** C81, lock-free skip list: once the element is in, Add, Del, Has and Get called
    from then on never return, and running alone such a call panics and leaves the list as it is *)
Theorem C81_lockfree_list_calls_panic :
  forall (T : Type) (zero : T) (dummy : T -> T -> Z) n h x s t o,
  exec (nstep dummy) (sys_init zero n) h x -> stored x s -> s <> [] -> searches o -> pcs x !! t = Some Quiet ->
  (forall h' y r z, exec (nstep dummy) x (Did (Call t o) :: h') y -> Forall (fun e => doer e <> t) h' ->
     ~ nstep dummy y (Some (Did (Return t r))) z) /\
  exec (nstep dummy) x [Did (Call t o); Abandoned t] x.
Proof.
  intros T zero dummy n h x s t o E S N So Eq. destruct (inv_reach _ _ _ _ _ E) as (ph & I). destruct (inv_stored _ dummy _ _ _ I) as (s' & S' & Ls).
  assert (s' = s) as ->. { destruct S as (i1 & P1 & ->), S' as (i2 & P2 & ->). by rewrite (LockFree_Proofs7.path_det _ _ _ _ _ P1 P2). }
  assert (NE : ph <> PEmpty). { intros ->. cbn in Ls. by destruct s. }
  destruct x as [m ps]. cbn in Eq. pose proof (lookup_lt_Some _ _ _ Eq) as Lt. split.
  - intros h' y r z E' F HS.
    destruct (LockFree_Proofs15.exec_app_inv _ _ [Did (Call t o)] h' _ E') as (x1 & E1 & E2).
    assert (G : forall g x0 x1, exec (nstep dummy) x0 g x1 -> g = [Did (Call t o)] -> forall ph h, INV zero ph h x0 -> ph <> PEmpty ->
      exists ph1 h1, INV zero ph1 h1 x1 /\ ph1 <> PEmpty /\ exists p, pcs x1 !! t = Some p /\ doomed p).
    { clear -So. intros g x0 x1 E. induction E as [|c c1 h c2 E IH St|c c1 h e c2 E IH St]; intros Hg ph0 h0 I N; [done|..].
      - destruct (IH Hg _ _ I N) as (ph1 & h1 & I1 & N1 & p & Ep & D). destruct (inv_step _ _ _ _ _ _ _ I1 St) as (ph2 & I2 & K).
        exists ph2, (h1 ++ option_list None). split; [done|]. split; [auto|].
        destruct (doomed_step _ _ _ _ _ _ _ _ _ I1 N1 St Ep D) as [?|?]; [done|done].
      - destruct h as [|? [|? ?]]; cbn in Hg; [|done..]. injection Hg as ->.
        destruct (inv_exec _ _ _ _ _ _ _ E I) as (ph1 & I1 & K1). destruct (inv_step _ _ _ _ _ _ _ I1 St) as (ph2 & I2 & K2).
        eexists ph2, _. split; [exact I2|]. split; [auto|]. inversion St as [? ? ? St'| |]; subst. inversion St'; subst. exists (start o).
        cbn. split; [apply list_lookup_insert; by eapply lookup_lt_Some|by apply doomed_start]. }
    destruct (G _ _ _ E1 eq_refl _ _ I NE) as (ph1 & h1 & I1 & N1 & p & Ep & D).
    destruct (doomed_exec _ _ _ _ _ _ _ _ _ E2 I1 N1 Ep D F) as (q & Eq2 & D2).
    inversion HS as [? ? ? HS'| |]; subst. inversion HS'; subst; cbn in Eq2; by simplify_eq.
  - assert (exists k v, start o = Find k v no_nodes no_nodes (PLoad (max_level - 1) (Some head))) as (k & v & Es).
    { destruct o; try done; by eexists _, _. }
    destruct (alone_panics zero dummy ph m t k v (v_heap _ _ _ _ I) NE (max_level - 1) (<[t := start o]> ps) no_nodes no_nodes) as (ps' & E2 & ->).
    { vm_compute; lia. } { rewrite Es. by apply list_lookup_insert. }
    rewrite list_insert_insert, (list_insert_id ps t Quiet Eq) in E2.
    apply (LFGap_Proofs.exec_app _ _ [Did (Call t o)] (Sys m (<[t := start o]> ps)) [Abandoned t]); [|exact E2].
    apply (exec_event _ _ _ [] _ _ (exec_nil _ _)). apply n_call_return. by apply s_call.
Qed.
Print Assumptions C81_lockfree_list_calls_panic.

(** C81, lock-free skip list: while the list is empty every call, running alone, can
    return (with the answer the first theorem gives) *)
Theorem C81_lockfree_list_works_while_empty :
  forall (T : Type) (zero : T) (dummy : T -> T -> Z) n h x t o,
  exec (nstep dummy) (sys_init zero n) h x -> stored x [] -> pcs x !! t = Some Quiet ->
  exists r y, exec (nstep dummy) x [Did (Call t o); Did (Return t r)] y /\ nil_answer zero o r /\
    pcs y = pcs x /\ (r = RBool true -> exists v, stored y [v]).
Proof.
  intros T zero dummy n h x t o E S Eq. destruct (inv_reach _ _ _ _ _ E) as (ph & I). destruct (inv_stored _ dummy _ _ _ I) as (s' & S' & Ls).
  assert (s' = []) as ->. { destruct S as (i1 & P1 & E1), S' as (i2 & P2 & ->). by rewrite E1, (LockFree_Proofs7.path_det _ _ _ _ _ P1 P2). }
  assert (ph = PEmpty) as -> by by destruct ph.
  destruct x as [m ps]. cbn in Eq. destruct (empty_call zero dummy m ps t o (v_heap _ _ _ _ I) (v_size _ _ _ _ I) Eq) as (r & m' & F).
  assert (C : exec (nstep dummy) (Sys m ps) [Did (Call t o)] (Sys m (<[t := start o]> ps))).
  { apply (exec_event _ _ _ [] _ _ (exec_nil _ _)). apply n_call_return. by apply s_call. }
  pose proof (LFGap_Proofs.exec_app _ _ [Did (Call t o)] _ [Did (Return t r)] _ C F) as G. cbn in G.
  pose proof (LFGap_Proofs.exec_app _ _ _ _ _ _ E G) as G2.
  exists r, (Sys m' (<[t := Quiet]> ps)). split; [exact G|].
  destruct (C81_lockfree_list_without_comparator _ _ _ _ _ _ G2) as (s & Ss & _ & A & B & _).
  assert (An : answered (h ++ [Did (Call t o); Did (Return t r)]) o r) by (exists t, h, [], []; done).
  split; [by apply A|]. split; [cbn; by apply list_insert_id|]. intros ->. pose proof (B o An) as L. destruct s as [|v [|? ?]]; [done| |done]. by exists v.
Qed.
Print Assumptions C81_lockfree_list_works_while_empty.

(** C81, lock-free skip list: nobody is ever stuck: every goroutine in a call can go
    on (or panics), and in an infinite run calls return or panic again and again *)
Theorem C81_lockfree_list_goes_on :
  forall (T : Type) (zero : T) (dummy : T -> T -> Z) n,
  (forall h x t p, exec (nstep dummy) (sys_init zero n) h x -> pcs x !! t = Some p -> p <> Quiet ->
     exists e y p', nstep dummy x e y /\ pcs y = <[t := p']> (pcs x)) /\
  (cmp_ok dummy -> forall (run : nat -> sys T) (ev : nat -> option (pevent T)),
     run 0 = sys_init zero n -> (forall i, nstep dummy (run i) (ev i) (run (S i))) ->
     forall i, exists j, i <= j /\ ((exists t r, ev j = Some (Did (Return t r))) \/ exists t, ev j = Some (Abandoned t))).
Proof.
  intros T zero dummy n. split.
  - intros h [m ps] t p E Ep N. destruct (inv_reach _ _ _ _ _ E) as (ph & I).
    destruct (can_move _ dummy _ _ _ _ _ _ I Ep N) as (e & m' & p' & S). by exists e, (Sys m' (<[t := p']> ps)), p'.
  - intros H run ev R0 R. apply (C78_lock_free_with_panics T zero dummy H n run ev R0). intros i. specialize (R i).
    destruct R as [x e y St|m ps t p top m' p' Ep Hr Hl Nc St|m ps t p Ep Cp].
    + by apply (p_plain dummy x (Some e)).
    + apply (p_plain dummy _ None). by eapply s_silent.
    + by eapply p_panic.
Qed.
Print Assumptions C81_lockfree_list_goes_on.

(** the hypotheses are met: 7 is added to the new list; an Add of 8 panics then *)
Example C81_lockfree_list_example :
  exists x y, exec (nstep Zcomp) (sys_init 0%Z 2) [Did (Call 0 (Add 7%Z)); Did (Return 0 (RBool true))] x /\
    (exists v, stored x [v]) /\ pcs x !! 1 = Some Quiet /\ exec (nstep Zcomp) x [Did (Call 1 (Add 8%Z)); Abandoned 1] y.
Proof.
  destruct (C81_lockfree_list_works_while_empty Z 0%Z Zcomp 2 [] (sys_init 0%Z 2) 0 (Add 7%Z)) as (r & x & E & A & P & S); [apply exec_nil| |done|].
  { exists []. split; [|done]. eapply path_end; done. }
  cbn in A. subst r. destruct (S eq_refl) as (v & Sv). exists x, x. split; [exact E|]. split; [by exists v|].
  assert (Q : pcs x !! 1 = Some Quiet) by (by rewrite P). split; [exact Q|].
  by apply (C81_lockfree_list_calls_panic Z 0%Z Zcomp 2 _ x [v] 1 (Add 8%Z) E Sv).
Qed.
