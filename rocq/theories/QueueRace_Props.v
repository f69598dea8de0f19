(** Data races of the queue. *)
From stdpp Require Import functions.
From Verif Require Import Base Lin_Spec Lin_Proofs Queue_Model Queue_Spec Queue_Proofs Queue_Proofs2 Race_Spec QueueRace_Model.

Local Lemma touches_kinds {T} (x : sys T) t a : a ∈ q_touches x t ->
  (crit (pcs x t) = true) \/ (exists n, a = read (NodeVal n)) \/ a = atomic_read Count /\ (pcs x t = LenRead \/ pcs x t = EmptyRead).
Proof.
  unfold q_touches. destruct (pcs x t) as [| | | | | | | | | | |[?|]| | | | | | | | |[?|]| | | |] eqn:E; cbn [crit];
    rewrite ?elem_of_nil, ?elem_of_list_singleton; intros H; try done; try (by left); subst; eauto 10.
Qed.
Local Lemma touches_count {T} (x : sys T) t a : a ∈ q_touches x t -> place a = Count ->
  (exists n, pcs x t = PushCount n \/ pcs x t = PopCount n) \/ a = atomic_read Count /\ (pcs x t = LenRead \/ pcs x t = EmptyRead).
Proof.
  unfold q_touches. destruct (pcs x t) as [| | | | | | | | | | |[?|]| | | | | | | | |[?|]| | | |] eqn:E; try destruct (tl x);
    rewrite ?elem_of_cons, ?elem_of_nil; intros H P; try done; repeat (destruct H as [H|H]; subst; try done); eauto.
Qed.
Local Lemma touches_val {T} (x : sys T) t a n : a ∈ q_touches x t -> place a = NodeVal n -> writes a = false.
Proof.
  unfold q_touches. destruct (pcs x t) as [| | | | | | | | | | |[?|]| | | | | | | | |[?|]| | | |] eqn:E; try destruct (tl x);
    rewrite ?elem_of_cons, ?elem_of_nil; intros H P; try done; repeat (destruct H as [H|H]; subst; try done).
Qed.

(** ** C71 *)

(** The only races are on the counter, between the plain [count++] or [count--]
    of a Push or Pop and the atomic load of a Len or Empty. *)
Theorem C71_queue_races_only_on_the_counter {T} (h : list (event (op T) (ret T))) x t u l :
  exec qstep sys_init h x -> race q_touches x t u l ->
  l = Count
  /\ exists n, ((pcs x t = PushCount n \/ pcs x t = PopCount n) /\ (pcs x u = LenRead \/ pcs x u = EmptyRead))
               \/ ((pcs x u = PushCount n \/ pcs x u = PopCount n) /\ (pcs x t = LenRead \/ pcs x t = EmptyRead)).
Proof.
  intros He (N & a & b & Ha & Hb & (Ep & W & A) & El). destruct (queue_rel h x He) as (ms & s & ph & L & _ & R).
  assert (X : ~ (crit (pcs x t) = true /\ crit (pcs x u) = true)).
  { intros [C1 C2]. apply (r_lock _ _ _ _ R) in C1, C2. rewrite C1 in C2. injection C2 as C2. done. }
  assert (Y : place a = Count -> l = Count
    /\ exists n, ((pcs x t = PushCount n \/ pcs x t = PopCount n) /\ (pcs x u = LenRead \/ pcs x u = EmptyRead))
               \/ ((pcs x u = PushCount n \/ pcs x u = PopCount n) /\ (pcs x t = LenRead \/ pcs x t = EmptyRead))).
  { intros Ec. split; [by rewrite <-El|]. pose proof Ec as Ec'. rewrite Ep in Ec'.
    destruct (touches_count x t a Ha Ec) as [(n & Hn)|[Ea Hl]], (touches_count x u b Hb Ec') as [(n' & Hn')|[Eb Hl']].
    - exfalso. apply X. by destruct Hn as [->| ->], Hn' as [->| ->].
    - exists n. by left.
    - exists n'. by right.
    - subst. exfalso. by destruct W. }
  destruct (touches_kinds x t a Ha) as [C1|[(n & ->)|[-> _]]]; [| |by apply Y].
  - destruct (touches_kinds x u b Hb) as [C2|[(n & ->)|[-> _]]]; [by destruct X| |by apply Y].
    cbn in Ep, W. rewrite (touches_val x t a n Ha Ep) in W. by destruct W.
  - cbn in Ep, W. rewrite (touches_val x u b n Hb) in W by by rewrite <-Ep. by destruct W.
Qed.
Print Assumptions C71_queue_races_only_on_the_counter.

(** without Len and Empty there is none *)
Theorem C71_queue_race_free_without_len {T} (h : list (event (op T) (ret T))) x t u l :
  exec qstep sys_init h x -> (forall i, Call i OLen ∉ h /\ Call i OEmpty ∉ h) -> ~ race q_touches x t u l.
Proof.
  intros He Hn Hr. destruct (C71_queue_races_only_on_the_counter h x t u l He Hr) as (_ & n & H).
  assert (G : forall i, pcs x i <> LenRead /\ pcs x i <> EmptyRead); [|destruct (G t), (G u); by destruct H as [[_ [?|?]]|[_ [?|?]]]].
  clear Hr H t u l n.
  assert (Q : forall i, match pcs x i with LenRead => exists j, Call j OLen ∈ h | EmptyRead => exists j, Call j OEmpty ∈ h | _ => True end).
  { clear Hn. remember sys_init as x0 eqn:E0. induction He as [c|c c1 h c2 He IH St|c c1 h e c2 He IH St]; subst.
    - done.
    - specialize (IH eq_refl). inversion St as [|? t p y Ts|]; subst. intros i.
      assert (Ep : pcs y = pcs c1) by by inversion Ts.
      unfold set_pc. cbn [pcs]. destruct (decide (i = t)) as [->|Ni].
      + rewrite fn_lookup_insert. inversion Ts; subst; try done; by destruct hd.
      + rewrite fn_lookup_insert_ne by done. rewrite Ep. apply IH.
    - specialize (IH eq_refl). intros i.
      assert (W : match pcs c1 i with LenRead => exists j, Call j OLen ∈ h ++ [e] | EmptyRead => exists j, Call j OEmpty ∈ h ++ [e] | _ => True end).
      { specialize (IH i). destruct (pcs c1 i); try done; destruct IH as [j Hj]; exists j; apply elem_of_app; by left. }
      inversion St as [? t o E| |? t r E]; subst; unfold set_pc; cbn [pcs]; (destruct (decide (i = t)) as [->|Ni];
        [rewrite fn_lookup_insert|rewrite fn_lookup_insert_ne by done; exact W]).
      + destruct o; try done; exists t; apply elem_of_app; right; by left.
      + done. }
  intros i. specialize (Q i). split; intros E; rewrite E in Q; destruct Q as [j Hj]; by destruct (Hn j).
Qed.
Print Assumptions C71_queue_race_free_without_len.

(** the race is there: one goroutine in Push, another in Len *)
Theorem C71_queue_len_races_refuted :
  exists (h : list (event (op Z) (ret Z))) x,
    exec qstep sys_init h x /\ h = [Call 0 (OPush 7%Z); Call 1 OLen] /\ race q_touches x 0 1 Count.
Proof.
  eexists _, _. split; [|split; [reflexivity|]].
  - change [Call 0 (OPush 7%Z); Call 1 OLen] with (([] ++ [Call 0 (OPush 7%Z)]) ++ [Call (Ret:=ret Z) 1 OLen]).
    eapply exec_event.
    { eapply exec_silent. { eapply exec_silent. { eapply exec_silent. { eapply exec_silent. { eapply exec_silent. { eapply exec_event; [apply exec_nil|]. apply (q_call _ 0 (OPush 7%Z)). reflexivity. }
      eapply (q_silent _ 0). eapply t_new. reflexivity. }
      eapply (q_silent _ 0). eapply t_push_lock. reflexivity. }
      eapply (q_silent _ 0). eapply t_push_test. reflexivity. }
      eapply (q_silent _ 0). eapply t_push_head. reflexivity. }
      eapply (q_silent _ 0). eapply t_push_tail. reflexivity. }
    apply (q_call _ 1 OLen). reflexivity.
  - split; [done|]. exists (write Count), (atomic_read Count).
    split; [right; by left|]. split; [by left|]. split; [|done]. unfold conflict. cbn. auto.
Qed.
Print Assumptions C71_queue_len_races_refuted.

(** nodes are accessed only after they were made *)
Theorem C71_queue_nodes_exist {T} (h : list (event (op T) (ret T))) x t a n :
  exec qstep sys_init h x -> a ∈ q_touches x t -> place a = NodeVal n \/ place a = NodeNext n -> is_Some (mem x !! n).
Proof.
  intros He Ha Hp. destruct (queue_rel h x He) as (ms & s & ph & L & _ & R).
  pose proof (r_loc _ _ _ _ R t) as Lo. pose proof (r_lock _ _ _ _ R t) as Lk. pose proof (r_shape _ _ _ _ R) as Sh. pose proof (r_chain _ _ _ _ R) as Ch.
  assert (Hh : crit (pcs x t) = true -> hpc x = pcs x t).
  { intros C. apply Lk in C. unfold hpc. by rewrite C. }
  unfold q_touches in Ha. destruct (pcs x t) as [| | | | |m| | | | | |[m|]| | | | |m| | | |[m|]| | | |] eqn:E; cbn [loc_ok] in Lo;
    rewrite ?elem_of_list_singleton, ?elem_of_nil in Ha; try done; try (subst a; by destruct Hp).
  - apply elem_of_cons in Ha as [->|Ha]; [by destruct Hp|]. destruct (tl x) as [w|] eqn:Et; [|by apply elem_of_nil in Ha].
    apply elem_of_list_singleton in Ha as ->.
    destruct Hp as [?|[= <-]]; [done|]. rewrite (Hh eq_refl) in Sh. cbn [shape] in Sh. destruct Sh as [(Sh & _) _].
    apply (chain_in_fst (mem x) (qhead x) L); [done|]. symmetry in Sh. by apply last_Some_elem_of in Sh.
  - apply elem_of_cons in Ha as [->| ->%elem_of_list_singleton]; by destruct Hp.
  - apply elem_of_cons in Ha as [->| ->%elem_of_list_singleton]; [|by destruct Hp].
    destruct Hp as [?|[= <-]]; [done|]. rewrite (Hh eq_refl) in Sh. cbn [shape] in Sh. destruct Sh as [_ Sh].
    apply (chain_in_fst (mem x) (qhead x) L); [done|]. destruct L as [|[l0 v0] L]; [done|]. injection Sh as ->. by left.
  - apply elem_of_cons in Ha as [->| ->%elem_of_list_singleton]; by destruct Hp.
  - subst a. destruct Hp as [[= <-]|?]; [|done]. destruct Lo as (v & _ & Vv). unfold val_is in Vv. by destruct (mem x !! m).
  - subst a. destruct Hp as [[= <-]|?]; [|done]. destruct Lo as (r & _ & v & _ & Vv). unfold val_is in Vv. by destruct (mem x !! m).
Qed.
Print Assumptions C71_queue_nodes_exist.

(** [q_touches] lists every change: a step changes memory that a goroutine is
    listed as writing, and the value of a node never changes *)
Theorem C71_queue_writes_are_listed {T} (h : list (event (op T) (ret T))) x e y :
  exec qstep sys_init h x -> qstep x e y ->
  (qhead y <> qhead x -> exists t, write HeadNext ∈ q_touches x t)
  /\ (tl y <> tl x -> exists t, write Tail ∈ q_touches x t)
  /\ (cnt y <> cnt x -> exists t, write Count ∈ q_touches x t)
  /\ forall n nd, mem x !! n = Some nd ->
       exists nd', mem y !! n = Some nd' /\ nval nd' = nval nd /\ (nnext nd' <> nnext nd -> exists t, write (NodeNext n) ∈ q_touches x t).
Proof.
  intros He St. destruct (queue_rel h x He) as (ms & s & ph & L & _ & R).
  assert (Fr : forall n nd, mem x !! n = Some nd -> n <> nxt x).
  { intros n nd E ->. pose proof (r_bound _ _ _ _ R (nxt x)) as F. rewrite E in F. specialize (F ltac:(by eexists)). lia. }
  inversion St as [|? t p z Ts|]; subst; cbn [set_pc qhead Queue_Model.tl cnt mem].
  - splits; try done. intros n nd E. by exists nd.
  - inversion Ts; subst; cbn [qhead Queue_Model.tl cnt mem nxt] in *; unfold q_touches; cbn [pcs Queue_Model.tl];
      (split; [try done; intros _; exists t; match goal with E : ?P t = _ |- context [?P t] => rewrite E end; set_solver|]);
      (split; [try done; intros _; exists t; match goal with E : ?P t = _ |- context [?P t] => rewrite E end; set_solver|]);
      (split; [try done; intros _; exists t; match goal with E : ?P t = _ |- context [?P t] => rewrite E end; set_solver|]); intros i nd En; try (by exists nd).
    + rewrite lookup_insert_ne by (apply not_eq_sym; by eapply Fr). by exists nd.
    + unfold set_next. destruct (decide (i = a)) as [->|Na].
      * rewrite lookup_alter, En. eexists. split; [reflexivity|]. split; [done|]. intros _. exists t. match goal with E : ?P t = _ |- context [?P t] => rewrite E end. set_solver.
      * rewrite lookup_alter_ne by done. by exists nd.
  - splits; try done. intros n nd E. by exists nd.
Qed.
Print Assumptions C71_queue_writes_are_listed.
