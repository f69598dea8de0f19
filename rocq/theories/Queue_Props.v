(** Property theorems for the linked queue (C04-C06). *)
From Verif Require Import Base Lin_Spec Queue_Model Queue_Spec Queue_Proofs Queue_Proofs2 Queue_Proofs3.

(** C04: every history of one goroutine is a FIFO history (Pop and Peek of an
    empty queue panic and change nothing); no call blocks, the lock ends up free *)
Theorem C04_queue_is_fifo :
  forall (T : Type) (os : list (op T)),
  exists rs q s, run os new = Ok (rs, q) /\ fifo_run [] os rs s /\
    locked q = false /\ len q = Z.of_nat (length s).
Proof. exact @history_ok. Qed.
Print Assumptions C04_queue_is_fifo.

(** C05: every interleaving of any number of goroutines is linearizable *)
Theorem C05_queue_linearizable :
  forall (T : Type) (h : list (event (op T) (ret T))) x,
  exec qstep sys_init h x -> linearizable fifo [] h.
Proof. exact @queue_linearizable. Qed.
Print Assumptions C05_queue_linearizable.

(** no reachable state is stuck: while some call is in progress a step other
    than a new call is possible *)
Theorem C05_queue_no_deadlock :
  forall (T : Type) (h : list (event (op T) (ret T))) x t,
  exec qstep sys_init h x -> pcs x t <> Quiet ->
  exists l y, qstep x l y /\ (forall t o, l <> Some (Call t o)).
Proof. exact @queue_no_deadlock. Qed.
Print Assumptions C05_queue_no_deadlock.

Theorem C05_lock_free_when_quiet :
  forall (T : Type) (h : list (event (op T) (ret T))) x,
  exec qstep sys_init h x -> (forall t, pcs x t = Quiet) -> holder x = None.
Proof. exact @queue_lock_free. Qed.
Print Assumptions C05_lock_free_when_quiet.

(** C06: a node made by NewNode and not yet pushed may be pushed at any later time *)
Theorem C06_push_detached_node :
  forall (T : Type) (os1 os2 : list (op T)) v rs1 rs2 q1 q2 s n,
  run os1 new = Ok (rs1, q1) -> (n, q2) = new_node v q1 ->
  forall q3, run os2 q2 = Ok (rs2, q3) -> fifo_run [] (os1 ++ os2) (rs1 ++ rs2) s ->
  exists q4, push_node n q3 = Ok (Some tt, q4) /\ behaves_as q4 (s ++ [v]).
Proof. exact @push_detached. Qed.
Print Assumptions C06_push_detached_node.

(** re-pushing a popped node while others remain: Pop never runs empty and Len goes
    down without bound, through the values of a cycle *)
Theorem C06_repush_makes_a_cycle :
  forall (T : Type) (os : list (op T)) rs q v w s n q1,
  run os new = Ok (rs, q) -> fifo_run [] os rs (v :: w :: s) -> pop_node q = Ok (Some n, q1) ->
  exists q2, push_node n q1 = Ok (Some tt, q2) /\
  forall k, exists vs q3, pops q2 vs q3 /\ length vs = k /\
    (forall i x, vs !! i = Some x -> (w :: s ++ [v]) !! (i mod length (v :: w :: s)) = Some x) /\
    len q3 = (Z.of_nat (length (v :: w :: s)) - Z.of_nat k)%Z.
Proof. exact @repush_cycle. Qed.
Print Assumptions C06_repush_makes_a_cycle.

Theorem C06_repush_only_element_is_safe :
  forall (T : Type) (os : list (op T)) rs q v n q1,
  run os new = Ok (rs, q) -> fifo_run [] os rs [v] -> pop_node q = Ok (Some n, q1) ->
  exists q2, push_node n q1 = Ok (Some tt, q2) /\ behaves_as q2 [v].
Proof. exact @repush_only. Qed.
Print Assumptions C06_repush_only_element_is_safe.

(** PopNode of a non-empty queue does return a node *)
Theorem C06_pop_node_returns :
  forall (T : Type) (os : list (op T)) rs q s,
  run os new = Ok (rs, q) -> fifo_run [] os rs s -> s <> [] -> exists n q1, pop_node q = Ok (Some n, q1).
Proof. exact @pop_node_some. Qed.
Print Assumptions C06_pop_node_returns.

(** * Non-vacuity *)
Example C04_example :
  (let! (rs, _) := run [OPop; OPush 1; OPush 2; OPeek; OPop; OLen; OEmpty] new in Ok rs) =
    Ok [RPanic; RUnit; RUnit; RVal 1; RVal 1; RInt 1; RBool false].
Proof. vm_compute. reflexivity. Qed.
(** two goroutines: a push is called, Len runs in the middle of it, both return *)
Example C05_example :
  exists x, exec (qstep (T:=nat)) sys_init [Call 1 (OPush 7); Call 2 OLen; Return 2 (RInt 0); Return 1 RUnit] x.
Proof.
  Local Ltac silent H c := match type of H with exec ?s ?a ?h ?x =>
    let G := fresh in pose proof (exec_silent s a x h _ H (q_silent x _ _ _ c)) as G;
    clear H; rename G into H; unfold set_pc in H; cbn [mem nxt holder qhead tl cnt pcs] in H end.
  Local Ltac event H c := match type of H with exec ?s ?a ?h ?x =>
    let G := fresh in pose proof (exec_event s a x h _ _ H c) as G;
    clear H; rename G into H; unfold set_pc in H; cbn [mem nxt holder qhead tl cnt pcs start app] in H end.
  pose proof (exec_nil (qstep (T:=nat)) sys_init) as H.
  unfold sys_init at 2 in H.
  match type of H with exec _ _ _ ?x => event H (q_call x 1 (OPush 7) eq_refl) end.
  match type of H with exec _ _ _ ?x => event H (q_call x 2 OLen eq_refl) end.
  match type of H with exec _ _ _ (Sys ?m ?k ?h ?hd ?tl ?c ?p) => silent H (t_new 1 m k h hd tl c p 7 eq_refl) end.
  match type of H with exec _ _ _ (Sys ?m ?k ?h ?hd ?tl ?c ?p) => silent H (t_push_lock 1 m k hd tl c p 0 eq_refl) end.
  match type of H with exec _ _ _ (Sys ?m ?k ?h ?hd ?tl ?c ?p) => silent H (t_push_test 1 m k h hd tl c p 0 eq_refl) end.
  match type of H with exec _ _ _ (Sys ?m ?k ?h ?hd ?tl ?c ?p) => silent H (t_push_head 1 m k h hd tl c p 0 eq_refl) end.
  match type of H with exec _ _ _ (Sys ?m ?k ?h ?hd ?tl ?c ?p) => silent H (t_len 2 m k h hd tl c p eq_refl) end.
  match type of H with exec _ _ _ ?x => event H (q_return x 2 (RInt 0) eq_refl) end.
  match type of H with exec _ _ _ (Sys ?m ?k ?h ?hd ?tl ?c ?p) => silent H (t_push_tail 1 m k h hd tl c p 0 eq_refl) end.
  match type of H with exec _ _ _ (Sys ?m ?k ?h ?hd ?tl ?c ?p) => silent H (t_push_count 1 m k h hd tl c p 0 eq_refl) end.
  match type of H with exec _ _ _ (Sys ?m ?k ?h ?hd ?tl ?c ?p) => silent H (t_push_unlock 1 m k h hd tl c p 0 eq_refl) end.
  match type of H with exec _ _ _ ?x => event H (q_return x 1 RUnit eq_refl) end.
  eexists. exact H.
Qed.
Example C06_example :
  exists q q1 n, run [OPush 1; OPush 2] new = Ok ([RUnit; RUnit], q) /\
    fifo_run [] [OPush 1; OPush 2] [RUnit; RUnit] [1; 2] /\ pop_node q = Ok (Some n, q1).
Proof.
  assert (F : fifo_run [] [OPush 1; OPush 2] [RUnit; RUnit] [1; 2]).
  { eapply FCons; [apply F_push|]. eapply FCons; [apply F_push|]. constructor. }
  destruct (C04_queue_is_fifo nat [OPush 1; OPush 2]) as (rs & q & s & E & F' & _).
  assert (rs = [RUnit; RUnit]) as ->.
  { inversion F' as [|? ? ? ? ? ? ? H1 H2]; subst. inversion H1; subst. inversion H2 as [|? ? ? ? ? ? ? H3 H4]; subst.
    inversion H3; subst. by inversion H4. }
  destruct (C06_pop_node_returns nat _ _ q _ E F) as (n & q1 & Ep); [done|]. by exists q, q1, n.
Qed.
