(** Property theorems for the lock-free skip list with a panicking comparator (C78). *)
From stdpp Require Import functions.
From Verif Require Import Base Lin_Spec LockFree_Model LockFree_Spec LockFree_Proofs9 LFPanic_Model LFPanic_Spec LFPanic_Proofs LFPanic_Proofs2.

(** Whichever comparisons panic, the history is linearizable when abandoned
    calls are taken as calls that do not return; the bottom level leads in
    increasing order from head to tail; and the elements found there are those
    the effects leave *)
Theorem C78_linearizable_with_panics :
  forall (T : Type) (zero : T) (comp : T -> T -> Z), cmp_ok comp ->
  forall n h x, exec (pstep comp) (sys_init zero n) h x ->
  exists ms s ids, linearizes (set_legal zero comp) [] (renamed n afresh h) ms s /\
    path (heap (shared x)) 0 head ids /\
    StronglySorted (fun a b => (comp a b < 0)%Z) (values (heap (shared x)) ids) /\
    s = omap (unmarked_value (heap (shared x))) ids.
Proof.
  intros T zero comp H n h x E. destruct (panic_counter zero comp H _ _ _ E) as (ms & s & d & L & (ids & P & Es) & _).
  destruct (panic_bottom zero comp H _ _ _ E) as (ids' & P' & S). rewrite (LockFree_Proofs7.path_det _ _ _ _ _ P' P) in S. by exists ms, s, ids.
Qed.
Print Assumptions C78_linearizable_with_panics.

(** An abandoned call that has taken effect is an Add, and that is an element
    Len does not count, for ever: on a quiet list Len answers the number of
    elements less the number of such Adds (modulo 2^32); while calls are in
    progress the counter differs from that by at most their number *)
Theorem C78_only_additions_are_lost_to_len :
  forall (T : Type) (zero : T) (comp : T -> T -> Z), cmp_ok comp ->
  forall n h x, exec (pstep comp) (sys_init zero n) h x ->
  exists ms s, linearizes (set_legal zero comp) [] (renamed n afresh h) ms s /\ stored x s /\
    (forall u o r, u ∈ gone n afresh h -> last_mark u ms = Some (Eff u o r) -> exists v, o = Add v /\ r = RBool true) /\
    let counted := (Z.of_nat (length s) - Z.of_nat (length (filter (took_effect ms) (gone n afresh h))))%Z in
    (exists d, size (shared x) = to_int32 (counted + d) /\
       (Z.abs d <= Z.of_nat (length (filter (fun p => in_call p) (pcs x))))%Z) /\
    (quiet x -> forall t r y, exec (step comp) x [Call t Len; Return t r] y -> r = RInt (to_int32 counted)).
Proof.
  intros T zero comp H n h x E. destruct (panic_counter zero comp H _ _ _ E) as (ms & s & d & L & Hs & Ha & Sz & Hd & Hq).
  exists ms, s. cbv zeta. splits; [done|done|done|by exists d|]. intros Q t r y E2.
  destruct (solo_exec comp x t Len (fun m p => m = shared x /\ (p = LenLoad \/ p = Ready (RInt (size (shared x))))) Q) with (h := [Call t Len; Return t r] : list (event (op T) (ret T))) (y := y) as (_ & _ & G); try done.
  - split; [done|]. by left.
  - intros m p top m' p' [-> [-> | ->]] Hr _ Es; [|done]. injection Es as <- <-. split; [done|]. by right.
  - destruct (G r eq_refl) as ((_ & [F|F]) & _); [done|]. injection F as ->. rewrite Sz, (Hq Q). do 2 f_equal. lia.
Qed.
Print Assumptions C78_only_additions_are_lost_to_len.

(** nothing else panics, and the links of every level still lead from the head to the tail *)
Theorem C78_memory_stays_sound :
  forall (T : Type) (zero : T) (comp : T -> T -> Z), cmp_ok comp ->
  forall n h x, exec (pstep comp) (sys_init zero n) h x ->
  ~ panics comp x /\ forall l, l < max_level -> exists ids, path (heap (shared x)) l head ids.
Proof. intros T zero comp H n h x E. split; [by eapply panic_no_panic|]. intros l L. by eapply panic_levels. Qed.
Print Assumptions C78_memory_stays_sound.

(** an abandoned call holds nobody up: in an infinite run calls return or panic
    again and again; the steps between two events are bounded *)
Theorem C78_lock_free_with_panics :
  forall (T : Type) (zero : T) (comp : T -> T -> Z), cmp_ok comp ->
  forall n (run : nat -> sys T) (ev : nat -> option (pevent T)),
  run 0 = sys_init zero n -> (forall i, pstep comp (run i) (ev i) (run (S i))) ->
  forall i, exists j, i <= j /\ ((exists t r, ev j = Some (Did (Return t r))) \/ exists t, ev j = Some (Abandoned t)).
Proof. exact @panic_lock_free. Qed.
Print Assumptions C78_lock_free_with_panics.

Theorem C78_bounded_between_events :
  forall (T : Type) (zero : T) (comp : T -> T -> Z), cmp_ok comp ->
  forall n h x, exec (pstep comp) (sys_init zero n) h x ->
  exists N, forall k y, nsteps (fun a b => pstep comp a None b) k x y -> k <= N.
Proof. exact @panic_silent_bound. Qed.
Print Assumptions C78_bounded_between_events.

(** When calls do not overlap an abandoned call changes no element and no tower *)
Theorem C78_alone_abandoned_calls_change_nothing :
  forall (T : Type) (zero : T) (comp : T -> T -> Z), cmp_ok comp ->
  forall n h x t o y,
  exec (pstep comp) (sys_init zero n) h x -> pone_at_a_time h ->
  exec (pstep comp) x [Did (Call t o); Abandoned t] y ->
  quiet y /\ (forall s, stored x s -> stored y s) /\ (forall tw, towers x tw -> towers y tw).
Proof.
  intros T zero comp H n h x t o y E O E2. pose proof (poat_fine zero comp H n h O x E) as F.
  destruct (g_abandoned zero comp H _ _ _ _ F E2) as ((_ & Q & _) & A & B). done.
Qed.
Print Assumptions C78_alone_abandoned_calls_change_nothing.

(** and every call that returns answers as if the abandoned ones had not been
    made: the set operations, Len, Rank (as in C53), with complete levels *)
Theorem C78_alone_calls_are_exact :
  forall (T : Type) (zero : T) (comp : T -> T -> Z), cmp_ok comp ->
  forall n h x s tw,
  exec (pstep comp) (sys_init zero n) h x -> pone_at_a_time h -> stored x s -> towers x tw -> (Z.of_nat (length s) < 2 ^ 31)%Z ->
  quiet x /\ s = tw.*1 /\
  (forall t o r y, exec (step comp) x [Call t o; Return t r] y ->
     quiet y /\ (exists s', set_legal zero comp s o r s' /\ stored y s') /\
     (o = Len -> r = RInt (Z.of_nat (length s))) /\
     (forall v, o = Rank v -> let below := filter (fun w => (comp w.1 v < 0)%Z) tw in
        r = RInt (if decide (length tw <= 1) then Z.of_nat (length tw) else (1 + Z.of_nat (peaks below.*2))%Z))) /\
  (forall l ids, l < max_level -> path (heap (shared x)) l head ids ->
     omap (tower (heap (shared x))) ids = filter (fun w => l < w.2) tw).
Proof.
  intros T zero comp H n h x s tw E O Hs Ht L. destruct (poat_fine zero comp H n h O x E) as (G & Q & Gg & U).
  assert (Es : s = tw.*1). { destruct Hs as (ids & P & ->). destruct Ht as (ids' & P' & ->). rewrite (LockFree_Proofs7.path_det _ _ _ _ _ P' P). apply LockFree_Proofs15.tower_values. }
  splits; [done|done| |].
  - intros t o r y E2. destruct (g_call zero comp H _ _ _ _ _ _ G Q Hs E2) as (Qy & s' & Ls & Hs'). splits; [done|by exists s'| |].
    + intros ->. by eapply (g_len zero comp H).
    + intros v ->. cbv zeta. eapply (g_rank zero comp H); try done. by rewrite Es, fmap_length in L.
  - intros l ids Ll P. by eapply (g_level zero comp H).
Qed.
Print Assumptions C78_alone_calls_are_exact.

(** ** Executable schedules with panics *)
Local Definition compares_b (m : mem Z) (p : pc Z) : bool :=
  match p with
  | Find _ _ _ _ (PCur l _ (Some c)) =>
      bool_decide (c <> head) && bool_decide (c <> tail) &&
      match heap m !! c with Some nd => match nexts nd !! l with Some (_, false) => true | _ => false end | None => false end
  | _ => false
  end.
Local Lemma compares_b_ok m p : compares_b m p = true -> compares m p.
Proof.
  destruct p as [|kk vv pr su [ | l prev [c|] | ]| | | | | | | | |]; try done. cbn [compares_b]. intros B.
  apply andb_true_iff in B as [B1 B2]. apply andb_true_iff in B1 as [B0 B1]. apply bool_decide_eq_true in B0, B1.
  destruct (heap m !! c) as [nd|] eqn:E; [|done]. destruct (nexts nd !! l) as [[nx []]|] eqn:En; try done.
  unfold compares. eexists _, _, _, _, _, _, _, _, _. by splits.
Qed.
Inductive pact :=
| PCallA (t : nat) (o : op Z)
| PStepsA (t top : nat) (stop : pc Z -> bool) (k : nat)   (* at most k steps, until [stop] *)
| PRetA (t : nat)
| PPanicA (t top k : nat).   (* go on for at most k steps to the next comparison, which panics *)
Local Fixpoint psteps (x : sys Z) (t top : nat) (stop : mem Z -> pc Z -> bool) (k : nat) : option (sys Z) :=
  match k with
  | O => Some x
  | S k => match pcs x !! t with
           | Some p => if stop (shared x) p || negb (running p) then Some x
                       else match tstep Zcomp (shared x) p top with
                            | Ok (m, p') => psteps (Sys m (<[t := p']> (pcs x))) t top stop k
                            | _ => None
                            end
           | None => None
           end
  end.
Local Fixpoint pplay (l : list pact) (x : sys Z) : option (list (pevent Z) * sys Z) :=
  match l with
  | [] => Some ([], x)
  | PCallA t o :: l => match pcs x !! t with
      | Some Quiet => match pplay l (Sys (shared x) (<[t := start o]> (pcs x))) with Some (h, y) => Some (Did (Call t o) :: h, y) | None => None end
      | _ => None end
  | PStepsA t top stop k :: l =>
      if decide (random_level top) then match psteps x t top (fun _ => stop) k with Some x => pplay l x | None => None end else None
  | PRetA t :: l => match pcs x !! t with
      | Some (Ready r) => match pplay l (Sys (shared x) (<[t := Quiet]> (pcs x))) with Some (h, y) => Some (Did (Return t r) :: h, y) | None => None end
      | _ => None end
  | PPanicA t top k :: l =>
      if decide (random_level top) then
        match psteps x t top compares_b k with
        | Some x => match pcs x !! t with
            | Some p => if compares_b (shared x) p then
                match pplay l (Sys (shared x) (<[t := Quiet]> (pcs x))) with Some (h, y) => Some (Abandoned t :: h, y) | None => None end else None
            | None => None end
        | None => None end
      else None
  end.
Local Lemma psteps_exec top t stop k : random_level top -> forall x0 h x y, exec (pstep Zcomp) x0 h x -> psteps x t top stop k = Some y -> exec (pstep Zcomp) x0 h y.
Proof.
  intros Ht. induction k as [|k IH]; intros x0 h x y E S; cbn [psteps] in S; [by injection S as <-|].
  destruct x as [m ps]. cbn [pcs shared] in S. destruct (ps !! t) as [p|] eqn:Ep; [|done]. destruct (stop m p || negb (running p)) eqn:B; [by injection S as <-|].
  apply orb_false_iff in B as [_ B]. apply negb_false_iff in B.
  destruct (tstep Zcomp m p top) as [[m' p']| |] eqn:Es; try done. eapply IH; [|done]. eapply exec_silent; [done|]. apply (p_plain _ _ None). by eapply s_silent.
Qed.
Local Lemma pplay_exec l : forall x0 h0 x h y, exec (pstep Zcomp) x0 h0 x -> pplay l x = Some (h, y) -> exec (pstep Zcomp) x0 (h0 ++ h) y.
Proof.
  induction l as [|a l IH]; intros x0 h0 x h y E P; cbn [pplay] in P; [injection P as <- <-; by rewrite app_nil_r|].
  destruct a as [t o|t top stop k|t|t top k].
  - destruct x as [m ps]. cbn [pcs shared] in P. destruct (ps !! t) as [[]|] eqn:Ep; try done. destruct (pplay l _) as [[h' y']|] eqn:Pl; [|done]. injection P as <- <-.
    rewrite (cons_middle (Did (Call t o)) h0 h'), app_assoc. eapply IH; [|done]. eapply exec_event; [done|]. apply (p_plain _ _ (Some _)). by apply s_call.
  - destruct (decide (random_level top)) as [Ht|]; [|done]. destruct (psteps x t top _ k) as [x'|] eqn:S; [|done]. eapply IH; [|done]. by eapply psteps_exec.
  - destruct x as [m ps]. cbn [pcs shared] in P. destruct (ps !! t) as [[| | | | | | | | | |r]|] eqn:Ep; try done. destruct (pplay l _) as [[h' y']|] eqn:Pl; [|done]. injection P as <- <-.
    rewrite (cons_middle (Did (Return t r)) h0 h'), app_assoc. eapply IH; [|done]. eapply exec_event; [done|]. apply (p_plain _ _ (Some _)). by apply s_return.
  - destruct (decide (random_level top)) as [Ht|]; [|done]. destruct (psteps x t top _ k) as [[m ps]|] eqn:S; [|done].
    pose proof (psteps_exec _ _ _ _ Ht _ _ _ _ E S) as E'. cbn [pcs shared] in P. destruct (ps !! t) as [p|] eqn:Ep; [|done].
    destruct (compares_b m p) eqn:B; [|done]. destruct (pplay l _) as [[h' y']|] eqn:Pl; [|done]. injection P as <- <-.
    rewrite (cons_middle (Abandoned t) h0 h'), app_assoc. eapply IH; [|done]. eapply exec_event; [done|]. eapply p_panic; [done|]. by apply compares_b_ok.
Qed.
Local Definition never (_ : pc Z) : bool := false.
Local Definition pwhole (t : nat) (o : op Z) (top : nat) : list pact := [PCallA t o; PStepsA t top never 400; PRetA t].
Local Definition at_link (p : pc Z) : bool := match p with AddLink _ _ _ _ _ => true | _ => false end.
Local Fixpoint pwalk (h : list (node Z)) (l i fuel : nat) : option (list nat) :=
  match fuel with
  | O => None
  | S fuel => match h !! i with
              | Some n => match nexts n !! l with
                          | Some (Some j, _) => if decide (j = tail) then Some [] else match pwalk h l j fuel with Some r => Some (j :: r) | None => None end
                          | _ => None
                          end
              | None => None
              end
  end.
Local Lemma pwalk_path h l fuel : forall i ids, pwalk h l i fuel = Some ids -> path h l i ids.
Proof.
  induction fuel as [|fuel IH]; intros i ids E; cbn [pwalk] in E; [done|]. destruct (h !! i) as [n|] eqn:En; [|done]. destruct (nexts n !! l) as [[[j|] m]|] eqn:El; try done.
  destruct (decide (j = tail)) as [->|N]; [injection E as <-; by eapply path_end|]. destruct (pwalk h l j fuel) as [r|] eqn:Er; [|done]. injection E as <-. eapply path_hop; eauto.
Qed.

Local Lemma len_call x t : pcs x !! t = Some Quiet -> exists y, exec (step Zcomp) x [Call t Len; Return t (RInt (size (shared x)))] y.
Proof.
  destruct x as [m ps]. cbn [pcs shared]. intros Ep. pose proof (lookup_lt_Some _ _ _ Ep) as L. eexists.
  change [Call t Len; Return t (RInt (size m))] with ([] ++ [Call t Len] ++ [Return t (RInt (size m))] : list (event (op Z) (ret Z))). rewrite app_assoc.
  eapply exec_event; [eapply exec_silent; [eapply exec_event; [apply exec_nil|by apply s_call]|]|].
  - cbn [start]. eapply (s_silent _ m _ t LenLoad 1); [by rewrite list_lookup_insert|done|unfold random_level, max_level; lia|done].
  - eapply s_return. by rewrite list_lookup_insert by (by rewrite insert_length).
Qed.

(** The exactness of Len (C52) fails with panics: goroutine 0 adds 1 with two
    levels; before it links the second one goroutine 1 adds 5, also with two
    levels; goroutine 0 has to search again and the comparison with 5 panics.
    Everyone is quiet, the list holds 1 and 5, and Len answers 1. *)
Local Definition lost : list pact :=
  [PCallA 0 (Add 1%Z); PStepsA 0 2 at_link 400] ++ pwhole 1 (Add 5%Z) 2 ++ [PPanicA 0 2 400].
Theorem C78_len_after_an_abandoned_add_refuted :
  ~ (forall n h x s t r y, exec (pstep Zcomp) (sys_init 0%Z n) h x -> quiet x -> stored x s -> length s < 5 ->
       exec (step Zcomp) x [Call t Len; Return t r] y -> r = RInt (Z.of_nat (length s))).
Proof.
  intros F. destruct (pplay lost (sys_init 0%Z 2)) as [[h x]|] eqn:P; [|by vm_compute in P].
  pose proof (pplay_exec _ _ [] _ _ _ (exec_nil _ _) P) as E.
  assert (D : pplay lost (sys_init 0%Z 2) = Some (h, x)) by exact P. clear P. vm_compute in D. injection D as <- <-.
  match type of E with exec _ _ _ ?x => destruct (len_call x 1 eq_refl) as [y Ey] end.
  pose proof (F _ _ _ [1%Z; 5%Z] 1 (RInt 1) y E) as G. enough (RInt (T := Z) 1 = RInt 2) by done. apply G; [..|exact Ey].
  - intros [|[|i]] p Ep; [by injection Ep as <-|by injection Ep as <-|by apply lookup_lt_Some in Ep; cbn in Ep; lia].
  - eexists. split; [apply (pwalk_path _ _ 10); by vm_compute|by vm_compute].
  - cbn. lia.
Qed.
Print Assumptions C78_len_after_an_abandoned_add_refuted.

(** ** The hypotheses are met *)
Local Lemma pplay_ex l n h : (match pplay l (sys_init 0%Z n) with Some (h', _) => h' | None => [] end) = h -> h <> [] ->
  exists y, exec (pstep Zcomp) (sys_init 0%Z n) h y.
Proof. destruct (pplay l _) as [[h' y]|] eqn:P; intros <- N; [|done]. exists y. by apply (pplay_exec l _ [] _ _ _ (exec_nil _ _) P). Qed.
(** the list is used on after the lost addition: 1 is found, cannot be added
    again and is removed, as is 5; the empty list then has the length -1 *)
Example C78_length_of_an_empty_list :
  exists y, exec (pstep Zcomp) (sys_init 0%Z 2)
    [Did (Call 0 (Add 1%Z)); Did (Call 1 (Add 5%Z)); Did (Return 1 (RBool true)); Abandoned 0;
     Did (Call 0 (Has 1%Z)); Did (Return 0 (RBool true)); Did (Call 0 (Add 1%Z)); Did (Return 0 (RBool false));
     Did (Call 0 (Del 1%Z)); Did (Return 0 (RBool true)); Did (Call 1 (Del 5%Z)); Did (Return 1 (RBool true));
     Did (Call 1 Len); Did (Return 1 (RInt (-1)))] y.
Proof.
  apply (pplay_ex (lost ++ pwhole 0 (Has 1%Z) 1 ++ pwhole 0 (Add 1%Z) 1 ++ pwhole 0 (Del 1%Z) 1 ++ pwhole 1 (Del 5%Z) 1 ++ pwhole 1 Len 1)); [by vm_compute|done].
Qed.
(** an Add and a Del are abandoned, nobody else is in a call: the list is as before *)
Local Definition alone_acts : list pact :=
  pwhole 0 (Add 2%Z) 2 ++ [PCallA 0 (Add 7%Z); PPanicA 0 1 400] ++ [PCallA 1 (Del 2%Z); PPanicA 1 1 400] ++ pwhole 1 (Add 3%Z) 1.
Example C78_alone_example :
  exists h x, exec (pstep Zcomp) (sys_init 0%Z 2) h x /\ pone_at_a_time h /\
    h = [Did (Call 0 (Add 2%Z)); Did (Return 0 (RBool true)); Did (Call 0 (Add 7%Z)); Abandoned 0; Did (Call 1 (Del 2%Z)); Abandoned 1;
         Did (Call 1 (Add 3%Z)); Did (Return 1 (RBool true))] /\
    stored x [2%Z; 3%Z] /\ towers x [(2%Z, 2); (3%Z, 1)] /\
    (exists y, exec (pstep Zcomp) x [Did (Call 0 (Add 9%Z)); Abandoned 0] y) /\
    renamed 2 afresh h = [Call 0 (Add 2%Z); Return 0 (RBool true); Call 0 (Add 7%Z); Call 1 (Del 2%Z); Call 3 (Add 3%Z); Return 3 (RBool true)] /\
    gone 2 afresh h = [0; 1].
Proof.
  destruct (pplay alone_acts (sys_init 0%Z 2)) as [[h x]|] eqn:P; [|by vm_compute in P]. exists h, x.
  pose proof (pplay_exec _ _ [] _ _ _ (exec_nil _ _) P) as E. split; [exact E|].
  assert (D : pplay alone_acts (sys_init 0%Z 2) = Some (h, x)) by exact P. clear P. vm_compute in D. injection D as <- <-. splits; try done.
  - apply (po_call [_; _; _; _; _; _]), (po_abandoned [_; _; _; _]), (po_abandoned [_; _]), (po_call []), po_nil.
  - eexists. split; [apply (pwalk_path _ _ 10); by vm_compute|by vm_compute].
  - eexists. split; [apply (pwalk_path _ _ 10); by vm_compute|by vm_compute].
  - match goal with |- exists y, exec _ ?x _ _ => destruct (pplay [PCallA 0 (Add 9%Z); PPanicA 0 1 400] x) as [[h y]|] eqn:P; [|by vm_compute in P] end. exists y.
    pose proof (pplay_exec _ _ [] _ _ _ (exec_nil _ _) P) as E2. cbn [app] in E2. assert (h = [Did (Call 0 (Add 9%Z)); Abandoned 0]) as ->; [|exact E2].
    vm_compute in P. by injection P as <- _.
Qed.
