(** Executable schedules, for the executions shown beside the theorems of C82. *)
From Verif Require Import Base Lin_Spec Busy_Model Busy_Proofs4 BusyPanic_Model.

Inductive pchoice (C : Type) := PGo (c : C) | PThrow | PBoom (i : nat).
Arguments PGo {C} c. Arguments PThrow {C}. Arguments PBoom {C} i.
(** [byc]: the choices that move the caller *)
Definition pdo {S E C} (do1 : C -> S -> option (option E * S)) (byc : C -> bool) (throw : S -> bool) (boom : S -> nat -> bool)
    (c : pchoice C) (s : S * status) : option (option (pev E) * (S * status)) :=
  match c, s.2 with
  | PGo c, Up => match do1 c s.1 with Some (e, y) => Some (option_map Ev e, (y, Up)) | None => None end
  | PGo c, Left => if byc c then None else match do1 c s.1 with Some (e, y) => Some (option_map Ev e, (y, Left)) | None => None end
  | PThrow, Up => if throw s.1 then Some (Some Throws, (s.1, Left)) else None
  | PBoom i, (Up | Left) => if boom s.1 i then Some (Some (Boom i), (s.1, Down)) else None
  | _, _ => None
  end.
Lemma pdo_step {S E C} (step : S -> option E -> S -> Prop) (inside : S -> nat -> Prop) (calling : S -> Prop) (kept : S -> S -> Prop) (do1 : C -> S -> option (option E * S)) byc throw boom :
  (forall c s o s', do1 c s = Some (o, s') -> step s o s') ->
  (forall c s o s', byc c = false -> do1 c s = Some (o, s') -> kept s s') ->
  (forall s, throw s = true -> calling s) -> (forall s i, boom s i = true -> inside s i) ->
  forall c s o s', pdo do1 byc throw boom c s = Some (o, s') -> pstep step inside calling kept s o s'.
Proof.
  intros D K Ca In1 c [s st] o [s' st'] H. unfold pdo in H. destruct c as [c| |i], st; cbn in H; try done.
  - destruct (do1 c s) as [[e y]|] eqn:E1; [|done]. injection H as <- <- <-. apply ps_go. by eapply D.
  - destruct (byc c) eqn:B; [done|]. destruct (do1 c s) as [[e y]|] eqn:E1; [|done]. injection H as <- <- <-. apply ps_left; [by eapply D|by eapply K].
  - destruct (throw s) eqn:B; [|done]. injection H as <- <- <-. apply ps_throws. by apply Ca.
  - destruct (boom s i) eqn:B; [|done]. injection H as <- <- <-. apply ps_boom; [by apply In1|done].
  - destruct (boom s i) eqn:B; [|done]. injection H as <- <- <-. apply ps_boom; [by apply In1|done].
Qed.
Definition f_byc {R} (c : fchoice R) : bool := match c with FMain | FAns _ => true | _ => false end.
Definition f_throw {T R} (x : fstate T R) : bool := match fm x, fdead x with FComb _ _ _, false => true | _, _ => false end.
Definition f_boom {T R} (x : fstate T R) (i : nat) : bool := match fws x !! i, fdead x with Some (WIn _ _ | WBusy _ _ _), false => true | _, _ => false end.
Definition fold_do {T R} p (segs : list (list T)) (init : R) := pdo (fdo p segs init) f_byc f_throw f_boom.
Lemma fold_do_step {T R} p (segs : list (list T)) (init : R) c s o s' : fold_do p segs init c s = Some (o, s') -> fold_step p segs init s o s'.
Proof.
  apply pdo_step; [apply fdo_step| | |].
  - intros c' [m ws b cl d] o' y B H. destruct d; [done|]. destruct c' as [|a'|i c'|i]; cbn in *; try done.
    + destruct (ws !! i); [|done]. destruct (wdo _ _) as [[]|]; [|done]. by injection H as <- <-.
    + destruct (ws !! i) as [[]|]; try done. destruct cl; [by injection H as <- <-|]. destruct (decide _); [|done]. by injection H as <- <-.
  - intros [m ws b cl d]. unfold f_throw. cbn. destruct m, d; try done. intros _. split; [done|]. by eexists _, _, _.
  - intros [m ws b cl d] i. unfold f_boom. cbn. destruct (ws !! i) as [[]|] eqn:Hi, d; try done; intros _; (split; [done|]); by eexists.
Qed.
Definition c_byc (c : cchoice) : bool := match c with CMain => true | _ => false end.
Definition c_boom {T} (x : cstate T) (i : nat) : bool := match cws x !! i with Some (WIn _ _ | WBusy _ _ _) => true | _ => false end.
Definition collect_do {T} (segs : list (list T)) := pdo (cdo segs) c_byc (fun _ => false) c_boom.
Lemma collect_do_step {T} (segs : list (list T)) c s o s' : collect_do segs c s = Some (o, s') -> collect_step segs s o s'.
Proof.
  apply pdo_step; [apply cdo_step| |done|].
  - intros c' [m ws n] o' y B H. destruct c' as [|i c'|i]; cbn in *; try done.
    + destruct (ws !! i); [|done]. destruct (wdo _ _) as [[]|]; [|done]. by injection H as <- <-.
    + destruct (ws !! i) as [[]|]; try done. by injection H as <- <-.
  - intros [m ws n] i. unfold c_boom. cbn. destruct (ws !! i) as [[]|] eqn:Hi; try done; intros _; by eexists.
Qed.
Definition t_byc {T} (c : tchoice T) : bool := match c with TGo _ | TAns _ _ _ => false | _ => true end.
Definition t_throw {T} (x : tstate T) : bool := match tm x with TFolding _ _ _ => true | _ => false end.
Definition t_boom {T} (x : tstate T) (i : nat) : bool := match tws x !! i with Some (TIn _ _ | TBusy _ _ _) => true | _ => false end.
Definition tryfold_do {T} (zero : T) p (segs : list (list T)) (init : T) := pdo (tdo zero p segs init) t_byc t_throw t_boom.
Lemma tryfold_do_step {T} (zero : T) p (segs : list (list T)) init c s o s' : tryfold_do zero p segs init c s = Some (o, s') -> tryfold_step zero p segs init s o s'.
Proof.
  apply pdo_step; [apply tdo_step| | |].
  - intros c' [m ws b cn] o' y B H. destruct c' as [| |a' ok|i|i a' ok]; cbn in *; try done.
    + destruct (ws !! i) as [[l a|[|x l] a|x l a|x l a|x l a| |a|]|] eqn:Hi; try done; try (by injection H as <- <-).
      destruct (decide _); [|done]. by injection H as <- <-.
    + destruct (ws !! i) as [[]|]; try done. by injection H as <- <-.
  - intros [m ws b cn]. unfold t_throw. cbn. destruct m; try done. intros _. by eexists _, _, _.
  - intros [m ws b cn] i. unfold t_boom. cbn. destruct (ws !! i) as [[]|] eqn:Hi; try done; intros _; by eexists.
Qed.
