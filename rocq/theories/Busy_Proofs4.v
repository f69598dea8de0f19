(** Executable schedules for the model of C79, used for the concrete executions
    shown beside the theorems. *)
From Verif Require Import Base Lin_Spec Busy_Model.

Section run.
  Context {S E C : Type} (step : S -> option E -> S -> Prop) (do1 : C -> S -> option (option E * S)).
  Fixpoint sched (cs : list C) (s : S) (h : list E) : option (list E * S) :=
    match cs with
    | [] => Some (h, s)
    | c :: cs => match do1 c s with
                 | Some (o, s') => sched cs s' (match o with Some e => h ++ [e] | None => h end)
                 | None => None end
    end.
  Lemma sched_exec : (forall c s o s', do1 c s = Some (o, s') -> step s o s') ->
    forall cs s0 s h h' s', exec step s0 h s -> sched cs s h = Some (h', s') -> exec step s0 h' s'.
  Proof.
    intros D cs s0. induction cs as [|c cs IH]; intros s h h' s' E0 H; cbn in H; [by injection H as <- <-|].
    destruct (do1 c s) as [[o s1]|] eqn:Ec; [|done]. apply D in Ec. eapply IH; [|exact H].
    destruct o as [e|]; [by eapply exec_event|by eapply exec_silent].
  Qed.
End run.

Inductive wchoice (R : Type) := Go1 | Ans (b : R).
Arguments Go1 {R}. Arguments Ans {R} b.
Definition wdo {T R} (c : wchoice R) (w : worker T R) : option (wev T R * worker T R) :=
  match c, w with
  | Go1, WAt l a => Some (Pull, WIn l a)
  | Go1, WIn (x :: l) a => Some (Pulled (Some x), WHave x l a)
  | Go1, WIn [] a => Some (Pulled None, WOut a)
  | Go1, WHave x l a => Some (Call a x, WBusy x l a)
  | Ans b, WBusy x l a => Some (Ret b, WAt l b)
  | _, _ => None
  end.
Lemma wdo_step {T R} c (w : worker T R) e w' : wdo c w = Some (e, w') -> wstep w e w'.
Proof. destruct c, w as [l a|[|x l] a|x l a|x l a|a|]; cbn; intros H; try done; injection H as <- <-; constructor. Qed.

Inductive fchoice (R : Type) := FMain | FAns (a : R) | FGo (i : nat) (c : wchoice R) | FSend (i : nat).
Arguments FMain {R}. Arguments FAns {R} a. Arguments FGo {R} i c. Arguments FSend {R} i.
Definition fdo {T R} (p : nat) (segs : list (list T)) (init : R) (c : fchoice R) (s : fstate T R) : option (option (fev T R) * fstate T R) :=
  let '(FState m ws b cl d) := s in
  if d then None else
  match c with
  | FMain => match m with
             | FSpawn k => match segs !! k with
                           | Some l => Some (None, FState (FSpawn (k + 1)) (ws ++ [WAt l init]) b cl false)
                           | None => Some (None, FState (FRecv 0 init) ws b cl false) end
             | FRecv n a => if decide (n = p) then Some (Some (Return a), FState (FReturned a) ws b true false)
                            else match b with r :: b => Some (Some (Comb a r), FState (FComb n a r) ws b cl false) | [] => None end
             | _ => None end
  | FAns a' => match m with FComb n a r => Some (Some (Combined a'), FState (FRecv (n + 1) a') ws b cl false) | _ => None end
  | FGo i c => match ws !! i with
               | Some w => match wdo c w with Some (e, w') => Some (Some (Go i e), FState m (<[i := w']> ws) b cl false) | None => None end
               | None => None end
  | FSend i => match ws !! i with
               | Some (WOut a) => if cl then Some (Some (Crash i), FState m ws b true true)
                                  else if decide (length b < p) then Some (None, FState m (<[i := WDone]> ws) (b ++ [a]) false false) else None
               | _ => None end
  end.
Lemma fdo_step {T R} p (segs : list (list T)) (init : R) c s o s' : fdo p segs init c s = Some (o, s') -> fstep p segs init s o s'.
Proof.
  destruct s as [m ws b cl []]; [done|]. destruct c as [|a'|i c|i]; unfold fdo.
  - destruct m as [k|n a|n a r|a]; intros H; try done.
    + destruct (segs !! k) eqn:Hk; injection H as <- <-; by constructor.
    + destruct (decide (n = p)) as [->|]; [injection H as <- <-; constructor|]. destruct b; [done|]. injection H as <- <-. by constructor.
  - destruct m; intros H; try done. injection H as <- <-. constructor.
  - destruct (ws !! i) as [w|] eqn:Hi; [|done]. destruct (wdo c w) as [[e w']|] eqn:Hw; [|done]. intros H. injection H as <- <-.
    eapply f_work; [done|by eapply wdo_step].
  - destruct (ws !! i) as [[]|] eqn:Hi; try done. destruct cl.
    + intros H. injection H as <- <-. by eapply f_send_closed.
    + destruct (decide (length b < p)); [|done]. intros H. injection H as <- <-. by apply f_send.
Qed.

Inductive cchoice := CMain | CGo1 (i : nat) (c : wchoice unit) | CEnd (i : nat).
Definition cdo {T} (segs : list (list T)) (c : cchoice) (s : cstate T) : option (option (cev T) * cstate T) :=
  let '(CState m ws n) := s in
  match c with
  | CMain => match m with
             | CSpawn k => match segs !! k with
                           | Some l => Some (None, CState (CSpawn (k + 1)) (ws ++ [WAt l tt]) (n + 1))
                           | None => Some (None, CState CWait ws n) end
             | CWait => match n with 0 => Some (Some CReturn, CState CReturned ws 0) | _ => None end
             | CReturned => None end
  | CGo1 i c => match ws !! i with
               | Some w => match wdo c w with Some (e, w') => Some (Some (CGo i e), CState m (<[i := w']> ws) n) | None => None end
               | None => None end
  | CEnd i => match ws !! i with Some (WOut a) => Some (None, CState m (<[i := WDone]> ws) (n - 1)) | _ => None end
  end.
Lemma cdo_step {T} (segs : list (list T)) c s o s' : cdo segs c s = Some (o, s') -> cstep segs s o s'.
Proof.
  destruct s as [m ws n]. destruct c as [|i c|i]; unfold cdo.
  - destruct m as [k| |]; intros H; try done.
    + destruct (segs !! k) eqn:Hk; injection H as <- <-; by constructor.
    + destruct n; [|done]. injection H as <- <-. constructor.
  - destruct (ws !! i) as [w|] eqn:Hi; [|done]. destruct (wdo c w) as [[e w']|] eqn:Hw; [|done]. intros H. injection H as <- <-.
    eapply c_work; [done|by eapply wdo_step].
  - destruct (ws !! i) as [[]|] eqn:Hi; try done. intros H. injection H as <- <-. by eapply c_done.
Qed.

Inductive tchoice (T : Type) := TMain | TCanc | TAnsM (a : T) (ok : bool) | TGo (i : nat) | TAns (i : nat) (a : T) (ok : bool).
Arguments TMain {T}. Arguments TCanc {T}. Arguments TAnsM {T} a ok. Arguments TGo {T} i. Arguments TAns {T} i a ok.
Definition tdo {T} (zero : T) (p : nat) (segs : list (list T)) (init : T) (c : tchoice T) (s : tstate T) : option (option (tev T) * tstate T) :=
  let '(TState m ws b cn) := s in
  match c with
  | TMain => match m with
             | TSpawn k => match segs !! k with
                           | Some l => Some (None, TState (TSpawn (k + 1)) (ws ++ [TAt l init]) b cn)
                           | None => Some (None, TState (TRecv 0 init zero) ws b cn) end
             | TRecv n a v => if decide (n = p) then Some (Some (TReturn a true), TState (TReturned a true) ws b cn)
                              else match b with r :: b => Some (Some (TFold a r), TState (TFolding n a r) ws b cn) | [] => None end
             | TRefused a => Some (Some (TReturn a false), TState (TReturned a false) ws b true)
             | _ => None end
  | TCanc => match m with
             | TRecv n a v => if decide (n = p) then None else if cn then Some (Some (TReturn v false), TState (TReturned v false) ws b true) else None
             | _ => None end
  | TAnsM a' ok => match m with
             | TFolding n a r => Some (Some (TFolded a' ok), TState (if ok then TRecv (n + 1) a' r else TRefused a') ws b cn) | _ => None end
  | TGo i => match ws !! i with
             | Some (TAt l a) => Some (Some (TPull i), TState m (<[i := TIn l a]> ws) b cn)
             | Some (TIn (x :: l) a) => Some (Some (TPulled i (Some x)), TState m (<[i := TGot x l a]> ws) b cn)
             | Some (TIn [] a) => Some (Some (TPulled i None), TState m (<[i := TOut a]> ws) b cn)
             | Some (TGot x l a) => Some (None, TState m (<[i := if cn then TDone else THave x l a]> ws) b cn)
             | Some (THave x l a) => Some (Some (TCall i a x), TState m (<[i := TBusy x l a]> ws) b cn)
             | Some TNo => Some (None, TState m (<[i := TDone]> ws) b true)
             | Some (TOut a) => if decide (length b < p) then Some (None, TState m (<[i := TDone]> ws) (b ++ [a]) cn) else None
             | _ => None end
  | TAns i a' ok => match ws !! i with
             | Some (TBusy x l a) => Some (Some (TRet i a' ok), TState m (<[i := if ok then TAt l a' else TNo]> ws) b cn)
             | _ => None end
  end.
Lemma tdo_step {T} (zero : T) p (segs : list (list T)) init c s o s' : tdo zero p segs init c s = Some (o, s') -> tstep zero p segs init s o s'.
Proof.
  destruct s as [m ws b cn]. destruct c as [| |a' ok|i|i a' ok]; unfold tdo.
  - destruct m as [k|n a v|n a r|a|]; intros H; try done.
    + destruct (segs !! k) eqn:Hk; injection H as <- <-; by constructor.
    + destruct (decide (n = p)) as [->|]; [injection H as <- <-; constructor|]. destruct b; [done|]. injection H as <- <-. by constructor.
    + injection H as <- <-. constructor.
  - destruct m as [k|n a v|n a r|a|]; intros H; try done. destruct (decide (n = p)); [done|]. destruct cn; [|done]. injection H as <- <-. by constructor.
  - destruct m; intros H; try done. injection H as <- <-. constructor.
  - destruct (ws !! i) as [[l a|[|x l] a|x l a|x l a|x l a| |a|]|] eqn:Hi; intros H; try done.
    + injection H as <- <-. by apply t_pull.
    + injection H as <- <-. by apply t_end.
    + injection H as <- <-. by apply t_pulled.
    + injection H as <- <-. destruct cn; [by eapply t_quit|by apply t_select].
    + injection H as <- <-. by apply t_call.
    + injection H as <- <-. by apply t_cancel.
    + destruct (decide (length b < p)); [|done]. injection H as <- <-. by apply t_send.
  - destruct (ws !! i) as [[l a|l a|x l a|x l a|x l a| |a|]|] eqn:Hi; intros H; try done. injection H as <- <-. by eapply t_ret.
Qed.
