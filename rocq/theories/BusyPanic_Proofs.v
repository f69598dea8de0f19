(** Executions with panics are executions without, cut off. *)
From Verif Require Import Base Lin_Spec Busy_Model Busy_Spec Busy_Proofs Busy_Proofs2 Busy_Proofs3 BusyPanic_Model BusyPanic_Spec.

Lemma plain_app {E} (h h' : list (pev E)) : plain (h ++ h') = plain h ++ plain h'.
Proof. apply omap_app. Qed.
Lemma plain_in {E} (h : list (pev E)) e : e ∈ plain h <-> Ev e ∈ h.
Proof.
  unfold plain. rewrite elem_of_list_omap. split.
  - intros ([e'| |i] & H & Q); try done. by injection Q as ->.
  - intros H. by exists (Ev e).
Qed.

Section panics.
  Context {S E : Type} (step : S -> option E -> S -> Prop) (inside : S -> nat -> Prop) (calling was_calling : S -> Prop) (kept : S -> S -> Prop).
  Notation pst := (pstep step inside calling kept).
  (** what holds of a history with panics and the state after it *)
  Record cut (x0 : S) (h : list (pev E)) (x : S) (st : status) : Prop := {
    cut_exec : exec step x0 (plain h) x;
    cut_up : st = Up -> forall e, e ∈ h -> exists e', e = Ev e';
    cut_left : st = Left -> Throws ∈ h /\ forall i, Boom i ∉ h;
    cut_boom : forall i, Boom i ∈ h -> st = Down /\ last h = Some (Boom i) /\ inside x i;
    cut_down : st = Down -> exists i, Boom i ∈ h;
    cut_throws : Throws ∈ h -> was_calling x;
  }.
  Hypothesis keeps : forall x y, kept x y -> was_calling x -> was_calling y.
  Hypothesis calls : forall x, calling x -> was_calling x.
  Lemma cut_step x0 h x st e y st' : cut x0 h x st -> pst (x, st) e (y, st') -> cut x0 (h ++ option_list e) y st'.
  Proof.
    intros [C1 C2 C3 C4 C5 C6] St. inversion St as [? o ? St1|? Ca|? o ? St1 K|? i ? In1 Nd]; subst.
    - assert (NB : forall i, Boom i ∉ h) by (intros i Hi; by apply C4 in Hi as [? _]).
      destruct o as [e|]; cbn [option_map option_list]; [change (option_list (Some (Ev e))) with [@Ev E e]|change (option_list None) with ([] : list (pev E)); rewrite app_nil_r].
      + split; [rewrite plain_app; cbn; by eapply exec_event| |done| |done|].
        * intros _ e' [He| ->%elem_of_list_singleton]%elem_of_app; [by apply C2|by exists e].
        * intros i [Hi|Hi%elem_of_list_singleton]%elem_of_app; [by destruct (NB i)|done].
        * intros [Hi|Hi%elem_of_list_singleton]%elem_of_app; [|done]. by destruct (C2 eq_refl _ Hi).
      + split; [by eapply exec_silent|done|done| |done|].
        * intros i Hi. by destruct (NB i).
        * intros Hi. by destruct (C2 eq_refl _ Hi).
    - assert (NB : forall i, Boom i ∉ h) by (intros i Hi; by apply C4 in Hi as [? _]). change (option_list (Some Throws)) with [@Throws E].
      split; [by rewrite plain_app; cbn; rewrite app_nil_r|done| | |done|by intros _; apply calls].
      + intros _. split; [apply elem_of_app; right; by apply elem_of_list_singleton|]. intros i [Hi|Hi%elem_of_list_singleton]%elem_of_app; [by destruct (NB i)|done].
      + intros i [Hi|Hi%elem_of_list_singleton]%elem_of_app; [by destruct (NB i)|done].
    - destruct (C3 eq_refl) as [Th NB].
      destruct o as [e|]; cbn [option_map option_list]; [change (option_list (Some (Ev e))) with [@Ev E e]|change (option_list None) with ([] : list (pev E)); rewrite app_nil_r].
      + split; [rewrite plain_app; cbn; by eapply exec_event|done| | |done|].
        * intros _. split; [apply elem_of_app; by left|]. intros i [Hi|Hi%elem_of_list_singleton]%elem_of_app; [by destruct (NB i)|done].
        * intros i [Hi|Hi%elem_of_list_singleton]%elem_of_app; [by destruct (NB i)|done].
        * intros _. eapply keeps; [exact K|by apply C6].
      + split; [by eapply exec_silent|done|done| |done|].
        * intros i Hi. by destruct (NB i).
        * intros _. eapply keeps; [exact K|by apply C6].
    - assert (NB : forall i, Boom i ∉ h) by (intros j Hj; by apply C4 in Hj as [? _]). change (option_list (Some (Boom i))) with [@Boom E i].
      split; [by rewrite plain_app; cbn; rewrite app_nil_r|done|done| | |].
      + intros j [Hj|Hj%elem_of_list_singleton]%elem_of_app; [by destruct (NB j)|]. injection Hj as ->. by rewrite last_snoc.
      + intros _. exists i. apply elem_of_app. right. by apply elem_of_list_singleton.
      + intros [Hj|Hj%elem_of_list_singleton]%elem_of_app; [by apply C6|done].
  Qed.
  Lemma cut_exec_from x0 h xs : exec pst (x0, Up) h xs -> cut x0 h xs.1 xs.2.
  Proof.
    intros Ex. remember (x0, Up) as c0. induction Ex as [c|c c1 h c2 Ex IH St|c c1 h e c2 Ex IH St]; subst.
    - cbn. split; [constructor| |done| |done|].
      + intros _ e He. by apply elem_of_nil in He.
      + intros i He. by apply elem_of_nil in He.
      + intros He. by apply elem_of_nil in He.
    - specialize (IH eq_refl). destruct c1, c2. rewrite <- (app_nil_r h). by eapply (cut_step _ _ _ _ None).
    - specialize (IH eq_refl). destruct c1, c2. by eapply (cut_step _ _ _ _ (Some e)).
  Qed.
  Lemma down_stuck x e y : ~ pst (x, Down) e y.
  Proof. intros St. inversion St; subst; done. Qed.
  (** a measure of the executions without panics bounds those with *)
  Definition rank (st : status) : nat := match st with Up => 2 | Left => 1 | Down => 0 end.
  Lemma p_bound (m : S -> nat) (x0 : S) : (forall x e y, step x e y -> m y < m x) ->
    exists bound, forall n x, nsteps (fun a b => exists e, pst a e b) n (x0, Up) x -> n <= bound.
  Proof using Type.
    clear keeps calls was_calling. intros Dec. exists (m x0 + 2). assert (forall n x y, nsteps (fun a b => exists e, pst a e b) n x y -> n + m y.1 + rank y.2 <= m x.1 + rank x.2) as H.
    { intros n x y Sn. induction Sn as [|n x y z [e St] Sn IH]; [lia|].
      assert (m y.1 + rank y.2 < m x.1 + rank x.2); [|lia]. inversion St as [? o ? St1|? Ca|? o ? St1 K|? i st In Nd]; subst; cbn; try apply Dec in St1; try lia. destruct st; cbn; try lia; done. }
    intros n x Sn. apply H in Sn. cbn in Sn. lia.
  Qed.
End panics.

(** ** FoldWith *)
Section fold.
  Context {T R : Type} (p : nat) (segs : list (list T)) (init : R).
  Lemma fold_cut h x : exec (fold_step p segs init) (finit, Up) h x ->
    cut (fstep p segs init) (fun x i => fdead x = false /\ exists w, fws x !! i = Some w /\ executing w) (fun x => exists n a r, fm x = FComb n a r) finit h x.1 x.2.
  Proof.
    intros Ex. eapply cut_exec_from; [| |exact Ex].
    - intros a b -> ?. done.
    - intros a (_ & C). exact C.
  Qed.
  Lemma sits_in_a_call (a0 : R) (l0 : list T) es w : sits a0 l0 es w -> executing w -> in_a_call es.
  Proof.
    destruct w; cbn [sits executing]; intros St Ex; try done; destruct St as (es' & _ & ->); [left; apply last_snoc|right].
    exists a, x. replace (es' ++ _) with ((es' ++ [Pull; Pulled (Some x)]) ++ [Call a x]) by by rewrite <- (app_assoc es'). apply last_snoc.
  Qed.
  Lemma last_app_some {A} (l1 l2 : list A) : l2 <> [] -> last (l1 ++ l2) = last l2.
  Proof. intros N. destruct l2 as [|a l2 _] using rev_ind; [done|]. by rewrite app_assoc, !last_snoc. Qed.
  Lemma gone_last (a0 a : R) (l0 l : list T) es : gone_to a0 l0 es a l -> es = [] \/ exists b, last es = Some (Ret b).
  Proof.
    intros G. induction G as [a l|a x l b es a' l' G IH]; [by left|right]. destruct IH as [-> |[b' IH]]; [by exists b|]. exists b'.
    rewrite last_app_some; [done|]. by destruct es.
  Qed.
  Lemma completes_last (a0 r : R) (l0 : list T) es : completes a0 l0 es r -> es <> [] /\ last es = Some (Pulled None).
  Proof. intros C. induction C as [a|a x l b es r C [Ne IH]]; [done|]. split; [done|]. by rewrite last_app_some. Qed.
  Lemma in_a_call_sits (a0 : R) (l0 : list T) es w : sits a0 l0 es w -> in_a_call es -> executing w.
  Proof.
    unfold in_a_call. destruct w as [l a|l a|x l a|x l a|a|]; cbn [sits executing]; intros St Ca; try done; exfalso.
    - destruct (gone_last _ _ _ _ _ St) as [-> |[b E]]; [by destruct Ca as [|(? & ? & ?)]|rewrite E in Ca; by destruct Ca as [|(? & ? & ?)]].
    - destruct St as (es' & _ & ->). rewrite last_app_some in Ca by done. by destruct Ca as [|(? & ? & ?)].
    - destruct (completes_last _ _ _ _ St) as [_ E]. rewrite E in Ca. by destruct Ca as [|(? & ? & ?)].
    - destruct St as [r St]. destruct (completes_last _ _ _ _ St) as [_ E]. rewrite E in Ca. by destruct Ca as [|(? & ? & ?)].
  Qed.
End fold.
(** ** Collect *)
Section collect.
  Context {T : Type} (segs : list (list T)).
  Lemma collect_cut h x : exec (collect_step segs) (cinit, Up) h x ->
    cut (cstep segs) (fun x i => exists w, cws x !! i = Some w /\ executing w) (fun _ => False) cinit h x.1 x.2.
  Proof. intros Ex. eapply cut_exec_from; [| |exact Ex]; done. Qed.
End collect.
(** ** TryFold *)
Section tryfold.
  Context {T : Type} (zero : T) (p : nat) (segs : list (list T)) (init : T).
  Lemma tryfold_cut h x : exec (tryfold_step zero p segs init) (tinit, Up) h x ->
    cut (tstep zero p segs init) (fun x i => exists w, tws x !! i = Some w /\ texecuting w) (fun x => exists n a r, tm x = TFolding n a r) tinit h x.1 x.2.
  Proof.
    intros Ex. eapply cut_exec_from; [| |exact Ex].
    - intros a b -> ?. done.
    - done.
  Qed.
  Lemma tsits_in_a_call i (a0 : T) l0 es w : tsits i a0 l0 es w -> texecuting w -> t_in_a_call i es.
  Proof.
    destruct w; cbn [tsits texecuting]; intros St Ex; try done; destruct St as (es' & _ & ->); [left; apply last_snoc|right].
    exists a, x. replace (es' ++ _) with ((es' ++ [TPull i; TPulled i (Some x)]) ++ [TCall i a x]) by by rewrite <- (app_assoc es'). apply last_snoc.
  Qed.
  Lemma tgone_last i (a0 a : T) l0 l es : tgone i a0 l0 es a l -> es = [] \/ exists b, last es = Some (TRet i b true).
  Proof.
    intros G. induction G as [a l|a x l b es a' l' G IH]; [by left|right]. destruct IH as [-> |[b' IH]]; [by exists b|]. exists b'.
    rewrite last_app_some; [done|]. by destruct es.
  Qed.
  Lemma tcompletes_last i (a0 r : T) l0 es : tcompletes i a0 l0 es r -> es <> [] /\ last es = Some (TPulled i None).
  Proof. intros C. induction C as [a|a x l b es r C [Ne IH]]; [done|]. split; [done|]. by rewrite last_app_some. Qed.
End tryfold.
