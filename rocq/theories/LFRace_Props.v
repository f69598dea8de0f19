(** Data races of the lock-free skip list. *)
From Verif Require Import Base Lin_Spec Lin_Proofs LockFree_Model LockFree_Spec LockFree_Props Race_Spec LFRace_Model.

(** every plain access is a read *)
Local Definition is_link (l : place_lf) : bool := match l with Link _ _ | Count => true | _ => false end.
Local Lemma touches_kinds {T} (x : sys T) t a : a ∈ lf_touches x t -> is_link (place a) = atomic a /\ (writes a = true -> atomic a = true).
Proof.
  assert (L : forall n l, a ∈ at_load n l -> is_link (place a) = atomic a /\ (writes a = true -> atomic a = true)).
  { intros [i|] l H; cbn in H; rewrite ?elem_of_cons, ?elem_of_nil in H; [|done]. destruct H as [->|[->|[]]]; done. }
  assert (C : forall n l, a ∈ at_cas n l -> is_link (place a) = atomic a /\ (writes a = true -> atomic a = true)).
  { intros [i|] l H; cbn in H; rewrite ?elem_of_cons, ?elem_of_nil in H; [|done]. destruct H as [->|[->|[->|[]]]]; done. }
  assert (F : forall n, a ∈ at_fields n -> is_link (place a) = atomic a /\ (writes a = true -> atomic a = true)).
  { intros [i|] H; cbn in H; rewrite ?elem_of_cons, ?elem_of_nil in H; [|done]. destruct H as [->|[->|[]]]; done. }
  unfold lf_touches. destruct (pcs x !! t) as [[| ? ? ? ? [l p|l p c|l p c n]| ? ? ps ?|l ? ? ps ?| | | | | | |]|]; try (by rewrite elem_of_nil); eauto.
  - rewrite elem_of_app. intros [H|H]; eauto.
  - destruct (ps !! 0); [eauto|by rewrite elem_of_nil].
  - destruct (ps !! l); [eauto|by rewrite elem_of_nil].
  - rewrite !elem_of_cons, elem_of_nil. intros [->|[->|[]]]; done.
  - rewrite !elem_of_cons, elem_of_nil. intros [->|[->|[]]]; done.
  - rewrite !elem_of_cons, elem_of_nil. intros [->|[]]; done.
  - rewrite !elem_of_cons, elem_of_nil. intros [->|[]]; done.
Qed.

(** ** C71 *)

(** there is no race *)
Theorem C71_lock_free_race_free {T} (x : sys T) t u l : ~ race lf_touches x t u l.
Proof.
  intros (N & a & b & Ha & Hb & (Ep & W & A) & El).
  destruct (touches_kinds x t a Ha) as [L1 W1], (touches_kinds x u b Hb) as [L2 W2]. rewrite Ep in L1.
  assert (E : atomic a = atomic b) by congruence.
  destruct W as [W|W]; [specialize (W1 W)|specialize (W2 W)]; destruct A; congruence.
Qed.
Print Assumptions C71_lock_free_race_free.

(** nodes are accessed only after they were made and filled *)
Theorem C71_lock_free_nodes_exist {T} (zero : T) comp n h x t a :
  cmp_ok comp -> exec (step comp) (sys_init zero n) h x -> a ∈ lf_touches x t ->
  match place a with
  | Link i l => exists nd, heap (shared x) !! i = Some nd /\ l < length (nexts nd)
  | Value i | Level i | Slice i => is_Some (heap (shared x) !! i)
  | Count => True
  end.
Proof.
  intros Hc He Ha. pose proof (C51_no_panic T zero comp Hc n h x He) as NP.
  assert (L : forall i l, (exists k, load_next (heap (shared x)) (Some i) l = Ok k) -> exists nd, heap (shared x) !! i = Some nd /\ l < length (nexts nd)).
  { intros i l (k & E). unfold load_next, deref in E. cbn in E. destruct (heap (shared x) !! i) as [nd|]; [|done]. exists nd. split; [done|].
    cbn in E. apply lookup_lt_is_Some. destruct (nexts nd !! l); [by eexists|done]. }
  assert (P : forall p, pcs x !! t = Some p -> running p = true -> tstep comp (shared x) p 1 <> Panic).
  { intros p E R F. apply NP. exists t, p, 1. split; [done|]. split; [done|]. split; [unfold random_level, max_level; lia|done]. }
  assert (Q : forall nd l, (forall k, load_next (heap (shared x)) nd l <> Ok k) -> load_next (heap (shared x)) nd l = Panic).
  { intros nd l H. unfold load_next, deref in *. destruct nd as [i|]; [cbn in *|done]. destruct (heap (shared x) !! i) as [m|]; [cbn in *|done].
    destruct (nexts m !! l) as [k|]; [|done]. by destruct (H k). }
  assert (D : forall nd l, (exists k, load_next (heap (shared x)) nd l = Ok k) \/ load_next (heap (shared x)) nd l = Panic).
  { intros nd l. destruct (load_next (heap (shared x)) nd l) as [k| |] eqn:E; [by left; exists k|by right|]. rewrite Q in E by by rewrite E. done. }
  assert (CP : forall nd l e d, load_next (heap (shared x)) nd l = Panic -> cas_next (heap (shared x)) nd l e d = Panic).
  { intros nd l e d H. unfold load_next, cas_next, deref in *. destruct nd as [i|]; [cbn in *|done]. destruct (heap (shared x) !! i) as [m|]; [cbn in *|done].
    by destruct (nexts m !! l). }
  assert (LD : forall nd l, a ∈ at_load nd l -> (exists k, load_next (heap (shared x)) nd l = Ok k) ->
    match place a with Link i l => exists nd, heap (shared x) !! i = Some nd /\ l < length (nexts nd)
    | Value i | Level i | Slice i => is_Some (heap (shared x) !! i) | Count => True end).
  { intros [i|] l H K; cbn in H; rewrite ?elem_of_cons, ?elem_of_nil in H; [|done]. destruct (L i l K) as (m & E & Hl).
    destruct H as [->|[->|[]]]; cbn; [by rewrite E; eexists|by exists m]. }
  assert (CS : forall nd l, a ∈ at_cas nd l -> (exists k, load_next (heap (shared x)) nd l = Ok k) ->
    match place a with Link i l => exists nd, heap (shared x) !! i = Some nd /\ l < length (nexts nd)
    | Value i | Level i | Slice i => is_Some (heap (shared x) !! i) | Count => True end).
  { intros [i|] l H K; cbn in H; rewrite ?elem_of_cons, ?elem_of_nil in H; [|done]. destruct (L i l K) as (m & E & Hl).
    destruct H as [->|[->|[->|[]]]]; cbn; [by rewrite E; eexists|by exists m|by exists m]. }
  unfold lf_touches in Ha. destruct (pcs x !! t) as [p|] eqn:E; [|by apply elem_of_nil in Ha]. specialize (P p eq_refl).
  destruct p as [| ? ? ? ? [l p|l p c|l p c m]| ? ? ps ss|l ? ? ps ss| |? l nd|? l nd nx| | | |]; cbn [running] in P; try specialize (P eq_refl);
    try (by apply elem_of_nil in Ha).
  - destruct (D p l) as [K|K]; [by eapply LD|]. cbn in P. rewrite K in P. done.
  - apply elem_of_app in Ha as [Ha|Ha]; (destruct (D c l) as [K|K]; [|cbn in P; rewrite K in P; done]); [by eapply LD|].
    destruct c as [i|]; cbn in Ha; rewrite ?elem_of_cons, ?elem_of_nil in Ha; [|done]. destruct (L i l K) as (m & Em & _).
    destruct Ha as [->|[->|[]]]; cbn; by rewrite Em; eexists.
  - destruct (D p l) as [K|K]; [by eapply CS|]. cbn in P. rewrite (CP _ _ _ _ K) in P. done.
  - destruct (ps !! 0) as [pv|] eqn:Ev; [|by apply elem_of_nil in Ha]. destruct (D pv 0) as [K|K]; [by eapply CS|].
    cbn in P. rewrite Ev in P. cbn in P. destruct (ss !! 0); cbn in P; [|done]. rewrite (CP _ _ _ _ K) in P. done.
  - destruct (ps !! l) as [pv|] eqn:Ev; [|by apply elem_of_nil in Ha]. destruct (D pv l) as [K|K]; [by eapply CS|].
    cbn in P. rewrite Ev in P. cbn in P. destruct (ss !! l); cbn in P; [|done]. rewrite (CP _ _ _ _ K) in P. done.
  - rewrite !elem_of_cons, elem_of_nil in Ha. destruct Ha as [->|[->|[]]]; done.
  - destruct (D nd l) as [K|K]; [by eapply LD|]. cbn in P. rewrite K in P. done.
  - destruct (D nd l) as [K|K]; [by eapply CS|]. cbn in P. rewrite (CP _ _ _ _ K) in P. done.
  - rewrite !elem_of_cons, elem_of_nil in Ha. destruct Ha as [->|[->|[]]]; done.
  - rewrite !elem_of_cons, elem_of_nil in Ha. destruct Ha as [->|[]]; done.
  - rewrite !elem_of_cons, elem_of_nil in Ha. destruct Ha as [->|[]]; done.
Qed.
Print Assumptions C71_lock_free_nodes_exist.

(** [lf_touches] lists every change: a step changes a link only by a listed
    atomic write of a goroutine, and the plain fields of a node never change *)
Theorem C71_lock_free_writes_are_listed {T} comp (x : sys T) e y i nd :
  step comp x e y -> heap (shared x) !! i = Some nd ->
  (size (shared y) <> size (shared x) -> exists t, atomic_write Count ∈ lf_touches x t)
  /\ exists nd', heap (shared y) !! i = Some nd' /\ value nd' = value nd /\ level nd' = level nd /\ length (nexts nd') = length (nexts nd)
       /\ forall l, nexts nd' !! l <> nexts nd !! l -> exists t, atomic_write (Link i l) ∈ lf_touches x t.
Proof.
  intros St Hi.
  assert (Same : forall P : nat -> Prop, (size (shared x) <> size (shared x) -> exists t, atomic_write Count ∈ lf_touches x t)
    /\ exists nd', heap (shared x) !! i = Some nd' /\ value nd' = value nd /\ level nd' = level nd /\ length (nexts nd') = length (nexts nd)
       /\ forall l, nexts nd' !! l <> nexts nd !! l -> exists t, atomic_write (Link i l) ∈ lf_touches x t).
  { intros _. split; [done|]. by exists nd. }
  specialize (Same (fun _ => True)).
  inversion St as [m ps t o E|m ps t p top m' p' E R Rl Ts|m ps t r E]; subst; cbn [shared] in *; try done.
  assert (Cas : forall j l ex de b h, cas_next (heap m) j l ex de = Ok (b, h) ->
     (exists k, j = Some k) /\ exists nd', h !! i = Some nd' /\ value nd' = value nd /\ level nd' = level nd /\ length (nexts nd') = length (nexts nd)
       /\ forall l', nexts nd' !! l' <> nexts nd !! l' -> j = Some i /\ l' = l).
  { intros j l ex de b h H. unfold cas_next, deref in H. destruct j as [k|]; [cbn in H|done]. split; [by eexists|].
    destruct (heap m !! k) as [w|] eqn:Ek; [cbn in H|done]. destruct (nexts w !! l) as [z|] eqn:Ez; [cbn in H|done].
    case_decide; simplify_eq; [|by exists nd]. destruct (decide (i = k)) as [->|Nk].
    - exists (Node (level w) (<[l:=de]> (nexts w)) (value w)). rewrite list_lookup_insert by by eapply lookup_lt_Some. rewrite Hi in Ek. injection Ek as <-.
      split; [done|]. split; [done|]. split; [done|]. split; [by cbn; rewrite insert_length|]. intros l' Hl. cbn in Hl. split; [done|].
      destruct (decide (l = l')) as [->|Nl]; [done|]. by rewrite list_lookup_insert_ne in Hl.
    - exists nd. by rewrite list_lookup_insert_ne. }
  assert (Hcas : forall j l ex de b h s, cas_next (heap m) j l ex de = Ok (b, h) -> at_cas j l ⊆ lf_touches (Sys m ps) t -> s = size m ->
     (size (Mem h s) <> size m -> exists t, atomic_write Count ∈ lf_touches (Sys m ps) t)
     /\ exists nd', heap (Mem h s) !! i = Some nd' /\ value nd' = value nd /\ level nd' = level nd /\ length (nexts nd') = length (nexts nd)
       /\ forall l, nexts nd' !! l <> nexts nd !! l -> exists t, atomic_write (Link i l) ∈ lf_touches (Sys m ps) t).
  { intros j l ex de b h s H Sub ->. split; [done|]. destruct (Cas _ _ _ _ _ _ H) as (_ & nd' & E1 & E2 & E3 & E4 & E5). exists nd'.
    do 4 (split; [done|]). intros l' Hl. destruct (E5 l' Hl) as [-> ->]. exists t. apply Sub. cbn. do 2 right. by left. }
  assert (Tt : forall q, pcs (Sys m ps) !! t = Some q -> q = p). { cbn. intros q Eq. by simplify_eq. }
  assert (Lt : lf_touches (Sys m ps) t = lf_touches (Sys m ps) t) by done. unfold lf_touches in Lt at 2. cbn [pcs] in Lt. rewrite E in Lt.
  clear Tt. cbn [shared] in *.
  destruct p as [| ? ? ? ? [l p|l p c|l p c n]| ? ? pv ss|l ? ? pv ss| |? l j|? l j nx| | | |]; cbn [tstep] in Ts; try done.
  - unfold rbind in Ts. destruct (load_next _ _ _); simplify_eq. done.
  - destruct (load_next (heap m) c l) as [z| |]; [cbn in Ts|done|done]. destruct (is_marked z); [by simplify_eq|].
    destruct (less comp (heap m) c v) as [b| |]; [cbn in Ts|done|done]. destruct b; [by simplify_eq|]. destruct l as [|l]; [|by simplify_eq].
    unfold found in Ts. destruct k.
    + destruct (equals _ _ _ _) as [b| |]; [cbn in Ts|done|done]. destruct b; simplify_eq; [done|]. split; [done|]. exists nd.
      cbn [heap]. rewrite lookup_app_l by by eapply lookup_lt_Some. done.
    + by simplify_eq.
    + destruct (equals _ _ _ _) as [b| |]; [cbn in Ts|done|done]. destruct b; [|by simplify_eq].
      destruct (deref c) as [w| |]; [cbn in Ts|done|done]. destruct (deref (heap m !! w)); [cbn in Ts|done|done]. by simplify_eq.
    + destruct (equals _ _ _ _) as [b| |]; [cbn in Ts|done|done]. by simplify_eq.
    + destruct (deref c) as [w| |]; [cbn in Ts|done|done]. destruct (deref (heap m !! w)); [cbn in Ts|done|done]. by simplify_eq.
    + by simplify_eq.
  - destruct (cas_next _ _ _ _ _) as [[b h]| |] eqn:Ec; [cbn in Ts|done|done]. destruct b; simplify_eq; [|done].
    eapply Hcas; [exact Ec| |done]. by rewrite Lt.
  - destruct (pv !! 0) as [pp|]; [cbn in Ts|done]. destruct (ss !! 0) as [sc|]; [cbn in Ts|done].
    destruct (cas_next _ _ _ _ _) as [[b h]| |] eqn:Ec; [cbn in Ts|done|done]. destruct b; [|by simplify_eq].
    destruct (deref (h !! new)) as [w| |]; [cbn in Ts|done|done]. simplify_eq. eapply Hcas; [exact Ec| |done]. by rewrite Lt.
  - destruct (pv !! l) as [pp|]; [cbn in Ts|done]. destruct (ss !! l) as [sc|]; [cbn in Ts|done].
    destruct (cas_next _ _ _ _ _) as [[b h]| |] eqn:Ec; [cbn in Ts|done|done]. destruct b; [|by simplify_eq].
    destruct (deref (h !! new)) as [w| |]; [cbn in Ts|done|done]. simplify_eq. eapply Hcas; [exact Ec| |done]. by rewrite Lt.
  - simplify_eq. split; [intros _; exists t; rewrite Lt; right; by left|]. by exists nd.
  - unfold rbind in Ts. destruct (load_next _ _ _) as [z| |]; [|done|done]. destruct (is_marked z); [|by simplify_eq]. destruct l; by simplify_eq.
  - destruct (cas_next _ _ _ _ _) as [[b h]| |] eqn:Ec; [cbn in Ts|done|done].
    assert (Sub : at_cas j l ⊆ lf_touches (Sys m ps) t) by by rewrite Lt.
    destruct l; [destruct b; simplify_eq; [|done]|simplify_eq]; by eapply Hcas.
  - simplify_eq. split; [intros _; exists t; rewrite Lt; right; by left|]. by exists nd.
  - by simplify_eq.
  - case_decide; by simplify_eq.
Qed.
Print Assumptions C71_lock_free_writes_are_listed.
