From Verif Require Import Base Iter_Model Iter_Spec Split_Model Split_Proofs WalkSplit_Model WalkSplit_Spec WalkSplit_Proofs
  Stream_Model Stream_Spec Stream_Proofs Stream_Proofs2 ParPipe_Model ParPipe_Spec ParPipe_Proofs.

(** * Stages *)
Section stages.
  Context {U : Type}.
  Notation W := (world U).
  Lemma wrap_exhausted {T R} (k : iter U T -> iter U R) (g : gen U T) : exhausted Any g -> exhausted Any (wrap_gen k g).
  Proof.
    intros Hg. apply (exhausted_coind Any (fun h => exists g, h = wrap_gen k g /\ exhausted Any g)); [|by eauto].
    clear. intros h (g & -> & [Hg]) w. destruct (Hg w) as (g' & w' & [N1 R1] & _ & He).
    exists (wrap_gen k g'), w'. splits; [|done|by eauto]. exists N1. intros m Hm. cbn. by rewrite R1.
  Qed.
  Lemma wrap_stable {T R} (k : iter U T -> iter U R) (h : list T -> list R) :
    (forall it l, Y it l -> Y (k it) (h l)) ->
    forall (s : stream U T) p ls, stable s p ls -> stable (wrap k s) p (h <$> ls).
  Proof.
    intros Hk s p ls. unfold has_segments. simpl. generalize (activate s p). induction ls as [|l ls IH]; intros g Hg.
    - inversion Hg; subst. constructor. by apply wrap_exhausted.
    - constructor. intros w. destruct (gyields_inv _ _ _ Hg w) as (o & g' & w' & [N1 R1] & _ & it & -> & Hy & Hg').
      exists (k it), (wrap_gen k g'), w'. splits; [|done|by apply Hk|by apply IH]. exists N1. intros m Hm. cbn. by rewrite R1.
  Qed.
  Lemma map_stable {T R} (f : T -> U -> R * U) (g : T -> R) : (forall x u, (f x u).1 = g x) ->
    forall (s : stream U T) p ls, stable s p ls -> stable (Map s f) p ((fun l : list T => (g <$> l : list R)) <$> ls).
  Proof.
    intros Hf. apply wrap_stable. intros it l. revert it. induction l as [|x l IH]; intros it Hy.
    - constructor. intros w. destruct (yields_inv _ _ _ Hy w) as (o & it' & w' & [N1 R1] & _ & ->).
      exists (map_iter f it'), w'. split; [|done]. exists N1. intros m Hm. cbn. by rewrite R1.
    - constructor. intros w. destruct (yields_inv _ _ _ Hy w) as (o & it' & w' & [N1 R1] & _ & -> & Hy').
      exists (map_iter f it'), (on_usr (f x) w').2. splits; [|done|by apply IH]. exists N1. intros m Hm. cbn. rewrite R1 by done.
      specialize (Hf x (usr w')). unfold on_usr. destruct (f x (usr w')) as [r u]. simpl in *. by subst.
  Qed.
  Lemma inspect_stable {T} (f : T -> U -> U) (s : stream U T) p ls : stable s p ls -> stable (Inspect s f) p ls.
  Proof.
    intros Hs. replace ls with (id <$> ls) by apply list_fmap_id. revert Hs. apply (wrap_stable (inspect_iter f) id).
    clear. intros it l. unfold id. revert it. induction l as [|x l IH]; intros it Hy.
    - constructor. intros w. destruct (yields_inv _ _ _ Hy w) as (o & it' & w' & [N1 R1] & _ & ->).
      exists (inspect_iter f it'), w'. split; [|done]. exists N1. intros m Hm. cbn. by rewrite R1.
    - constructor. intros w. destruct (yields_inv _ _ _ Hy w) as (o & it' & w' & [N1 R1] & _ & -> & Hy').
      eexists (inspect_iter f it'), _. splits; [|done|by apply IH]. exists N1. intros m Hm. cbn. by rewrite R1.
  Qed.
  Lemma keep_loop_ok {T} (keep : T -> W -> bool * W) (q : T -> bool) : (forall x w, (keep x w).1 = q x) ->
    forall l it w, Y it l -> exists N o it' w',
      (forall n fuel, N <= n -> N <= fuel -> keep_loop keep n it fuel w = Ok (o, it', w')) /\
      match List.filter q l with [] => o = None | v :: r => o = Some v /\ exists l', List.filter q l' = r /\ Y it' l' end.
  Proof.
    intros Hk. induction l as [|x l IH]; intros it w Hy.
    - destruct (yields_inv _ _ _ Hy w) as (o & it' & w' & [N1 R1] & _ & ->). exists (S N1), None, it', w'. split; [|done].
      intros [|n] fuel Hn Hf; [lia|]. cbn. by rewrite R1 by lia.
    - destruct (yields_inv _ _ _ Hy w) as (o & it' & w' & [N1 R1] & _ & -> & Hy'). specialize (Hk x w').
      destruct (keep x w') as [b w2] eqn:Ek. simpl in Hk. subst b. simpl. destruct (q x) eqn:Eq.
      + exists (S N1), (Some x), it', w2. split; [|by eauto]. intros [|n] fuel Hn Hf; [lia|]. cbn. rewrite R1 by lia. by rewrite Ek.
      + destruct (IH it' w2 Hy') as (N2 & o & it2 & w3 & R2 & Ho). exists (S (N1 + N2)), o, it2, w3. split; [|done].
        intros [|n] fuel Hn Hf; [lia|]. cbn. rewrite R1 by lia. rewrite Ek. apply R2; lia.
  Qed.
  Lemma keep_stable {T} (keep : T -> W -> bool * W) (q : T -> bool) : (forall x w, (keep x w).1 = q x) ->
    forall (s : stream U T) p ls, stable s p ls -> stable (wrap (keep_iter keep) s) p (List.filter q <$> ls).
  Proof.
    intros Hk. apply wrap_stable. intros it l Hy. remember (List.filter q l) as r eqn:Er. revert it l Hy Er.
    induction r as [|v r IH]; intros it l Hy Er.
    - constructor. intros w. destruct (keep_loop_ok keep q Hk l it w Hy) as (N & o & it' & w' & R & Ho). rewrite <- Er in Ho. subst o.
      exists (keep_iter keep it'), w'. split; [|done]. exists N. intros m Hm. cbn. by rewrite R.
    - constructor. intros w. destruct (keep_loop_ok keep q Hk l it w Hy) as (N & o & it' & w' & R & Ho). rewrite <- Er in Ho.
      destruct Ho as (-> & l' & Hl' & Hy').
      exists (keep_iter keep it'), w'. splits; [|done|by eapply IH]. exists N. intros m Hm. cbn. by rewrite R.
  Qed.
  Lemma filter_stable {T} (f : T -> U -> bool * U) (q : T -> bool) : (forall x u, (f x u).1 = q x) ->
    forall (s : stream U T) p ls, stable s p ls -> stable (Filter s f) p (List.filter q <$> ls).
  Proof.
    intros Hf. apply keep_stable. intros x w. specialize (Hf x (usr w)). unfold on_usr. by destruct (f x (usr w)).
  Qed.
  Lemma skip_while_stable {T} (f : T -> U -> bool * U) (q : T -> bool) : (forall x u, (f x u).1 = q x) ->
    forall (s : stream U T) p ls, stable s p ls -> stable (SkipWhile s f) p (List.filter (fun x => negb (q x)) <$> ls).
  Proof.
    intros Hf. apply keep_stable. intros x w. specialize (Hf x (usr w)). unfold on_usr. destruct (f x (usr w)). simpl in *. by subst.
  Qed.
  (** a source is stable *)
  Lemma yields_mono {T} (E E' : W -> W -> Prop) (it : iter U T) l : (forall a b, E a b -> E' a b) ->
    Stream_Spec.yields E it l -> Stream_Spec.yields E' it l.
  Proof.
    intros HE. revert it. induction l as [|x l IH]; intros it Hy; inversion Hy as [? H|? ? ? H]; subst; constructor; intros w.
    - destruct (H w) as (it' & w' & R & He). eauto.
    - destruct (H w) as (it' & w' & R & He & Hy'). exists it', w'. eauto.
  Qed.
  Lemma exhausted_mono {T} (E E' : W -> W -> Prop) (g : gen U T) : (forall a b, E a b -> E' a b) -> exhausted E g -> exhausted E' g.
  Proof.
    intros HE. apply (exhausted_coind E' (fun g => exhausted E g)). clear g. intros g [Hg] w.
    destruct (Hg w) as (g' & w' & R & He & Hx). eauto 6.
  Qed.
  Lemma source_stable {T} (s : stream U T) p ls : source s p ls -> stable s p ls.
  Proof.
    unfold has_segments. generalize (activate s p). induction ls as [|l ls IH]; intros g Hg; inversion Hg as [? H|? ? ? H]; subst; constructor.
    - eapply exhausted_mono; [|exact H]. done.
    - intros w. destruct (H w) as (it & g' & w' & R & He & Hy & Hg'). exists it, g', w'. splits; [done|done| |by apply IH].
      eapply yields_mono; [|exact Hy]. done.
  Qed.
End stages.

(** * Sources *)
Section sources.
  Context {U : Type}.
  (** what the segments of a list cut [p] ways look like *)
  Definition cut {T} (l : list T) (p : Z) (segs : list (list T)) : Prop :=
    exists fin, drains (split_next l p) 0 segs fin /\ split_next l p fin = Ok (None, fin).
  Lemma slice_cut {T} (l : list T) q p segs : cut l p segs -> source (slice_stream (U:=U) l q) p segs.
  Proof. intros (fin & H1 & H2). by eapply slice_gen_yields. Qed.

  Lemma machine_yields {St T} (nx : St -> res (option T * St)) st l fin : drains nx st l fin ->
    Stream_Spec.yields eq (machine_iter (U:=U) nx st) l.
  Proof.
    intros (s1 & Hp & He). induction Hp as [s|s s1 s2 v vs H1 Hp IH]; constructor; intros w.
    - exists (machine_iter nx fin), w. split; [|done]. exists 0. intros m _. cbn. by rewrite He.
    - exists (machine_iter nx s1), w. splits; [|done|by apply IH]. exists 0. intros m _. cbn. by rewrite H1.
  Qed.
  Lemma walk_gen_next {N T} (next : N -> option N) (val : N -> T) size (whole : iter U T) p st m w :
    nextseg (walk_gen next val size whole p st) m w =
      match walk_next next size p st with
      | Ok (Some sg, st') => Ok (Some (segment_iter next val whole sg), walk_gen next val size whole p st', w)
      | Ok (None, st') => Ok (None, walk_gen next val size whole p st', w)
      | Panic => Panic
      | Fuel => Fuel
      end.
  Proof. done. Qed.
  Lemma walk_cut {N T} (next : N -> option N) (val : N -> T) front ns (whole : iter U T) q p segs :
    node_path next front ns -> Stream_Spec.yields eq whole (val <$> ns) -> cut (val <$> ns) p segs ->
    source (walk_stream front next val (Z.of_nat (length ns)) whole q) p segs.
  Proof.
    intros Hf Hw (fin & (s1 & Hp & He) & Hfin).
    set (wl := fun xs => Stream_Spec.yields eq whole xs).
    assert (Hseg : forall sg xs, WalkSplit_Spec.yields next val wl sg xs -> Stream_Spec.yields eq (segment_iter next val whole sg) xs).
    { intros [|n|n o] xs H; simpl in *; [done| |]; destruct H as [f H]; by eapply machine_yields. }
    assert (Hex : forall node, ((p <= 0)%Z \/ node_path next node (drop fin ns)) ->
      exhausted eq (walk_gen (U:=U) next val (Z.of_nat (length ns)) whole p (Z.of_nat fin, node))).
    { intros node Hn. apply (exhausted_coind eq (fun g => exists node, ((p <= 0)%Z \/ node_path next node (drop fin ns)) /\
        g = walk_gen (U:=U) next val (Z.of_nat (length ns)) whole p (Z.of_nat fin, node))); [|by eauto].
      clear node Hn. intros g (node & Hn & ->) w.
      destruct (walk_simulates next val wl front ns p fin node None fin Hf Hw Hn Hfin) as (o' & node' & E' & S' & Hn').
      destruct o'; [done|]. eexists _, w. splits; [|done|by exists node']. exists 0. intros m _. by rewrite walk_gen_next, E'. }
    assert (Hall : forall node, ((p <= 0)%Z \/ node_path next node (drop 0 ns)) ->
      gyields eq (walk_gen (U:=U) next val (Z.of_nat (length ns)) whole p (Z.of_nat 0, node)) segs).
    2: { apply Hall. right. by rewrite drop_0. }
    remember 0 as i0 eqn:Ei in Hp |- *. clear Ei.
    induction Hp as [i|i i1 i2 v segs H1 Hp IH]; intros node Hn.
    - constructor. constructor. intros w.
      destruct (walk_simulates next val wl front ns p i node None fin Hf Hw Hn He) as (o' & node' & E' & S' & Hn').
      destruct o'; [done|]. eexists _, w. splits; [|done|by apply Hex, Hn']. exists 0. intros m _. by rewrite walk_gen_next, E'.
    - constructor. intros w.
      destruct (walk_simulates next val wl front ns p i node (Some v) i1 Hf Hw Hn H1) as (o' & node' & E' & S' & Hn').
      destruct o' as [sg|]; [|done]. eexists _, _, w. splits; [|done|by apply Hseg|by apply IH]. exists 0. intros m _. by rewrite walk_gen_next, E'.
  Qed.
End sources.
