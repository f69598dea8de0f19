(** Linearizability of the queue. *)
From stdpp Require Import functions.
From Verif Require Import Base Lin_Spec Lin_Proofs Queue_Model Queue_Spec Queue_Proofs.

Section conc.
  Context {T : Type}.
  Notation phase := (phase (Op:=op T) (Ret:=ret T)).
  Implicit Types (m : gmap nat (node T)) (L : list (nat * T)) (p : pc T) (a : phase).

  Definition crit p : bool :=
    match p with
    | PushTest _ | PushHead _ | PushNext _ | PushTail _ | PushCount _ | PushUnlock _
    | PopRead | PopHead _ | PopTest _ | PopTail _ | PopCount _ | PopUnlock _
    | PeekRead | PeekUnlock _ | PanicUnlock => true
    | _ => false end.
  Definition priv p : option nat :=
    match p with PushLock n | PushTest n | PushHead n | PushNext n => Some n | _ => None end.

  Definition val_is m (n : nat) (v : T) : Prop := nval <$> m !! n = Some v.
  (** tail, count and abstract contents, depending on what the lock holder is doing *)
  Definition normal L (tl : option nat) (c : Z) (s : list T) : Prop :=
    tl = last L.*1 /\ c = Z.of_nat (length L) /\ s = L.*2.
  Definition shape p m L (tl : option nat) (c : Z) (s : list T) a : Prop :=
    match p with
    | PushHead _ => normal L tl c s /\ L = []
    | PushNext _ => normal L tl c s /\ L <> []
    | PushTail n => exists L' v, L = L' ++ [(n, v)] /\ tl = last L'.*1 /\ c = Z.of_nat (length L') /\ s = L'.*2 /\ a = Pending (OPush v)
    | PushCount n => exists L' v, L = L' ++ [(n, v)] /\ tl = Some n /\ c = Z.of_nat (length L') /\ s = L'.*2 /\ a = Pending (OPush v)
    | PopHead o => normal L tl c s /\ o = fst <$> head L
    | PopTest n => exists v, val_is m n v /\ tl = last (n :: L.*1) /\ c = Z.of_nat (length L + 1) /\ s = v :: L.*2
    | PopTail n => exists v, val_is m n v /\ L = [] /\ c = Z.of_nat (length L + 1) /\ s = v :: L.*2
    | PopCount n => exists v, val_is m n v /\ tl = last L.*1 /\ c = Z.of_nat (length L + 1) /\ s = v :: L.*2
    | _ => normal L tl c s
    end.
  Definition loc_ok m L p a : Prop :=
    match p with
    | Quiet => a = Idle
    | PushNew v => a = Pending (OPush v)
    | PushLock n | PushTest n | PushHead n | PushNext n =>
        exists v, a = Pending (OPush v) /\ m !! n = Some (Node v None) /\ n ∉ L.*1
    | PushTail n | PushCount n => exists v, a = Pending (OPush v)
    | PushUnlock n => exists v, a = Effected (OPush v) RUnit
    | PopLock | PopRead | PopHead _ | PopTest _ | PopTail _ | PopCount _ => a = Pending OPop
    | PopUnlock n | PopVal n => exists v, a = Effected OPop (RVal v) /\ val_is m n v
    | PeekLock | PeekRead => a = Pending OPeek
    | PeekUnlock o | PeekVal o => exists r, a = Effected OPeek r /\
        match o with None => r = RPanic | Some n => exists v, r = RVal v /\ val_is m n v end
    | PanicUnlock => a = Effected OPop RPanic
    | LenRead => a = Pending OLen
    | EmptyRead => a = Pending OEmpty
    | Ready r => exists o, a = Effected o r
    end.
  Definition hpc (x : sys T) : pc T := match holder x with Some t => pcs x t | None => Quiet end.
  Definition hph (x : sys T) (ph : nat -> phase) : phase := match holder x with Some t => ph t | None => Idle end.

  Record Rel (x : sys T) (s : list T) (ph : nat -> phase) (L : list (nat * T)) : Prop := {
    r_chain : chain (mem x) (qhead x) L;
    r_nodup : NoDup L.*1;
    r_bound : forall n, is_Some (mem x !! n) -> n < nxt x;
    r_lock : forall t, holder x = Some t <-> crit (pcs x t) = true;
    r_shape : shape (hpc x) (mem x) L (tl x) (cnt x) s (hph x ph);
    r_loc : forall t, loc_ok (mem x) L (pcs x t) (ph t);
    r_priv : forall t t' n, priv (pcs x t) = Some n -> priv (pcs x t') = Some n -> t = t' }.

  (** [y] with the pc of [t] set to [p'] *)
  Lemma rel_upd x y s s' ph L L' t p' a' :
    Rel x s ph L ->
    pcs y = pcs x ->
    chain (mem y) (qhead y) L' -> NoDup L'.*1 ->
    (forall n, is_Some (mem y !! n) -> n < nxt y) ->
    (* values persist; private nodes of the others are untouched and stay unlinked *)
    (forall n v, val_is (mem x) n v -> val_is (mem y) n v) ->
    (forall t' n d, t' <> t -> priv (pcs x t') = Some n -> mem x !! n = Some d -> n ∉ L.*1 -> mem y !! n = Some d /\ n ∉ L'.*1) ->
    (* the lock *)
    ((holder y = holder x /\ crit p' = crit (pcs x t)) \/
     (holder x = None /\ holder y = Some t /\ crit p' = true) \/
     (holder x = Some t /\ holder y = None /\ crit p' = false)) ->
    (holder y = None \/ holder y = Some t -> shape (if crit p' then p' else Quiet) (mem y) L' (tl y) (cnt y) s' a') ->
    (holder y <> None -> holder y <> Some t -> mem y = mem x \/ crit p' = false -> shape (hpc x) (mem y) L' (tl y) (cnt y) s' (hph x ph)) ->
    loc_ok (mem y) L' p' a' ->
    (forall n, priv p' = Some n -> priv (pcs x t) = Some n \/ mem x !! n = None) ->
    Rel (set_pc t p' y) s' (<[t := a']> ph) L'.
  Proof.
    intros [R1 R2 R3 R4 R5 R6 R7] Hpcs Hc Hnd Hb Hv Hpriv Hlk Hsh Hsh2 Hloc Hp.
    assert (Hlock : forall t', holder y = Some t' <-> crit (<[t := p']> (pcs x) t') = true).
    { intros t'. destruct (decide (t' = t)) as [->|Hne].
      - rewrite fn_lookup_insert. specialize (R4 t).
        destruct Hlk as [[E1 E2]|[(E1 & E2 & E3)|(E1 & E2 & E3)]]; rewrite ?E1, ?E2, ?E3; [done|done|]. split; done.
      - rewrite fn_lookup_insert_ne by done. specialize (R4 t').
        destruct Hlk as [[E1 E2]|[(E1 & E2 & E3)|(E1 & E2 & E3)]].
        + by rewrite E1.
        + rewrite E2. rewrite E1 in R4. split; [congruence|]. intros H. apply R4 in H. done.
        + rewrite E2. rewrite E1 in R4. split; [done|]. intros H. apply R4 in H. congruence. }
    split; simpl; rewrite ?Hpcs; try done.
    - unfold hpc, hph. simpl. rewrite Hpcs. destruct (holder y) as [th|] eqn:Eh.
      + destruct (decide (th = t)) as [->|Hne].
        * rewrite !fn_lookup_insert. specialize (Hlock t). rewrite fn_lookup_insert in Hlock.
          assert (crit p' = true) as Hcr by (by apply Hlock). rewrite Hcr in Hsh. apply Hsh. by right.
        * rewrite !fn_lookup_insert_ne by done.
          assert (holder x = Some th) as Ex.
          { destruct Hlk as [[E1 E2]|[(E1 & E2 & E3)|(E1 & E2 & E3)]]; congruence. }
          unfold hpc, hph in Hsh2. rewrite Ex in Hsh2. apply Hsh2; [done|congruence|].
          right. specialize (Hlock t). rewrite fn_lookup_insert in Hlock. destruct (crit p'); [|done].
          destruct Hlock as [_ Hl]. specialize (Hl eq_refl). congruence.
      + assert (crit p' = false) as Hcr.
        { specialize (Hlock t). rewrite fn_lookup_insert in Hlock. destruct (crit p'); [|done].
          destruct Hlock as [_ Hl]. by specialize (Hl eq_refl). }
        rewrite Hcr in Hsh. specialize (Hsh (or_introl eq_refl)). simpl in *. done.
    - intros t'. destruct (decide (t' = t)) as [->|Hne]; [by rewrite !fn_lookup_insert|].
      rewrite !fn_lookup_insert_ne by done. specialize (R6 t'). specialize (Hpriv t').
      assert (Hmono : forall n (v : T), val_is (mem x) n v -> val_is (mem y) n v) by done.
      destruct (pcs x t') eqn:Ep; simpl in *; try done.
      + destruct R6 as (v & ? & ? & ?). destruct (Hpriv n _ Hne eq_refl ltac:(done) ltac:(done)). by exists v.
      + destruct R6 as (v & ? & ? & ?). destruct (Hpriv n _ Hne eq_refl ltac:(done) ltac:(done)). by exists v.
      + destruct R6 as (v & ? & ? & ?). destruct (Hpriv n _ Hne eq_refl ltac:(done) ltac:(done)). by exists v.
      + destruct R6 as (v & ? & ? & ?). destruct (Hpriv n _ Hne eq_refl ltac:(done) ltac:(done)). by exists v.
      + destruct R6 as (v & ? & ?). exists v. split; [done|]. by apply Hmono.
      + destruct R6 as (v & ? & ?). exists v. split; [done|]. by apply Hmono.
      + destruct R6 as (r & ? & Hr). exists r. split; [done|]. destruct n; [|done]. destruct Hr as (v & ? & ?). exists v. split; [done|]. by apply Hmono.
      + destruct R6 as (r & ? & Hr). exists r. split; [done|]. destruct n; [|done]. destruct Hr as (v & ? & ?). exists v. split; [done|]. by apply Hmono.
    - assert (Hfresh : forall t' n, t' <> t -> priv (pcs x t') = Some n -> priv p' = Some n -> False).
      { intros t' n Hne H1 H2. destruct (Hp _ H2) as [H3|H3].
        - apply Hne. by eapply R7.
        - specialize (R6 t'). destruct (pcs x t'); simpl in *; simplify_eq; destruct R6 as (v & _ & Hm & _); by rewrite Hm in H3. }
      intros t1 t2 n. destruct (decide (t1 = t)) as [->|H1], (decide (t2 = t)) as [->|H2]; try done.
      + rewrite fn_lookup_insert, fn_lookup_insert_ne by done. intros. exfalso. by eapply (Hfresh t2).
      + rewrite fn_lookup_insert, fn_lookup_insert_ne by done. intros. exfalso. by eapply (Hfresh t1).
      + rewrite !fn_lookup_insert_ne by done. apply R7.
  Qed.
  Lemma rel_ext x s ph ph' L : (forall t, ph t = ph' t) -> Rel x s ph L -> Rel x s ph' L.
  Proof.
    intros E [R1 R2 R3 R4 R5 R6 R7]. split; try done.
    - assert (hph x ph' = hph x ph) as ->; [|done]. unfold hph. destruct (holder x); [by rewrite E|done].
    - intros t. rewrite <- E. apply R6.
  Qed.
  Lemma shape_mono p m m' L tl c s a : (forall n (v : T), val_is m n v -> val_is m' n v) ->
    shape p m L tl c s a -> shape p m' L tl c s a.
  Proof.
    intros Hm. destruct p; simpl; try (intros H; exact H); intros (v & Hv & ?); exists v; (split; [by apply Hm|done]).
  Qed.
  Lemma shape_len p m L tl c s a : shape p m L tl c s a -> c = Z.of_nat (length s).
  Proof.
    assert (Hn : normal L tl c s -> c = Z.of_nat (length s)).
    { intros (_ & -> & ->). by rewrite fmap_length. }
    destruct p; simpl; try exact Hn; try (intros [H _]; by apply Hn).
    - intros (L' & v & -> & _ & -> & -> & _). by rewrite fmap_length.
    - intros (L' & v & -> & _ & -> & -> & _). by rewrite fmap_length.
    - intros (v & _ & _ & -> & ->). simpl. rewrite fmap_length. lia.
    - intros (v & _ & _ & -> & ->). simpl. rewrite fmap_length. lia.
    - intros (v & _ & _ & -> & ->). simpl. rewrite fmap_length. lia.
  Qed.
  Definition good (x : sys T) s ph (t : nat) (p' : pc T) (y : sys T) : Prop :=
    exists ms s' ph', actions fifo s ph ms s' ph' /\ history ms = [] /\ exists L', Rel (set_pc t p' y) s' ph' L'.
  Lemma good_silent x s ph t p' y L' : Rel (set_pc t p' y) s (<[t := ph t]> ph) L' -> good x s ph t p' y.
  Proof.
    intros H. exists [], s, ph. split; [constructor|]. split; [done|]. exists L'. eapply rel_ext; [|exact H].
    intros t'. destruct (decide (t' = t)) as [->|]; [by rewrite fn_lookup_insert|by rewrite fn_lookup_insert_ne].
  Qed.
  Lemma good_eff x s s' ph t p' y L' o r : ph t = Pending o -> fifo s o r s' ->
    Rel (set_pc t p' y) s' (<[t := Effected o r]> ph) L' -> good x s ph t p' y.
  Proof.
    intros Hp Hf H. exists [Eff t o r], s', (<[t := Effected o r]> ph). split; [by econstructor; [done|done|constructor]|].
    split; [done|]. by exists L'.
  Qed.

  (** the four kinds of steps *)
  Lemma rel_private x s ph L t p' a' : Rel x s ph L -> crit p' = false -> crit (pcs x t) = false ->
    loc_ok (mem x) L p' a' -> (forall n, priv p' = Some n -> priv (pcs x t) = Some n) ->
    Rel (set_pc t p' x) s (<[t := a']> ph) L.
  Proof.
    intros R H1 H2 H3 H4. eapply rel_upd; try done; try apply R; eauto.
    - rewrite H1. intros [Hh|Hh].
      + pose proof (r_shape _ _ _ _ R) as Hs. unfold hpc in Hs. by rewrite Hh in Hs.
      + apply R in Hh. congruence.
    - intros _ _ _. apply R.
  Qed.
  Lemma rel_acquire x s ph L t p' : Rel x s ph L -> holder x = None -> crit p' = true -> crit (pcs x t) = false ->
    (normal L (tl x) (cnt x) s -> shape p' (mem x) L (tl x) (cnt x) s (ph t)) ->
    loc_ok (mem x) L p' (ph t) -> (forall n, priv p' = Some n -> priv (pcs x t) = Some n) ->
    Rel (set_pc t p' (Sys (mem x) (nxt x) (Some t) (qhead x) (tl x) (cnt x) (pcs x))) s (<[t := ph t]> ph) L.
  Proof.
    intros R H1 H2 H3 H4 H5 H6. eapply rel_upd; try done; try apply R; eauto; simpl.
    - rewrite H2. intros _. apply H4. pose proof (r_shape _ _ _ _ R) as Hs. unfold hpc in Hs. by rewrite H1 in Hs.
  Qed.
  Lemma rel_crit x s s' ph L L' t p' m' hd' tl' c' h' a' : Rel x s ph L -> holder x = Some t ->
    h' = (if crit p' then Some t else None) ->
    chain m' hd' L' -> NoDup L'.*1 -> 
    (forall n, is_Some (m' !! n) -> is_Some (mem x !! n)) ->
    (forall n (v : T), val_is (mem x) n v -> val_is m' n v) ->
    (forall t' n d, t' <> t -> priv (pcs x t') = Some n -> mem x !! n = Some d -> n ∉ L.*1 -> m' !! n = Some d /\ n ∉ L'.*1) ->
    shape (if crit p' then p' else Quiet) m' L' tl' c' s' a' ->
    loc_ok m' L' p' a' ->
    (forall n, priv p' = Some n -> priv (pcs x t) = Some n) ->
    Rel (set_pc t p' (Sys m' (nxt x) h' hd' tl' c' (pcs x))) s' (<[t := a']> ph) L'.
  Proof.
    intros R H1 -> Hc Hnd Hdom Hv Hpr Hsh Hloc Hp.
    assert (Hcr : crit (pcs x t) = true) by (by apply R).
    eapply rel_upd; try done; simpl; eauto.
    - intros n Hn. apply R. by apply Hdom.
    - destruct (crit p') eqn:E; [left|right; right]; rewrite ?H1; done.
    - destruct (crit p'); done.
  Qed.

  Lemma step_good x s ph L t p' y : Rel x s ph L -> tstep t x p' y -> good x s ph t p' y.
  Proof.
    intros R Hst.
    assert (Hloc := r_loc _ _ _ _ R t). assert (Hlk := r_lock _ _ _ _ R t).
    assert (Hshape := r_shape _ _ _ _ R). unfold hpc, hph in Hshape.
    assert (Hcc := r_chain _ _ _ _ R). assert (Hnd := r_nodup _ _ _ _ R).
    destruct Hst as [m k h hd tl c p v Hp|m k hd tl c p n Hp|m k h hd tl c p n Hp|m k h hd tl c p n Hp
      |m k h hd a c p n Hp|m k h hd c p n Hp|m k h hd tl c p n Hp|m k h hd tl c p n Hp|m k h hd tl c p n Hp
      |m k hd tl c p Hp|m k h hd tl c p Hp|m k h hd tl c p n d Hp Hd|m k h hd tl c p Hp|m k h hd tl c p n Hp
      |m k h hd tl c p n Hp|m k h hd tl c p n Hp|m k h hd tl c p n Hp|m k h hd tl c p n d Hp Hd
      |m k hd tl c p Hp|m k h hd tl c p Hp|m k h hd tl c p n Hp|m k h hd tl c p n d Hp Hd|m k h hd tl c p Hp
      |m k h hd tl c p Hp|m k h hd tl c p Hp|m k h hd tl c p Hp]; simpl in *; rewrite Hp in Hloc, Hlk; simpl in Hloc, Hlk;
      try (destruct Hlk as [_ Hlk]; specialize (Hlk eq_refl); subst h; rewrite Hp in Hshape; simpl in Hshape).
    - (* new node *)
      eapply good_silent with (L' := L).
      assert (Hk : m !! k = None). { destruct (m !! k) eqn:E; [|done]. assert (k < k) by (apply (r_bound _ _ _ _ R); simpl; by rewrite E). lia. }
      assert (HkL : k ∉ L.*1). { intros Hi. apply (chain_in_fst _ _ _ _ Hcc) in Hi. rewrite Hk in Hi. by destruct Hi. }
      assert (Hval : forall n (w : T), val_is m n w -> val_is (<[k:=Node v None]> m) n w).
      { intros n w Hn. unfold val_is in *. destruct (decide (n = k)) as [->|]; [by rewrite Hk in Hn|by rewrite lookup_insert_ne]. }
      eapply rel_upd; [exact R|done|..]; simpl.
      + eapply chain_frame; [|done]. intros n Hn. rewrite lookup_insert_ne; [done|]. intros ->. done.
      + done.
      + intros n Hn. destruct (decide (n = k)); [lia|]. rewrite lookup_insert_ne in Hn by done. apply (r_bound _ _ _ _ R) in Hn. simpl in Hn. lia.
      + exact Hval.
      + intros t' n d _ _ Hm Hn. split; [|done]. rewrite lookup_insert_ne; [done|]. intros ->. congruence.
      + left. by rewrite Hp.
      + intros [->| ->]; [by eapply (shape_mono Quiet); [apply Hval|]|].
        by destruct Hlk as [Hlk _]; specialize (Hlk eq_refl).
      + intros _ _ _. unfold hpc, hph. simpl. eapply shape_mono; [apply Hval|done].
      + exists v. rewrite lookup_insert. done.
      + intros n [= <-]. by right.
    - eapply good_silent with (L' := L). apply (rel_acquire (Sys m k None hd tl c p)); simpl; try done; by rewrite Hp.
    - (* test *)
      eapply good_silent with (L' := L). destruct hd as [h|]; eapply (rel_crit (Sys m k (Some t) _ tl c p)); simpl; try done; eauto.
      + split; [done|]. by intros ->.
      + rewrite Hp. done.
      + split; [done|]. destruct L as [|[]]; [done|]. by destruct Hcc.
      + rewrite Hp. done.
    - (* push head *)
      destruct Hloc as (v & Ha & Hn & HnL). destruct Hshape as [(-> & -> & ->) ->].
      eapply good_silent with (L' := [(n, v)]). eapply (rel_crit (Sys m k (Some t) _ _ _ p)); simpl; try done; eauto.
      + repeat constructor. by apply not_elem_of_nil.
      + intros t' n' d Hne Hp' Hd _. split; [done|]. apply not_elem_of_cons. split; [|apply not_elem_of_nil].
        intros ->. apply Hne. eapply (r_priv _ _ _ _ R); simpl; [exact Hp'|by rewrite Hp].
      + exists [], v. done.
    - (* push next *)
      destruct Hloc as (v & Ha & Hn & HnL). destruct Hshape as [(Htl & -> & ->) HL].
      eapply good_silent with (L' := L ++ [(n, v)]). eapply (rel_crit (Sys m k (Some t) _ _ _ p)); simpl; try done; eauto.
      + by apply chain_snoc.
      + rewrite fmap_app. apply NoDup_app. splits; [done| |repeat constructor; by apply not_elem_of_nil].
        intros b Hb Hb'. apply elem_of_list_singleton in Hb'. simpl in Hb'. by subst.
      + intros n' Hn'. unfold set_next in Hn'. destruct (decide (n' = a)) as [->|].
        * rewrite lookup_alter in Hn'. by apply fmap_is_Some in Hn'.
        * by rewrite lookup_alter_ne in Hn'.
      + intros n' w. unfold val_is. by rewrite set_next_val.
      + intros t' n' d Hne Hp' Hd Hn'. split.
        * rewrite set_next_lookup; [done|]. intros ->. apply Hn'. by apply last_Some_elem_of.
        * rewrite fmap_app. apply not_elem_of_app. split; [done|]. apply not_elem_of_cons. split; [|apply not_elem_of_nil].
          simpl. intros ->. apply Hne. eapply (r_priv _ _ _ _ R); simpl; [exact Hp'|by rewrite Hp].
      + exists L, v. done.
    - (* push next: tail is never nil here *)
      destruct Hshape as [(Htl & _ & _) HL]. symmetry in Htl. apply last_None in Htl. by apply fmap_nil_inv in Htl.
    - (* push tail *)
      destruct Hshape as (L' & v & -> & -> & -> & -> & Ha).
      eapply good_silent with (L' := _). eapply (rel_crit (Sys m k (Some t) _ _ _ p)); simpl; try done; eauto.
      + by exists L', v.
    - (* push count *)
      destruct Hshape as (L' & v & -> & -> & -> & -> & Ha).
      eapply good_eff with (L' := L' ++ [(n, v)]); [done|constructor|].
      eapply (rel_crit (Sys m k (Some t) _ _ _ p)); simpl; try done; eauto.
      + split; [rewrite fmap_app; cbn [fmap list_fmap]; by rewrite last_snoc|]. rewrite app_length, fmap_app. simpl. split; [lia|done].
    - (* push unlock *)
      eapply good_silent with (L' := L). eapply (rel_crit (Sys m k (Some t) _ _ _ p)); simpl; try done; eauto.
      destruct Hloc as [v ->]. by eexists.
    - eapply good_silent with (L' := L). apply (rel_acquire (Sys m k None hd tl c p)); simpl; try done; by rewrite Hp.
    - (* pop read *)
      eapply good_silent with (L' := L). eapply (rel_crit (Sys m k (Some t) _ _ _ p)); simpl; try done; eauto.
      split; [done|]. destruct L as [|[]]; simpl in *; [done|]. by destruct Hcc.
    - (* pop head *)
      destruct Hshape as [(-> & -> & ->) HL]. destruct L as [|[n' v] L]; [done|]. simpl in HL. injection HL as ->.
      destruct Hcc as [-> (o' & Hn & Hcc)]. rewrite Hn in Hd. injection Hd as <-. 
      rewrite fmap_cons in Hnd. apply NoDup_cons in Hnd as [HnL Hnd]. simpl in HnL.
      eapply good_silent with (L' := L). eapply (rel_crit (Sys m k (Some t) _ _ _ p)); simpl; try done; eauto.
      + intros t' n d _ _ ? Hni. split; [done|]. by apply not_elem_of_cons in Hni as [_ ?].
      + exists v. unfold val_is. rewrite Hn. splits; try done. lia.
    - (* pop of empty *)
      destruct Hshape as [(-> & -> & ->) HL]. destruct L as [|[n' v] L]; [|done].
      eapply good_eff with (L' := []); [done|constructor|].
      eapply (rel_crit (Sys m k (Some t) _ _ _ p)); simpl; try done; eauto.
    - (* pop test *)
      destruct Hshape as (v & Hv & -> & -> & ->).
      eapply good_silent with (L' := L). destruct hd as [h|]; eapply (rel_crit (Sys m k (Some t) _ _ _ p)); simpl; try done; eauto.
      + exists v. splits; try done. destruct L as [|[]]; done.
      + exists v. splits; try done. destruct L as [|[]]; [done|]. by destruct Hcc.
    - (* pop tail *)
      destruct Hshape as (v & Hv & -> & -> & ->).
      eapply good_silent with (L' := []). eapply (rel_crit (Sys m k (Some t) _ _ _ p)); simpl; try done; eauto.
    - (* pop count *)
      destruct Hshape as (v & Hv & -> & -> & ->).
      eapply good_eff with (L' := L); [done|constructor|].
      eapply (rel_crit (Sys m k (Some t) _ _ _ p)); simpl; try done; eauto.
      split; [done|]. split; [lia|done].
    - (* pop unlock *)
      eapply good_silent with (L' := L). eapply (rel_crit (Sys m k (Some t) _ _ _ p)); simpl; try done; eauto.
    - (* pop val *)
      eapply good_silent with (L' := L). apply rel_private; simpl; try done; [by rewrite Hp|].
      destruct Hloc as (v & Ha & Hv). unfold val_is in Hv. rewrite Hd in Hv. injection Hv as ->. by exists OPop.
    - eapply good_silent with (L' := L). apply (rel_acquire (Sys m k None hd tl c p)); simpl; try done; by rewrite Hp.
    - (* peek read *)
      destruct Hshape as (-> & -> & ->). destruct L as [|[n v] L]; simpl in Hcc.
      + subst hd. eapply good_eff with (L' := []); [done|constructor|].
        eapply (rel_crit (Sys m k (Some t) _ _ _ p)); simpl; try done; eauto.
      + pose proof Hcc as [-> (o' & Hn & _)]. eapply good_eff with (L' := (n, v) :: L); [done|constructor|].
        eapply (rel_crit (Sys m k (Some t) _ _ _ p)); simpl; try done; eauto.
        exists (RVal v). split; [done|]. exists v. split; [done|]. unfold val_is. by rewrite Hn.
    - eapply good_silent with (L' := L). eapply (rel_crit (Sys m k (Some t) _ _ _ p)); simpl; try done; eauto.
    - eapply good_silent with (L' := L). apply rel_private; simpl; try done; [by rewrite Hp|].
      destruct Hloc as (r & Ha & v & -> & Hv). unfold val_is in Hv. rewrite Hd in Hv. injection Hv as ->. by exists OPeek.
    - eapply good_silent with (L' := L). apply rel_private; simpl; try done; [by rewrite Hp|].
      destruct Hloc as (r & Ha & ->). by exists OPeek.
    - eapply good_silent with (L' := L). eapply (rel_crit (Sys m k (Some t) _ _ _ p)); simpl; try done; eauto.
    - apply shape_len in Hshape. subst c. eapply good_eff with (L' := L); [done|constructor|].
      apply rel_private; simpl; try done; [by rewrite Hp|]. by eexists.
    - apply shape_len in Hshape. subst c. eapply good_eff with (L' := L); [done|apply F_empty|].
      2:{ apply rel_private; simpl; try done; [by rewrite Hp|]. by eexists. }
      rewrite bool_decide_eq_true. destruct s; simpl; [done|]. split; [lia|done].
  Qed.
  Lemma rel_init : Rel sys_init [] (fun _ => Idle) [].
  Proof.
    split; simpl; try done; try constructor.
    - intros n [d H]. by rewrite lookup_empty in H.
  Qed.
  Lemma qstep_sim x l y s ph : (exists L, Rel x s ph L) -> qstep x l y ->
    exists ms s' ph', actions fifo s ph ms s' ph' /\ history ms = option_list l /\ exists L', Rel y s' ph' L'.
  Proof.
    intros [L R] Hst. destruct Hst as [x t o Hp|x t p y Hst|x t r Hp].
    - exists [Ev (Call t o)], s, (<[t := Pending o]> ph).
      assert (Hl := r_loc _ _ _ _ R t). rewrite Hp in Hl. simpl in Hl.
      split; [by econstructor; [done|constructor]|]. split; [done|]. exists L.
      apply rel_private; [done|by destruct o|by rewrite Hp|by destruct o|by destruct o].
    - by eapply step_good.
    - assert (Hl := r_loc _ _ _ _ R t). rewrite Hp in Hl. simpl in Hl. destruct Hl as [o Hl].
      exists [Ev (Return t r)], s, (<[t := Idle]> ph).
      split; [by econstructor; [done|constructor]|]. split; [done|]. exists L.
      apply rel_private; [done|done|by rewrite Hp|done|done].
  Qed.
  Lemma queue_linearizable h x : exec qstep (sys_init (T:=T)) h x -> linearizable fifo [] h.
  Proof.
    intros He.
    destruct (simulation fifo qstep (fun x s ph => exists L, Rel x s ph L) sys_init []
      (ex_intro _ _ rel_init) (fun x l y s ph => qstep_sim x l y s ph) h x He) as (ms & s & ph & HL & _).
    by exists ms, s.
  Qed.
  (** the abstract contents are what is stored, whenever nobody holds the lock *)
  Lemma queue_rel h x : exec qstep (sys_init (T:=T)) h x -> exists ms s ph L, linearizes fifo [] h ms s /\ Rel x s ph L.
  Proof.
    intros He.
    destruct (simulation fifo qstep (fun x s ph => exists L, Rel x s ph L) sys_init []
      (ex_intro _ _ rel_init) (fun x l y s ph => qstep_sim x l y s ph) h x He) as (ms & s & ph & HL & L & R).
    by exists ms, s, ph, L.
  Qed.
  (** a goroutine in a call can always take a step, or waits for the lock holder, who can *)
  Definition wants_lock (p : pc T) : bool := match p with PushLock _ | PopLock | PeekLock => true | _ => false end.
  Lemma thread_progress x s ph L t : Rel x s ph L -> pcs x t <> Quiet -> (forall r, pcs x t <> Ready r) ->
    (wants_lock (pcs x t) = true -> holder x = None) -> exists p' y, tstep t x p' y.
  Proof.
    intros R Hq Hr Hw. assert (Hl := r_loc _ _ _ _ R t). assert (Hlk := r_lock _ _ _ _ R t).
    assert (Hshape := r_shape _ _ _ _ R). unfold hpc, hph in Hshape. assert (Hcc := r_chain _ _ _ _ R).
    destruct x as [m k h hd tl c p]. simpl in *.
    destruct (p t) eqn:Hp; simpl in *; try done; try (by eexists _, _; econstructor; eauto);
      try (rewrite (Hw eq_refl); by eexists _, _; econstructor; eauto).
    - destruct tl; eexists _, _; [by eapply t_push_next|by eapply t_push_next_nil].
    - destruct n as [n|]; [|eexists _, _; by eapply t_pop_head_nil].
      destruct Hlk as [_ Hlk]. specialize (Hlk eq_refl). subst h. rewrite Hp in Hshape. simpl in Hshape.
      destruct Hshape as [_ HL]. destruct L as [|[n' v] L]; [done|]. injection HL as ->.
      destruct Hcc as [_ (o' & Hn & _)]. eexists _, _; by eapply t_pop_head.
    - destruct Hl as (v & _ & Hv). unfold val_is in Hv. destruct (m !! n) eqn:E; [|done]. eexists _, _; by eapply t_pop_val.
    - destruct n as [n|]; [|eexists _, _; by eapply t_peek_val_nil].
      destruct Hl as (r & _ & v & _ & Hv). unfold val_is in Hv. destruct (m !! n) eqn:E; [|done]. eexists _, _; by eapply t_peek_val.
    - by destruct (Hr r).
  Qed.
  Lemma queue_no_deadlock h x t : exec qstep (sys_init (T:=T)) h x -> pcs x t <> Quiet ->
    exists l y, qstep x l y /\ (forall t o, l <> Some (Call t o)).
  Proof.
    intros He Hq. destruct (queue_rel h x He) as (ms & s & ph & L & _ & R).
    assert (G : forall t, pcs x t <> Quiet -> (wants_lock (pcs x t) = true -> holder x = None) ->
      exists l y, qstep x l y /\ (forall t o, l <> Some (Call t o))).
    { intros t' Hq' Hw. destruct (pcs x t') eqn:Ep; [done|..]; try (by destruct (thread_progress x s ph L t' R) as (p' & y & Hst);
        [by rewrite Ep|by rewrite Ep|by rewrite Ep|]; eexists None, _; split; [eapply q_silent; exact Hst|done]).
      eexists (Some (Return t' r)), _. split; [by eapply q_return|done]. }
    destruct (holder x) as [th|] eqn:Eh.
    - apply (G th); destruct (r_lock _ _ _ _ R th) as [Hc _]; specialize (Hc Eh); by destruct (pcs x th).
    - by apply (G t).
  Qed.
  (** when no call is in progress the lock is free *)
  Lemma queue_lock_free h x : exec qstep (sys_init (T:=T)) h x -> (forall t, pcs x t = Quiet) -> holder x = None.
  Proof.
    intros He Hq. destruct (queue_rel h x He) as (ms & s & ph & L & _ & R). destruct (holder x) as [t|] eqn:E; [|done].
    apply (r_lock _ _ _ _ R) in E. by rewrite Hq in E.
  Qed.
End conc.
