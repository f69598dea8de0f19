(** Lock-free skip list: running alone, calls on a quiet list, Len and Rank. *)
From stdpp Require Import functions.
From stdpp Require Import list.
From Verif Require Import Base Lin_Spec Lin_Proofs Lin_Hindsight LockFree_Model LockFree_Spec LockFree_Proofs LockFree_Proofs2 LockFree_Proofs3 LockFree_Proofs4 LockFree_Proofs5 LockFree_Proofs6 LockFree_Proofs7 LockFree_Proofs8.

Section lf.
  Context {T : Type} (zero : T) (comp : T -> T -> Z) (H : cmp_ok comp).
  Notation node := (node T).
  Notation heap_t := (list node).
  Notation HI := (HI comp).
  Notation RI := (RI zero comp).
  Notation R := (R zero comp).
  Notation elt := (elt comp).
  Notation step := (step comp).
  Notation tstep := (tstep comp).
  Notation legal := (set_legal zero comp).
  Notation halts := (halts comp).
  Notation alone := (alone comp).

  (** ** Running alone *)
  Lemma alone_pc t k x y p : alone t k x y -> pcs x !! t = Some p -> exists q, pcs y !! t = Some q.
  Proof.
    intros A Ep. destruct A as [x|k x m ps m' p' top _ (q & Eq & _) _]; [by exists p|]. exists p'. cbn [pcs]. apply list_lookup_insert. by eapply lookup_lt_Some.
  Qed.
  Lemma alone_halts t k x y p N : alone t k x y -> pcs x !! t = Some p -> halts N (shared x) p ->
    k <= N /\ exists q, pcs y !! t = Some q /\ halts (N - k) (shared y) q.
  Proof.
    intros A Ep Hh. induction A as [x|k x m ps m' p' top A IH (q & Eq & Hr & Es) Ht].
    - split; [lia|]. exists p. rewrite Nat.sub_0_r. done.
    - destruct (IH Ep Hh) as (L & q' & Eq' & Hq). cbn [pcs shared] in *. rewrite Eq in Eq'. injection Eq' as <-.
      inversion Hq as [? ? ? Hr'|N' ? ? F E1]; subst; [congruence|]. split; [lia|]. exists p'. split; [apply list_lookup_insert; by eapply lookup_lt_Some|].
      replace (N - S k) with N' by lia. by eapply F.
  Qed.
  Lemma alone_R t k x y : alone t k x y -> (exists s ph past, R x s ph past) -> exists s ph past, R y s ph past.
  Proof.
    intros A (s & ph & past & Rx). induction A as [x|k x m ps m' p' top A IH (q & Eq & Hr & Es) Ht]; [by exists s, ph, past|].
    destruct (IH Rx) as (s1 & ph1 & past1 & (pub & ch & Rr)). cbn [shared pcs] in Rr.
    destruct (tstep_ok zero comp H _ _ _ _ _ _ _ t q top Rr Eq Hr Ht) as (m1 & p1 & s' & ph' & past' & E' & _ & Rr' & _). rewrite Es in E'. injection E' as <- <-. eauto.
  Qed.
  Lemma alone_finishes n h x t p : exec step (sys_init zero n) h x -> pcs x !! t = Some p ->
    exists N, (forall k y, alone t k x y -> k <= N) /\
      (forall k y, alone t k x y -> exists q, pcs y !! t = Some q /\ (running q = true -> exists z, alone t (S k) x z)).
  Proof.
    intros E Ep. destruct (reach zero comp H _ _ _ E) as (ms & s & ph & past & _ & Rx). pose proof Rx as (pub & ch & Rr).
    destruct (term_any zero comp H (shared x) p) as [N HN]; [exists (pcs x), t, s, ph, past, pub, ch; done|]. exists N. split.
    - intros k y A. by destruct (alone_halts _ _ _ _ _ _ A Ep HN).
    - intros k y A. destruct (alone_pc _ _ _ _ _ A Ep) as [q Eq]. exists q. split; [done|]. intros Hr.
      destruct (alone_R _ _ _ _ A) as (s1 & ph1 & past1 & (pub1 & ch1 & Rr1)); [eauto|].
      assert (Ht : random_level 1) by (unfold random_level, max_level; lia).
      destruct (tstep_ok zero comp H _ _ _ _ _ _ _ t q 1 Rr1 Eq Hr Ht) as (m1 & p1 & s' & ph' & past' & E' & _). destruct y as [m ps]. cbn [shared pcs] in *.
      exists (Sys m1 (<[t := p1]> ps)). eapply alone_S; [done|by exists q|done].
  Qed.

  (** ** A call on a quiet list *)
  Lemma alone_exec t k x y h x0 : alone t k x y -> exec step x0 h x -> exec step x0 h y.
  Proof.
    intros A E. induction A as [x|k x m ps m' p' top A IH (q & Eq & Hr & Es) Ht]; [done|]. eapply exec_silent; [by apply IH|]. by eapply s_silent.
  Qed.
  Lemma found_not_quiet m k v prevs succs cur top m' p' : found comp m k v prevs succs cur top = Ok (m', p') -> p' <> Quiet.
  Proof.
    intros E ->. destruct k as [|l new| | | |r]; cbn [found] in E; try done.
    - destruct (equals comp (heap m) cur v) as [[|]| |]; cbn [rbind] in E; done.
    - destruct (equals comp (heap m) cur v) as [[|]| |]; cbn [rbind] in E; try done. destruct cur as [c|]; cbn [deref rbind] in E; [|done]. by destruct (heap m !! c).
    - destruct (equals comp (heap m) cur v) as [[|]| |]; cbn [rbind] in E; done.
    - destruct cur as [c|]; cbn [deref rbind] in E; [|done]. by destruct (heap m !! c).
  Qed.
  Lemma tstep_not_quiet m p top m' p' : tstep m p top = Ok (m', p') -> running p = true -> p' <> Quiet.
  Proof.
    intros E Hr ->. destruct p as [|k v prevs succs [l prev|l prev cur|l prev cur next]|v new prevs succs|l v new prevs succs| |v l nd|v l nd next| | |v|r]; cbn [LockFree_Model.tstep] in E; try done.
    - destruct (load_next _ _ _); cbn [rbind] in E; done.
    - destruct (load_next _ _ _) as [x| |]; cbn [rbind] in E; try done. destruct (is_marked x); [done|]. destruct (less _ _ _ _) as [[|]| |]; cbn [rbind] in E; try done.
      destruct l; [|done]. by eapply found_not_quiet.
    - destruct (cas_next _ _ _ _ _) as [[[|] h]| |]; cbn [rbind] in E; done.
    - destruct (prevs !! 0); cbn [deref rbind] in E; [|done]. destruct (succs !! 0); cbn [deref rbind] in E; [|done].
      destruct (cas_next _ _ _ _ _) as [[[|] h]| |]; cbn [rbind] in E; try done. destruct (h !! new); cbn [deref rbind] in E; [|done]. unfold add_next in E. by destruct (decide _).
    - destruct (prevs !! l); cbn [deref rbind] in E; [|done]. destruct (succs !! l); cbn [deref rbind] in E; [|done].
      destruct (cas_next _ _ _ _ _) as [[[|] h]| |]; cbn [rbind] in E; try done. destruct (h !! new); cbn [deref rbind] in E; [|done]. unfold add_next in E. by destruct (decide _).
    - destruct (load_next _ _ _) as [x| |]; cbn [rbind] in E; try done. destruct (is_marked x); [|done]. by destruct l.
    - destruct (cas_next _ _ _ _ _) as [[b h]| |]; cbn [rbind] in E; try done. destruct l; [|done]. by destruct b.
    - cbv zeta in E. by destruct (decide _).
  Qed.
  Lemma call_completes n h x t o p : exec step (sys_init zero n) h x -> pcs x !! t = Some p -> p = Quiet ->
    exists r y, exec step x [Call t o; Return t r] y.
  Proof.
    intros E Ep ->. destruct x as [m ps]. cbn [pcs] in Ep. set (x1 := Sys m (<[t := start o]> ps)).
    assert (St : step (Sys m ps) (Some (Call t o)) x1) by by apply s_call.
    assert (E1 : exec step (sys_init zero n) (h ++ [Call t o]) x1) by (by eapply exec_event).
    assert (Ep1 : pcs x1 !! t = Some (start o)) by (cbn; apply list_lookup_insert; by eapply lookup_lt_Some).
    destruct (alone_finishes _ _ _ _ _ E1 Ep1) as (N & B & P).
    assert (G : forall d k y, alone t k x1 y -> N - k <= d -> exists k' z q, alone t k' x1 z /\ pcs z !! t = Some q /\ running q = false).
    { induction d as [|d IH]; intros k y A D; destruct (P k y A) as (q & Eq & F); destruct (running q) eqn:Hr; eauto 6; destruct (F eq_refl) as [z Az]; pose proof (B _ _ Az); [lia|].
      eapply (IH (S k)); [done|lia]. }
    destruct (G N 0 x1) as (k & z & q & A & Eq & Hq); [constructor|lia|].
    assert (E2 : exec step (sys_init zero n) (h ++ [Call t o]) z) by (by eapply alone_exec).
    assert (E3 : exec step (Sys m ps) [Call t o] z).
    { eapply alone_exec; [done|]. apply (exec_event _ _ _ [] _ _ (exec_nil _ _) St). }
    destruct q as [| | | | | | | | | |r]; try done.
    - exfalso. clear -A Eq Ep1. destruct A as [x|k x m' ps' m2 p2 top A (q & Eq' & Hr & Es) Ht].
      + rewrite Ep1 in Eq. by destruct o.
      + cbn [pcs] in Eq. rewrite list_lookup_insert in Eq by (by eapply lookup_lt_Some). injection Eq as ->. by eapply tstep_not_quiet.
    - destruct z as [m1 ps1]. cbn [pcs] in Eq. exists r, (Sys m1 (<[t := Quiet]> ps1)). apply (exec_event _ _ _ [Call t o] _ _ E3). by apply s_return.
  Qed.

  (** the events of one goroutine, the others being quiet *)
  Lemma solo_exec x t o (Inv : mem T -> pc T -> Prop) : quiet x -> Inv (shared x) (start o) ->
    (forall m p top m' p', Inv m p -> running p = true -> random_level top -> tstep m p top = Ok (m', p') -> Inv m' p') ->
    forall h y, exec step x h y ->
      (h = [] -> y = x) /\
      (h = [Call t o] -> exists p, t < length (pcs x) /\ pcs y = <[t := p]> (pcs x) /\ Inv (shared y) p) /\
      (forall r, h = [Call t o; Return t r] -> Inv (shared y) (Ready r) /\ pcs y = pcs x).
  Proof.
    intros Q I0 Is h y E. induction E as [c|c c1 h c2 E IH St|c c1 h e c2 E IH St].
    - splits; done.
    - destruct (IH Q I0) as (IH0 & IH1 & IH2). inversion St as [|m ps u p top m' p' Ep Hr Ht Es|]; subst; clear St. cbn [shared pcs] in *. splits.
      + intros ->. rewrite <-(IH0 eq_refl) in Q. rewrite (Q _ _ Ep) in Hr. done.
      + intros ->. destruct (IH1 eq_refl) as (q & Lt & -> & Hi). exists p'. destruct (decide (u = t)) as [->|N].
        * rewrite list_lookup_insert in Ep by done. injection Ep as ->. rewrite list_insert_insert. splits; [done|done|]. by eapply Is.
        * rewrite list_lookup_insert_ne in Ep by done. rewrite (Q _ _ Ep) in Hr. done.
      + intros r ->. destruct (IH2 r eq_refl) as (Hi & ->). rewrite (Q _ _ Ep) in Hr. done.
    - destruct (IH Q I0) as (IH0 & IH1 & IH2). splits.
      + intros F. by destruct h.
      + intros F. destruct h as [|e' h]; [|by destruct h]. injection F as ->. rewrite (IH0 eq_refl) in *. inversion St as [m ps u o' Ep| |]; subst; cbn [shared pcs] in *.
        exists (start o). splits; [by eapply lookup_lt_Some|done|done].
      + intros r F. destruct h as [|e' [|e'' h]]; [done| |by destruct h]. injection F as -> ->. destruct (IH1 eq_refl) as (q & Lt & Eq & Hi).
        inversion St as [| |m ps u r' Ep]; subst; cbn [shared pcs] in *. rewrite Eq in Ep |- *. rewrite list_lookup_insert in Ep by done. injection Ep as ->. split; [done|].
        rewrite list_insert_insert. apply list_eq. intros u. destruct (decide (u = t)) as [->|N].
        * rewrite list_lookup_insert by done. apply lookup_lt_is_Some_2 in Lt as [p Ep]. rewrite Ep. f_equal. symmetry. by eapply Q.
        * by rewrite list_lookup_insert_ne.
  Qed.

  Lemma haction_frame s ph past s' ph' past' t : haction legal s ph past None s' ph' past' -> (forall u, u <> t -> ph' u = ph u) ->
    (s' = s /\ ph' = ph /\ past' = past) \/
    (exists o r, ph t = Pending o /\ ph' t = Effected o r /\ legal s o r s') \/
    (exists o r s1, ph t = Pending o /\ ph' t = Effected o r /\ s1 ∈ past t /\ legal s1 o r s1 /\ s' = s).
  Proof.
    intros A F. inversion A as [| |? ? ? u o r ? Hu L|? ? ? u o r s1 Hu Hin L|]; subst.
    - by left.
    - right; left. exists o, r. destruct (decide (u = t)) as [->|N]; [by rewrite fn_lookup_insert|]. specialize (F u N). rewrite fn_lookup_insert, Hu in F. done.
    - right; right. exists o, r, s1. destruct (decide (u = t)) as [->|N]; [by rewrite fn_lookup_insert|]. specialize (F u N). rewrite fn_lookup_insert, Hu in F. done.
  Qed.

  Definition seqI (ps : list (pc T)) (t : nat) (s : list T) (o : op T) (m : mem T) (p : pc T) : Prop :=
    exists s1 ph past, R (Sys m (<[t := p]> ps)) s1 ph past /\
      ((ph t = Pending o /\ s1 = s /\ (forall z, z ∈ past t -> z = s)) \/ exists r, ph t = Effected o r /\ legal s o r s1).
  Lemma seqI_step ps t s o m p top m' p' : t < length ps -> seqI ps t s o m p -> running p = true -> random_level top -> tstep m p top = Ok (m', p') -> seqI ps t s o m' p'.
  Proof.
    intros Lt (s1 & ph & past & (pub & ch & Rr) & D) Hr Ht E. cbn [shared pcs] in Rr.
    destruct (tstep_ok zero comp H _ _ _ _ _ _ _ t p top Rr (list_lookup_insert _ _ _ Lt) Hr Ht) as (m1 & p1 & s' & ph' & past' & E' & A & Rr' & F).
    rewrite E in E'. injection E' as <- <-. rewrite list_insert_insert in Rr'. exists s', ph', past'. split; [done|].
    destruct (haction_frame _ _ _ _ _ _ _ A F) as [(-> & -> & ->)|[(o' & r & Hp & He & L)|(o' & r & s2 & Hp & He & Hin & L & ->)]]; [done| |];
      destruct D as [(Hp' & -> & Hs)|(r' & He' & L')]; rewrite Hp in *; try done; injection Hp' as ->; right; exists r; split; try done.
    by rewrite (Hs s2 Hin) in L.
  Qed.
  Lemma quiet_seqI n h x s t o : exec step (sys_init zero n) h x -> quiet x -> stored x s -> t < length (pcs x) -> seqI (pcs x) t s o (shared x) (start o).
  Proof.
    intros E Q Hs Lt. destruct (reach zero comp H _ _ _ E) as (ms & s0 & ph & past & _ & Rx). pose proof (R_stored zero comp H _ _ _ _ Rx) as (ids & P & Es & _).
    assert (s0 = s) as -> by (apply (stored_det x); [by exists ids|done]).
    destruct x as [m ps]. cbn [pcs shared] in *. destruct (lookup_lt_is_Some_2 _ _ Lt) as [p Ep]. pose proof (Q t p Ep) as ->.
    destruct (sim_step zero comp H _ _ _ _ _ _ Rx (s_call comp m ps t o Ep)) as (s' & ph' & past' & A & Rx').
    inversion A as [|? ? ? ? ? Hi| | |]; subst. exists (omap (unmarked_value (heap m)) ids), (<[t := Pending o]> ph), (<[t := [omap (unmarked_value (heap m)) ids]]> past). split; [done|]. left.
    rewrite !fn_lookup_insert. splits; try done. intros z Hz. by apply elem_of_list_singleton in Hz.
  Qed.
  Lemma call_in_range x t o y r : exec step x [Call t o; Return t r] y -> quiet x -> t < length (pcs x).
  Proof.
    intros E Q. assert (G : forall h z, exec step x h z -> length (pcs z) = length (pcs x) /\ (h = [] -> z = x) /\ (Call t o ∈ h -> t < length (pcs x))).
    { clear E. intros h z E. induction E as [c|c c1 h c2 E IH St|c c1 h e c2 E IH St]; [splits; try done; intros F; by apply elem_of_nil in F| |]; destruct (IH Q) as (L & E0 & C).
      - inversion St as [|m ps u p top m' p' Ep Hr Ht Es|]; subst. cbn [pcs] in *. rewrite insert_length. splits; [done| |done]. intros ->. specialize (E0 eq_refl). rewrite <-E0 in Q. rewrite (Q _ _ Ep) in Hr. done.
      - splits.
        + inversion St; subst; cbn [pcs] in *; by rewrite insert_length.
        + by destruct h.
        + intros F. apply elem_of_app in F as [F|F]; [by apply C|]. apply elem_of_list_singleton in F as <-. inversion St as [m ps u o' Ep| |]; subst. cbn [pcs] in L. rewrite <-L. by eapply lookup_lt_Some. }
    destruct (G _ _ E) as (_ & _ & C). apply C. left.
  Qed.
  Lemma quiet_call n h x s t o r y : exec step (sys_init zero n) h x -> quiet x -> stored x s -> exec step x [Call t o; Return t r] y ->
    quiet y /\ exists s', legal s o r s' /\ stored y s'.
  Proof.
    intros E Q Hs E2. pose proof (call_in_range _ _ _ _ _ E2 Q) as Lt. pose proof (quiet_seqI _ _ _ _ _ o E Q Hs Lt) as I0.
    destruct (solo_exec x t o (seqI (pcs x) t s o) Q I0 (fun m p top m' p' A B C D => seqI_step _ _ _ _ _ _ _ _ _ Lt A B C D) _ _ E2) as (_ & _ & G).
    destruct (G r eq_refl) as ((s1 & ph & past & Rr & D) & Ep). split; [unfold quiet; rewrite Ep; exact Q|]. exists s1.
    pose proof Rr as (pub & ch & Rr0). pose proof (r_pcs _ _ _ _ _ _ _ _ _ Rr0 t _ (list_lookup_insert _ _ _ Lt)) as [o' Ho]. split.
    - destruct D as [(Hp & _)|(r' & He & L)]; rewrite Ho in *; [done|]. by injection He as -> ->.
    - destruct (R_stored zero comp H _ _ _ _ Rr) as (ids & P & Es & _). exists ids. done.
  Qed.
End lf.
