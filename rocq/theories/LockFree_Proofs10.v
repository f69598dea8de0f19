(** Lock-free skip list: Len and Rank. *)
From stdpp Require Import functions.
From stdpp Require Import list.
From Verif Require Import Base Lin_Spec Lin_Proofs Lin_Hindsight LockFree_Model LockFree_Spec LockFree_Proofs LockFree_Proofs2 LockFree_Proofs3 LockFree_Proofs4 LockFree_Proofs5 LockFree_Proofs6 LockFree_Proofs7 LockFree_Proofs8 LockFree_Proofs9.

Section lf.
  Context {T : Type} (zero : T) (comp : T -> T -> Z) (H : cmp_ok comp).
  Notation node := (node T).
  Notation heap_t := (list node).
  Notation HI := (HI comp).
  Notation RI := (RI zero comp).
  Notation R := (R zero comp).
  Notation elt := (elt comp).
  Notation step := (step comp).
  Notation tstep := (tstep comp).
  Notation legal := (set_legal zero comp).

  (** ** Len *)
  Lemma total_bound (ps : list (pc T)) : (Z.abs (total ps) <= Z.of_nat (length (filter (fun p => in_call p) ps)))%Z.
  Proof.
    induction ps as [|p ps IH]; [cbn; lia|]. unfold total in *. cbn [foldr]. rewrite filter_cons.
    assert (G : (Z.abs (owed p) <= if decide (in_call p) then 1 else 0)%Z) by (destruct p as [|[| | | | |] ? ? ? ?| | | | | | | | |]; vm_compute; discriminate).
    destruct (decide (in_call p)); cbn [length]; lia.
  Qed.
  Lemma total_bound_free (ps : list (pc T)) t p : ps !! t = Some p -> in_call p = true -> owed p = 0%Z ->
    (Z.abs (total ps) < Z.of_nat (length (filter (fun p => in_call p) ps)))%Z.
  Proof.
    intros Ep Hc Ho. revert t Ep. induction ps as [|q ps IH]; intros t Ep; [done|]. unfold total in *. cbn [foldr]. rewrite filter_cons.
    assert (G : (Z.abs (owed q) <= if decide (in_call q) then 1 else 0)%Z) by (destruct q as [|[| | | | |] ? ? ? ?| | | | | | | | |]; vm_compute; discriminate).
    destruct t as [|t].
    - injection Ep as ->. rewrite decide_True by (by rewrite Hc). cbn [length]. pose proof (total_bound ps) as B. unfold total in B. rewrite Ho. lia.
    - specialize (IH t Ep). destruct (decide (in_call q)); cbn [length]; lia.
  Qed.
  Lemma total_quiet (x : sys T) : quiet x -> total (pcs x) = 0%Z.
  Proof.
    destruct x as [m ps]. unfold quiet. cbn [pcs]. intros Q. induction ps as [|p ps IH]; [done|]. unfold total in *. cbn [foldr].
    rewrite IH by (intros t q E; by apply (Q (S t))). by rewrite (Q 0 p eq_refl).
  Qed.
  Lemma R_of_stored x s : stored x s -> (exists s0 ph past, R x s0 ph past) -> exists ph past, R x s ph past.
  Proof.
    intros Hs (s0 & ph & past & Rx). pose proof (R_stored zero comp H _ _ _ _ Rx) as (ids & P & Es & _).
    assert (s0 = s) as -> by (apply (stored_det x); [by exists ids|done]). eauto.
  Qed.
  Lemma reach_stored n h x s : exec step (sys_init zero n) h x -> stored x s -> exists ph past, R x s ph past.
  Proof. intros E Hs. apply R_of_stored; [done|]. destruct (reach zero comp H _ _ _ E) as (ms & s0 & ph & past & _ & Rx). eauto. Qed.
  Lemma size_bound n h x s : exec step (sys_init zero n) h x -> stored x s ->
    exists d, size (shared x) = to_int32 (Z.of_nat (length s) + d) /\ (Z.abs d <= Z.of_nat (length (filter (fun p => in_call p) (pcs x))))%Z.
  Proof.
    intros E Hs. destruct (reach_stored _ _ _ _ E Hs) as (ph & past & (pub & ch & Rr)). exists (- total (pcs x))%Z. split; [apply Rr|].
    rewrite Z.abs_opp. apply total_bound.
  Qed.
  Lemma size_quiet n h x s : exec step (sys_init zero n) h x -> stored x s -> quiet x -> size (shared x) = to_int32 (Z.of_nat (length s)).
  Proof.
    intros E Hs Q. destruct (reach_stored _ _ _ _ E Hs) as (ph & past & (pub & ch & Rr)). rewrite (r_size _ _ _ _ _ _ _ _ _ Rr), total_quiet by done. f_equal. lia.
  Qed.
  Lemma to_int32_small z : (- 2 ^ 31 <= z < 2 ^ 31)%Z -> to_int32 z = z.
  Proof. intros L. unfold to_int32. rewrite Z.mod_small; lia. Qed.

  Lemma len_inv n h x : exec step (sys_init zero n) h x -> forall t h1 h2, h = h1 ++ Call t Len :: h2 ->
    (forall e, e ∈ h2 -> thread_of (Ev e) <> t) ->
    pcs x !! t = Some LenLoad \/ exists z x1 h2a h2b, pcs x !! t = Some (Ready (RInt z)) /\ h2 = h2a ++ h2b /\
      exec step (sys_init zero n) (h1 ++ Call t Len :: h2a) x1 /\ size (shared x1) = z /\ pcs x1 !! t = Some LenLoad.
  Proof.
    intros E. remember (sys_init zero n) as x0 eqn:E0. induction E as [c|c c1 h c2 E IH St|c c1 h e c2 E IH St]; intros t h1 h2 Eh Nt; subst c.
    - by destruct h1.
    - specialize (IH eq_refl t h1 h2 Eh Nt). inversion St as [|m ps u p top m' p' Ep Hr Ht Es|]; subst. cbn [pcs] in *. destruct (decide (u = t)) as [->|N].
      + rewrite list_lookup_insert by (by eapply lookup_lt_Some). destruct IH as [IH|(z & x1 & h2a & h2b & IH & _)]; rewrite Ep in IH; injection IH as ->; [|done].
        injection Es as <- <-. right. exists (size m), (Sys m ps), h2, []. rewrite app_nil_r. splits; done.
      + rewrite list_lookup_insert_ne by done. done.
    - destruct (decide (h2 = [])) as [->|N2].
      + apply app_inj_tail in Eh as [-> ->]. left. inversion St as [m ps u o Ep| |]; subst. cbn [pcs]. rewrite list_lookup_insert by (by eapply lookup_lt_Some). done.
      + destruct (exists_last N2) as (h2' & e' & ->). rewrite app_comm_cons, app_assoc in Eh. apply app_inj_tail in Eh as [-> <-].
        assert (Ne : thread_of (Ev e) <> t) by (apply Nt; apply elem_of_app; right; left).
        destruct (IH eq_refl t h1 h2' eq_refl) as [Il|(z & x1 & h2a & h2b & Il & -> & Ir)]; [intros e' He; apply Nt, elem_of_app; by left| |].
        * left. inversion St; subst; cbn [pcs thread_of] in *; by rewrite list_lookup_insert_ne.
        * right. exists z, x1, h2a, (h2b ++ [e]). splits; [|by rewrite <-app_assoc|apply Ir..].
          inversion St; subst; cbn [pcs thread_of] in *; by rewrite list_lookup_insert_ne.
  Qed.
  Lemma len_call n t h1 h2 z y : exec step (sys_init zero n) (h1 ++ Call t Len :: h2 ++ [Return t (RInt z)]) y ->
    (forall e, e ∈ h2 -> thread_of (Ev e) <> t) ->
    exists h2a h2b x s d, h2 = h2a ++ h2b /\ exec step (sys_init zero n) (h1 ++ Call t Len :: h2a) x /\ stored x s /\
      z = to_int32 (Z.of_nat (length s) + d) /\ (Z.abs d < Z.of_nat (length (filter (fun p => in_call p) (pcs x))))%Z.
  Proof.
    intros E Nt. rewrite app_comm_cons, app_assoc in E. remember (_ ++ [Return t (RInt z)]) as hh eqn:Eh. remember (sys_init zero n) as x0 eqn:E0.
    induction E as [c|c c1 h c2 E IH St|c c1 h e c2 E IH St]; subst c.
    - by destruct (h1 ++ Call t Len :: h2).
    - by apply IH.
    - apply app_inj_tail in Eh as [-> ->]. inversion St as [| |m ps u r Ep]; subst.
      destruct (len_inv _ _ _ E t h1 h2 eq_refl Nt) as [F|(z' & x1 & h2a & h2b & F & -> & Ex & Hz & Hl)]; cbn [pcs] in F; rewrite Ep in F; [done|]. injection F as <-.
      destruct (reach zero comp H _ _ _ Ex) as (ms & s & ph & past & _ & Rx). pose proof (R_stored zero comp H _ _ _ _ Rx) as (ids & P & Es & _).
      destruct Rx as (pub & ch & Rr). exists h2a, h2b, x1, s, (- total (pcs x1))%Z. splits; try done; [by exists ids| |].
      + rewrite <-Hz. apply Rr.
      + rewrite Z.abs_opp. by eapply total_bound_free.
  Qed.

  (** ** Rank on a quiet list *)
  Notation upto k := (fun w => ~ elt k (EVal w)).
  Local Instance upto_dec k w : Decision (upto k w).
  Proof. destruct (elt_dec comp k (EVal w)); [right; tauto|by left]. Defined.
  Definition cnt (s : list T) (k : ekey) : nat := length (filter (upto k) s).
  Definition smaller (s : list T) (v : T) : nat := length (filter (fun w => (comp w v < 0)%Z) s).
  Definition rank_ok (s : list T) (v : T) (z : Z) : Prop :=
    let l := to_int32 (Z.of_nat (length s)) in
    ((l <= 1)%Z -> z = l) /\ ((1 < l)%Z -> (1 <= z <= 1 + Z.of_nat (smaller s v))%Z).
  Definition prev_of (p : pos) : option nat := match p with PLoad _ i | PCur _ i _ | PSnip _ i _ _ => i end.
  Definition rankI (ps : list (pc T)) (t : nat) (s : list T) (v : T) (m : mem T) (p : pc T) : Prop :=
    match p with
    | Ready r => exists z, r = RInt z /\ rank_ok s v z
    | RankLoad v' => v' = v /\ size m = to_int32 (Z.of_nat (length s)) /\ exists ph past, R (Sys m (<[t := p]> ps)) s ph past
    | Find (ForRank r) v' prevs succs q => v' = v /\ (1 < to_int32 (Z.of_nat (length s)))%Z /\ cleanp (heap m) q /\
        (exists i, prev_of q = Some i /\ (1 <= r <= 1 + Z.of_nat (cnt s (key (heap m) i)))%Z) /\ exists ph past, R (Sys m (<[t := p]> ps)) s ph past
    | _ => False
    end.
  Lemma rank_same ps t s v m p top m' p' : t < length ps -> running p = true -> random_level top -> tstep m p top = Ok (m', p') ->
    (exists ph past, R (Sys m (<[t := p]> ps)) s ph past) -> (exists v', p = RankLoad v') \/ (exists r q a b, p = Find (ForRank r) v a b q) -> running p' = true ->
    exists ph past, R (Sys m' (<[t := p']> ps)) s ph past.
  Proof.
    intros Lt Hr Ht E (ph & past & (pub & ch & Rr)) Hp Hr'. cbn [shared pcs] in Rr.
    destruct (tstep_ok zero comp H _ _ _ _ _ _ _ t p top Rr (list_lookup_insert _ _ _ Lt) Hr Ht) as (m1 & p1 & s' & ph' & past' & E' & A & Rr' & F).
    rewrite E in E'. injection E' as <- <-. rewrite list_insert_insert in Rr'.
    assert (Hph : exists v', ph t = Pending (Rank v')).
    { pose proof (r_pcs _ _ _ _ _ _ _ _ _ Rr t _ (list_lookup_insert _ _ _ Lt)) as Q. destruct Hp as [(v' & ->)|(r & q & a & b & ->)]; [by exists v'|]. destruct Q as (Q & _). by exists v. }
    destruct Hph as [v' Hv]. exists ph', past'. destruct (haction_frame zero comp _ _ _ _ _ _ _ A F) as [(-> & -> & ->)|[(o' & r & Hp' & He & L)|(o' & r & s2 & Hp' & He & Hin & L & ->)]]; [done| |done].
    rewrite Hv in Hp'. injection Hp' as <-. by inversion L; subst.
  Qed.
  Lemma rankI_step ps t s v m p top m' p' : t < length ps -> rankI ps t s v m p -> running p = true -> random_level top -> tstep m p top = Ok (m', p') -> rankI ps t s v m' p'.
  Proof.
    intros Lt RI' Hr Ht E. destruct p as [|k v' prevs succs q|v' new prevs succs|l v' new prevs succs| |v' l nd|v' l nd next| | |v'|r]; try done.
    - destruct k as [|l new| | | |r]; try done. destruct RI' as (-> & L1 & Cl & (i & Ei & Hc) & Rx).
      pose proof (rank_same _ _ _ v _ _ _ _ _ Lt Hr Ht E Rx (or_intror (ex_intro _ r (ex_intro _ q (ex_intro _ prevs (ex_intro _ succs eq_refl)))))) as Same.
      destruct Rx as (ph & past & (pub & ch & Rr)). cbn [shared pcs] in Rr. pose proof (r_heap _ _ _ _ _ _ _ _ _ Rr) as I.
      pose proof (r_pcs _ _ _ _ _ _ _ _ _ Rr t _ (list_lookup_insert _ _ _ Lt)) as (Hk & Ha & Hpos).
      destruct q as [l prev|l prev cur|l prev cur next]; cbn [prev_of] in Ei; subst prev.
      + destruct Hpos as (Ll & ? & [= <-] & (Pi & Ni & Li & Oi) & _). destruct Cl as (? & j & [= <-] & El). cbn [LockFree_Model.tstep] in E.
        rewrite (load_next_ok _ _ _ _ El) in E. cbn [rbind] in E. injection E as <- <-. cbn [rankI]. splits; [done|done| | |by apply Same].
        * exists i. done.
        * exists i. done.
      + destruct Hpos as (Ll & ? & c & [= <-] & -> & (Pi & Ni & Li & Oi) & _ & Pc & Nc & Lc & _). destruct Cl as (? & [= <-] & El).
        destruct (hi_lk _ _ _ _ c l I Lc) as [[n b] Ec]. cbn [LockFree_Model.tstep] in E. rewrite (load_next_ok _ _ _ _ Ec) in E. cbn [rbind is_marked snd] in E. destruct b.
        { injection E as <- <-. cbn [rankI]. splits; [done|done| |by exists i|by apply Same]. by exists i. }
        destruct (less_ok comp (heap m) c v (hi_pub _ _ _ _ I _ Pc)) as (b & Eb & Hb). rewrite Eb in E. cbn [rbind fst] in E. destruct b.
        * injection E as <- <-. cbn [hop] in *. assert (Nc1 : c <> 1) by (intros ->; by destruct Hb as [Hb _]; specialize (Hb eq_refl)).
          destruct (alive_of_unmarked comp _ _ _ _ _ _ I Pc Ec) as [j0 E0]. assert (Ac : alive (heap m) c) by (by exists j0).
          destruct (hi_link _ _ _ _ I i l _ Pi Ni El) as (? & [= <-] & _ & _ & _ & [O|(_ & _ & D & _)]); [|by destruct (alive_not_dead _ _ Ac D)].
          destruct (alive_in_abs _ H _ _ _ c I Pc Ac Nc Nc1) as (w & Kc & Hw). rewrite <-(r_set _ _ _ _ _ _ _ _ _ Rr) in Hw.
          cbn [rankI]. splits; [done|done| | |by apply Same]; [by exists c|]. exists c. split; [done|]. 
          assert (G : cnt s (key (heap m) i) < cnt s (key (heap m) c)); [|lia]. unfold cnt.
          apply (filter_lt (upto (key (heap m) i)) (upto (key (heap m) c))) with (x := w).
          -- intros w' N F. apply N. by eapply (elt_trans _ H).
          -- done.
          -- rewrite Kc. apply (elt_irrefl _ H).
          -- rewrite <-Kc. intros F. by apply F.
        * destruct l as [|l].
          -- cbn [found] in E. injection E as <- <-. cbn [rankI]. exists r. split; [done|]. split; [lia|]. intros _. split; [lia|].
             assert (G : cnt s (key (heap m) i) <= smaller s v); [|lia]. unfold cnt, smaller. apply filter_lt. intros w Nw.
             assert (F : elt (EVal w) (EVal v)); [|done]. eapply (le_elt_trans _ H); done.
          -- injection E as <- <-. cbn [rankI]. splits; [done|done| |by exists i|by apply Same]. destruct (down_unmarked comp _ _ _ _ _ _ I Pi El) as [j' Ej]. exists i, j'. done.
      + destruct Hpos as (Ll & ? & c & [= <-] & -> & (Pi & Ni & Li & Oi) & _ & Pc & Nc & Nc1 & Ec & Mn). destruct Cl as (? & [= <-] & El).
        cbn [LockFree_Model.tstep] in E. rewrite (cas_ok _ _ _ _ _ El) in E. cbn [rbind] in E. injection E as <- <-. cbn [rankI]. splits; [done|done| | |by apply Same].
        * exists i, (get_unmarked next). split; [done|]. apply (upd_lk_same _ _ _ _ _ El).
        * exists i. split; [done|]. cbn [heap]. rewrite upd_key. lia.
    - destruct RI' as (-> & Es & Rx). pose proof (rank_same _ _ _ v _ _ _ _ _ Lt Hr Ht E Rx (or_introl (ex_intro _ v eq_refl))) as Same.
      cbn [LockFree_Model.tstep] in E. cbv zeta in E. rewrite Es in E. destruct (decide _) as [L|L]; injection E as <- <-.
      + cbn [rankI]. exists (to_int32 (Z.of_nat (length s))). split; [done|]. split; [done|]. lia.
      + cbn [rankI find_start]. destruct Rx as (ph & past & (pub & ch & Rr)). splits; [done|lia| |exists 0; split; [done|lia]|by apply Same].
        eapply (start_clean comp), Rr.
  Qed.
  Lemma quiet_rank n h x s t v r y : exec step (sys_init zero n) h x -> quiet x -> stored x s -> exec step x [Call t (Rank v); Return t r] y ->
    exists z, r = RInt z /\ rank_ok s v z.
  Proof.
    intros E Q Hs E2. pose proof (call_in_range comp _ _ _ _ _ E2 Q) as Lt. destruct (quiet_seqI zero comp H _ _ _ _ _ (Rank v) E Q Hs Lt) as (s1 & ph & past & Rx & D).
    destruct D as [(Hp & -> & _)|(r' & He & L)].
    - assert (I0 : rankI (pcs x) t s v (shared x) (start (Rank v))).
      { cbn [rankI start]. splits; [done| |by exists ph, past]. by eapply size_quiet. }
      destruct (solo_exec comp x t (Rank v) (rankI (pcs x) t s v) Q I0 (fun m p top m' p' A B C D => rankI_step _ _ _ _ _ _ _ _ _ Lt A B C D) _ _ E2) as (_ & _ & G).
      by destruct (G r eq_refl) as (F & _).
    - destruct Rx as (pub & ch & Rr). pose proof (r_pcs _ _ _ _ _ _ _ _ _ Rr t _ (list_lookup_insert _ _ _ Lt)) as F. cbn in F. rewrite He in F. done.
  Qed.

  Lemma quiet_rank' n h x s t v r y : exec step (sys_init zero n) h x -> quiet x -> stored x s -> (Z.of_nat (length s) < 2 ^ 31)%Z -> exec step x [Call t (Rank v); Return t r] y ->
    exists z, r = RInt z /\ (length s <= 1 -> z = Z.of_nat (length s)) /\
      (1 < length s -> (1 <= z <= 1 + Z.of_nat (length (filter (fun w => (comp w v < 0)%Z) s)))%Z).
  Proof.
    intros E Q Hs L E2. destruct (quiet_rank _ _ _ _ _ _ _ _ E Q Hs E2) as (z & -> & (A & B)). rewrite to_int32_small in A, B by lia. exists z. split; [done|]. split.
    - intros F. apply A. lia.
    - intros F. apply B. lia.
  Qed.
  Lemma quiet_len n h x s t r y : exec step (sys_init zero n) h x -> quiet x -> stored x s -> (Z.of_nat (length s) < 2 ^ 31)%Z -> exec step x [Call t Len; Return t r] y -> r = RInt (Z.of_nat (length s)).
  Proof.
    intros E Q Hs L E2.
    destruct (solo_exec comp x t Len (fun m p => m = shared x /\ (p = LenLoad \/ p = Ready (RInt (Z.of_nat (length s))))) Q) with (h := [Call t Len; Return t r] : list (event (op T) (ret T))) (y := y) as (_ & _ & G); try done.
    - split; [done|]. by left.
    - intros m p top m' p' [-> [-> | ->]] Hr _ Es; [|done]. injection Es as <- <-. split; [done|]. right. rewrite (size_quiet _ _ _ _ E Hs Q), to_int32_small by lia. done.
    - destruct (G r eq_refl) as ((_ & [F|F]) & _); [done|]. by injection F as ->.
  Qed.
  Lemma reach_levels n h x l : exec step (sys_init zero n) h x -> l < max_level -> exists ids, path (heap (shared x)) l head ids.
  Proof.
    intros E L. destruct (reach zero comp H _ _ _ E) as (ms & s & ph & past & _ & (pub & ch & Rr)). pose proof (r_heap _ _ _ _ _ _ _ _ _ Rr) as I.
    eapply path_exists; [done|done|apply I|done|]. pose proof (hi_head _ _ _ _ I) as Hh. unfold head. lia.
  Qed.
  Lemma reach_links n h x : exec step (sys_init zero n) h x ->
    forall i nd l nx m, reaches (heap (shared x)) head i -> i <> tail -> heap (shared x) !! i = Some nd -> nexts nd !! l = Some (nx, m) ->
    exists j nd', nx = Some j /\ heap (shared x) !! j = Some nd' /\ l < length (nexts nd') /\ j <> head /\
      (forall t v prevs succs, pcs x !! t <> Some (AddCas v j prevs succs)) /\
      (i = head \/ j = tail \/ (comp (value nd) (value nd') < 0)%Z \/
       (0 < l /\ comp (value nd) (value nd') = 0%Z /\ j < i /\ exists k, nexts nd' !! 0 = Some (k, true))).
  Proof.
    intros E i nd l nx m Hr Ni En El. destruct (reach zero comp H _ _ _ E) as (ms & s & ph & past & _ & (pub & ch & Rr)). pose proof (r_heap _ _ _ _ _ _ _ _ _ Rr) as I.
    pose proof (reaches_pub comp _ _ _ _ I Hr) as Pi. assert (Ek : lk (heap (shared x)) i l = Some (nx, m)) by (apply lk_node; eauto).
    destruct (hi_link _ _ _ _ I i l _ Pi Ni Ek) as (j & Ej & Pj & Nj & Lj & O). cbn in Ej. subst nx.
    destruct (lookup_lt_is_Some_2 _ _ (hi_pub _ _ _ _ I _ Pj)) as [nd' En']. exists j, nd'. destruct (hi_len _ _ _ _ I _ _ En') as [Ln _]. splits; try done.
    - rewrite Ln. unfold lvl in Lj. rewrite En' in Lj. done.
    - intros t v prevs succs Et. pose proof (r_pcs _ _ _ _ _ _ _ _ _ Rr _ _ Et) as (_ & _ & Np & _). done.
    - destruct (decide (i = 0)) as [->|N0]; [by left|]. right. destruct (decide (j = 1)) as [->|N1]; [by left|]. right.
      assert (Ki : key (heap (shared x)) i = EVal (value nd)) by (unfold key; rewrite !decide_False by done; by rewrite En).
      assert (Kj : key (heap (shared x)) j = EVal (value nd')) by (unfold key; rewrite !decide_False by done; by rewrite En').
      unfold ord in O. rewrite Ki, Kj in O. destruct O as [O|(L0 & O & [k D] & Lt)]; [by left|]. 
      destruct (decide (comp (value nd) (value nd') < 0)%Z) as [|Nl]; [by left|]. right. splits; try done.
      + by apply (eeq_val _ H).
      + exists k. apply lk_node in D as (nd2 & E2 & D). rewrite En' in E2. by injection E2 as <-.
  Qed.
End lf.
