(** Lock-free skip list: what a call that runs alone keeps. *)
From stdpp Require Import functions.
From stdpp Require Import list relations.
From Verif Require Import Base Lin_Spec Lin_Proofs Lin_Hindsight LockFree_Model LockFree_Spec LockFree_Proofs LockFree_Proofs2 LockFree_Proofs3 LockFree_Proofs4 LockFree_Proofs5 LockFree_Proofs6 LockFree_Proofs7 LockFree_Proofs8 LockFree_Proofs9 LockFree_Proofs10 LockFree_Proofs13.

Section lf.
  Context {T : Type} (zero : T) (comp : T -> T -> Z) (H : cmp_ok comp).
  Notation node := (node T).
  Notation heap_t := (list node).
  Notation HI := (HI comp).
  Notation elt := (elt comp).
  Notation GI := (GI comp).
  Notation step := (step comp).
  Notation tstep := (tstep comp).
  Notation ok := (ok zero comp).

  (** the arrays of a search for [v] down to level [lo] *)
  Definition FF (h : heap_t) (lo : nat) (v : T) (prevs succs : list (option nat)) : Prop :=
    forall l, lo <= l < max_level -> exists i c, prevs !! l = Some (Some i) /\ succs !! l = Some (Some c) /\
      lk h i l = Some (Some c, false) /\ onl h l i /\ elt (key h i) (EVal v) /\ ~ elt (key h c) (EVal v) /\ live h c.
  Definition SF (h : heap_t) (lo : nat) (v : T) (prevs succs : list (option nat)) : Prop :=
    forall l, lo <= l < max_level -> exists i c, prevs !! l = Some (Some i) /\ succs !! l = Some (Some c) /\
      lk h i l = Some (Some c, false) /\ onl h l i /\ elt (key h i) (EVal v) /\ elt (EVal v) (key h c) /\ c < length h.
  Definition SQ (m : mem T) (p : pc T) : Prop :=
    let h := heap m in
    match p with
    | Find k v prevs succs q => GI h none2 /\ UI h none1 /\ (forall l n, k <> ForLink l n) /\ FF h (S (pos_level q)) v prevs succs /\
        cleanp h q /\ exists i, prev_of q = Some i /\ onl h (pos_level q) i
    | AddCas v new prevs succs => GI h none2 /\ UI h none1 /\ SF h 0 v prevs succs
    | AddLink l v new prevs succs => GI h (fun k l' => k = new /\ l <= l') /\ UI h none1 /\ SF h l v prevs succs /\
        (forall l', l <= l' < lvl h new -> exists s, succs !! l' = Some s /\ lk h new l' = Some (s, false))
    | DelLoad _ _ nd | DelCas _ _ nd _ => GI h none2 /\ UI h (fun k => Some k = nd)
    | _ => GI h none2 /\ UI h none1
    end.

  Lemma SQ_find m pub ch k v prevs succs : HI (heap m) pub ch -> GI (heap m) none2 -> UI (heap m) none1 -> (forall l n, k <> ForLink l n) ->
    SQ m (find_start k v prevs succs).
  Proof.
    intros I G U K. cbn [SQ find_start pos_level prev_of]. splits; try done.
    - intros l Hl. unfold max_level in Hl. lia.
    - by eapply start_clean.
    - exists 0. split; [done|]. apply onl_0.
  Qed.
  Lemma SQ_start m pub ch o : HI (heap m) pub ch -> GI (heap m) none2 -> UI (heap m) none1 -> SQ m (start o).
  Proof. intros I G U. destruct o; cbn [start]; first [eapply SQ_find; done | split; done]. Qed.
  Lemma UI_weak (h : heap_t) ex : UI h none1 -> UI h ex.
  Proof. intros U k l j Lk _. apply U; [done|intros []]. Qed.

  Lemma FF_strict h pub ch v prevs succs c : HI h pub ch -> GI h none2 -> FF h 0 v prevs succs -> succs !! 0 = Some (Some c) -> elt (EVal v) (key h c) ->
    SF h 0 v prevs succs.
  Proof.
    intros I G F Ec Lc l Hl. destruct (F l Hl) as (i & c' & Ei & Ec' & El & O & Li & Gc & Lv). exists i, c'.
    assert (Lh : c' < length h) by (eapply hi_pub; [done|]; by eapply live_pub). splits; try done.
    destruct (F 0) as (i0 & c0 & _ & Ec0 & El0 & O0 & Li0 & _); [unfold max_level in *; lia|]. rewrite Ec in Ec0. injection Ec0 as <-.
    destruct (elt_dec comp (EVal v) (key h c')) as [|N]; [done|]. exfalso.
    assert (c' = c) as ->; [|done]. apply (g_gap _ _ _ G 0 i0 c c').
    - done.
    - by exists false.
    - done.
    - destruct (hi_lvl _ _ _ _ c' I); [done|lia].
    - intros [].
    - by eapply (elt_le_trans _ H).
    - intros F'. apply N. by eapply (elt_trans _ H).
  Qed.

  Lemma found_SQ m pub ch k v prevs succs i c top m' p' : HI (heap m) pub ch -> GI (heap m) none2 -> UI (heap m) none1 -> (forall l n, k <> ForLink l n) ->
    pub c -> ~ elt (key (heap m) c) (EVal v) ->
    FF (heap m) 0 v (<[0 := Some i]> prevs) (<[0 := Some c]> succs) -> 0 < length succs ->
    found comp m k v (<[0 := Some i]> prevs) (<[0 := Some c]> succs) (Some c) top = Ok (m', p') -> SQ m' p'.
  Proof.
    intros I G U K Pc Gc F Ls E. pose proof (hi_pub _ _ _ _ I _ Pc) as Lc. destruct k as [|l new| | | |r]; cbn [found] in E.
    - destruct (equals_ok comp H (heap m) c v Lc) as (b & Eb & Hb). rewrite Eb in E. cbn [rbind] in E. destruct b; injection E as <- <-; [done|].
      cbn [SQ heap]. assert (S : SF (heap m) 0 v (<[0 := Some i]> prevs) (<[0 := Some c]> succs)).
      { eapply (FF_strict _ _ _ _ _ _ c I G F); [by apply list_lookup_insert|]. destruct (elt_dec comp (EVal v) (key (heap m) c)) as [|N]; [done|]. destruct Hb as [_ Hb]. discriminate (Hb (conj Gc N)). }
      splits; [by eapply alloc_GI|by eapply alloc_UI|]. intros l Hl. destruct (S l Hl) as (i' & c' & Ei & Ec & El & O & Li & Lv & Lc').
      pose proof (hi_pub _ _ _ _ I _ (onl_pub _ _ _ _ _ _ I O)) as Li'. exists i', c'. rewrite alloc_lk, (alloc_onl _ _ _ _ I), !alloc_key', app_length by done. splits; try done. lia.
    - by destruct (K l new).
    - destruct (equals comp (heap m) (Some c) v) as [[|]| |]; cbn [rbind] in E; try done; [|by injection E as <- <-].
      cbn [deref rbind] in E. destruct (heap m !! c) as [n|]; cbn [deref rbind] in E; [|done]. injection E as <- <-. cbn [SQ]. split; [done|]. by apply UI_weak.
    - destruct (equals comp (heap m) (Some c) v) as [b| |]; cbn [rbind] in E; try done; by injection E as <- <-.
    - cbn [deref rbind] in E. destruct (heap m !! c) as [n|]; cbn [deref rbind] in E; [|done]. by injection E as <- <-.
    - by injection E as <- <-.
  Qed.

  Lemma SF_upd h p l x v lo prevs succs : SF h lo v prevs succs -> l < lo -> SF (upd h p l x) lo v prevs succs.
  Proof.
    intros S L l' Hl. destruct (S l' Hl) as (i & c & Ei & Ec & El & O & Li & Lv & Lc). exists i, c.
    rewrite !upd_key, upd_length, upd_lk_ne, onl_ne by lia. done.
  Qed.
  Lemma SF_mono h v lo lo' prevs succs : SF h lo v prevs succs -> lo <= lo' -> SF h lo' v prevs succs.
  Proof. intros S L l' Hl. apply S. lia. Qed.

  Lemma SQ_step m p top m' p' : ok m p -> SQ m p -> running p = true -> random_level top -> tstep m p top = Ok (m', p') -> SQ m' p'.
  Proof.
    intros O Q Hr Ht E. pose proof (ok_step zero comp H _ _ _ _ _ O Hr Ht E) as O'.
    destruct (ok_TI _ _ _ _ O) as (pub & ch & past & f & I & Ti).
    destruct p as [|k v prevs succs q|v new prevs succs|l v new prevs succs| |v l nd|v l nd next| | |v|r]; try done.
    - destruct Ti as (Hk & Ha & Hpos). destruct Q as (G & U & K & F & Cl & (i0 & Ei0 & On)).
      destruct q as [l prev|l prev cur|l prev cur next]; cbn [prev_of pos_level] in *; subst prev.
      + destruct Cl as (? & j & [= <-] & El). cbn [LockFree_Model.tstep] in E. rewrite (load_next_ok _ _ _ _ El) in E. cbn [rbind] in E. injection E as <- <-.
        cbn [SQ pos_level prev_of]. splits; try done; by exists i0.
      + destruct Hpos as (Ll & ? & c & [= <-] & -> & (Pi & Ni & Li & Oi) & _ & Pc & Nc & Lc & _). destruct Cl as (? & [= <-] & El).
        destruct (hi_lk _ _ _ _ c l I Lc) as [[n b] Ec]. cbn [LockFree_Model.tstep] in E. rewrite (load_next_ok _ _ _ _ Ec) in E. cbn [rbind is_marked snd] in E. destruct b.
        { injection E as <- <-. cbn [SQ pos_level prev_of]. splits; try done; by exists i0. }
        destruct (less_ok comp (heap m) c v (hi_pub _ _ _ _ I _ Pc)) as (b & Eb & Hb). rewrite Eb in E. cbn [rbind fst] in E. destruct b.
        * injection E as <- <-. cbn [SQ pos_level prev_of]. splits; try done.
          -- intros l' n'. by destruct k; cbn; try done; apply K.
          -- by exists c.
          -- exists c. split; [done|]. eapply onl_S; [exact On|by exists false].
        * assert (Gc : ~ elt (key (heap m) c) (EVal v)) by (intros F'; destruct Hb as [_ Hb]; by specialize (Hb F')).
          destruct (alive_of_unmarked comp _ _ _ _ _ _ I Pc Ec) as [j0 E0]. assert (Ac : live (heap m) c) by (eapply pub_live; [done|done|by exists j0]).
          destruct Ha as (L1 & L2 & _).
          assert (F' : FF (heap m) l v (<[l := Some i0]> prevs) (<[l := Some c]> succs)).
          { intros l' Hl. destruct (decide (l' = l)) as [->|N].
            - exists i0, c. rewrite !list_lookup_insert by lia. done.
            - rewrite !list_lookup_insert_ne by done. apply F. lia. }
          destruct l as [|l].
          -- destruct (ok_TI _ _ _ _ O') as (pub' & ch' & past' & f' & I' & Ti').
             eapply (found_SQ m pub ch); try done; lia.
          -- injection E as <- <-. cbn [SQ pos_level prev_of]. destruct (down_unmarked comp _ _ _ _ _ _ I Pi El) as [j' Ej]. splits; try done; [by exists i0, j'|].
             exists i0. split; [done|]. destruct (alive_of_unmarked comp _ _ _ _ _ _ I Pi El) as [j1 E1]. 
             eapply (GI_full comp H); [done|exact G|eapply pub_live; [done|done|by exists j1]|lia|intros []].
      + destruct Hpos as (Ll & ? & c & [= <-] & -> & (Pi & Ni & Li & Oi) & _ & Pc & Nc & Nc1 & Ec & Mn). destruct Cl as (? & [= <-] & El).
        cbn [LockFree_Model.tstep] in E. rewrite (cas_ok _ _ _ _ _ El) in E. cbn [rbind] in E. injection E as <- <-.
        destruct (hi_link _ _ _ _ I c l _ Pc Nc1 Ec) as (n & En & Pn & _). destruct next as [? b]. cbn in En, Mn. subst. cbn [get_unmarked fst].
        cbn [SQ heap pos_level prev_of]. splits.
        * by eapply (snip_GI comp H).
        * by eapply (snip_UI comp H).
        * done.
        * intros l' Hl. destruct (F l' Hl) as (i & c' & Ei & Ec' & El' & O1 & Li' & Gc & Lv). exists i, c'. rewrite !upd_key, upd_lk_ne, onl_ne by lia. splits; try done.
          by eapply (snip_live comp H).
        * exists i0, (Some n). split; [done|]. apply (upd_lk_same _ _ _ _ _ El).
        * exists i0. split; [done|]. by eapply (snip_p comp H).
    - destruct Ti as (_ & Ha & Np & (top' & Htop & En) & Hs & _). destruct Q as (G & U & S).
      destruct (S 0) as (i & c & Ei & Ec & El & On & Li & Lv & Lc); [unfold max_level; lia|]. cbn [LockFree_Model.tstep] in E. rewrite Ei, Ec in E. cbn [deref rbind] in E.
      rewrite (cas_ok _ _ _ _ _ El) in E. cbn [rbind] in E.
      assert (N0 : new <> 0) by (intros ->; apply Np, I). assert (N1 : new <> 1) by (intros ->; apply Np, I).
      assert (Kn : key (heap m) new = EVal v) by (unfold key; rewrite !decide_False by done; by rewrite En).
      assert (Lvn : lvl (heap m) new = top') by (unfold lvl; by rewrite En).
      assert (Lkn : forall l' s, l' < top' -> succs !! l' = Some s -> lk (heap m) new l' = Some (s, false)).
      { intros l' s L E'. apply lk_node. eexists. split; [exact En|]. cbn [make_node nexts]. rewrite list_lookup_fmap, lookup_take by done. by rewrite E'. }
      assert (Lum : forall l' j, lk (heap m) new l' <> Some (j, true)).
      { intros l' j F. apply lk_node in F as (n & En' & F). rewrite En in En'. injection En' as <-. cbn [make_node nexts] in F. rewrite list_lookup_fmap in F. by destruct (take top' succs !! l'). }
      pose proof (Lkn 0 (Some c) ltac:(lia) Ec) as Ln0. rewrite <-Kn in Li, Lv.
      assert (G' : GI (upd (heap m) i 0 (Some new, false)) (fun k l' => k = new /\ 1 <= l')).
      { eapply (link_GI comp H); try done. intros k l' Lk Ll Nx. destruct (link_live_back comp H _ _ _ _ _ _ On El Ln0 Li Lv _ Lk) as [Lk'|[_ ->]].
        - right. split; [done|]. intros [].
        - left. split; [done|]. destruct (decide (l' = 0)); [done|]. exfalso. apply Nx. split; [done|lia]. }
      assert (U' : UI (upd (heap m) i 0 (Some new, false)) none1) by (by eapply (link_UI comp H)).
      destruct (upd (heap m) i 0 (Some new, false) !! new) as [nd|] eqn:End; cbn [deref rbind] in E; [|done]. injection E as <- <-.
      assert (Lnd : level nd = top').
      { rewrite <-Lvn, <-(upd_lvl (heap m) i 0 (Some new, false) new). unfold lvl. by rewrite End. }
      unfold add_next. destruct (decide (1 < level nd)) as [Lt|Ge]; cbn [SQ heap].
      + splits; try done.
        * apply SF_upd; [|lia]. eapply SF_mono; [done|lia].
        * intros l' Hl'. rewrite upd_lvl in Hl'. destruct (S l') as (a & b & Ea & Eb & _); [lia|]. exists (Some b). split; [done|]. rewrite upd_lk_ne by lia. apply Lkn; [lia|done].
      + split; [|done]. eapply GI_drop; [exact G'|]. intros k l Lk Ll _ [-> L1]. rewrite upd_lvl in Ll. lia.
    - destruct Ti as (_ & Ha & Pn & Ll & Kn). destruct Q as (G & U & S & Lkn). pose proof (hi_lvl _ _ _ _ _ I (hi_pub _ _ _ _ I _ Pn)) as Lm.
      destruct (S l) as (i & c & Ei & Ec & El & On & Li & Lv & Lc); [lia|]. cbn [LockFree_Model.tstep] in E. rewrite Ei, Ec in E. cbn [deref rbind] in E.
      rewrite (cas_ok _ _ _ _ _ El) in E. cbn [rbind] in E. destruct (Lkn l) as (s & Es & Ln); [lia|]. rewrite Ec in Es. injection Es as <-.
      rewrite <-Kn in Li, Lv.
      assert (G' : GI (upd (heap m) i l (Some new, false)) (fun k l' => k = new /\ l + 1 <= l')).
      { eapply (link_GI comp H); try done. intros k l' Lk Llk Nx. destruct (link_live_back comp H _ _ _ _ _ _ On El Ln Li Lv _ Lk) as [Lk'|[? ->]]; [|lia].
        destruct (decide (k = new /\ l' = l)) as [|N]; [by left|]. right. split; [done|]. intros [-> L']. apply Nx. split; [done|].
        destruct (decide (l' = l)) as [->|]; [|lia]. by exfalso; apply N. }
      assert (U' : UI (upd (heap m) i l (Some new, false)) none1) by (eapply (link_UI comp H); try done; lia).
      destruct (upd (heap m) i l (Some new, false) !! new) as [nd|] eqn:End; cbn [deref rbind] in E; [|done]. injection E as <- <-.
      assert (Lnd : level nd = lvl (heap m) new).
      { rewrite <-(upd_lvl (heap m) i l (Some new, false) new). unfold lvl. by rewrite End. }
      unfold add_next. destruct (decide (l + 1 < level nd)) as [Lt|Ge]; cbn [SQ heap].
      + splits; try done.
        * apply SF_upd; [|lia]. eapply SF_mono; [done|lia].
        * intros l' Hl'. rewrite upd_lvl in Hl'. rewrite upd_lk_ne by lia. apply Lkn. lia.
      + split; [|done]. eapply GI_drop; [exact G'|]. intros k l' Lk Llk _ [-> L1]. rewrite upd_lvl in Llk. lia.
    - cbn [LockFree_Model.tstep] in E. injection E as <- <-. done.
    - destruct Ti as (_ & (r & -> & P & N0 & N1 & L & _)). destruct Q as (G & U). destruct (hi_lk _ _ _ _ r _ I L) as [[y b] Ey].
      cbn [LockFree_Model.tstep] in E. rewrite (load_next_ok _ _ _ _ Ey) in E. cbn [rbind is_marked snd] in E. destruct b; [destruct l as [|l]|]; injection E as <- <-; try done.
      cbn [SQ]. split; [done|]. eapply UI_dead; [exact U|]. intros [j A]. rewrite Ey in A. done.
    - destruct Ti as (_ & (r & -> & P & N0 & N1 & L & _) & Mn). destruct Q as (G & U). destruct next as [y b]. cbn in Mn. subst b.
      cbn [LockFree_Model.tstep] in E. destruct (cas_next (heap m) (Some r) l (y, false) (get_marked (y, false))) as [[b h']| |] eqn:Ec; cbn [rbind] in E; try done.
      apply cas_next_inv in Ec as [(-> & Ec & ->)|(-> & -> & y' & Ec & Ny)].
      + assert (G' : GI (upd (heap m) r l (get_marked (y, false))) none2) by (by apply mark_GI).
        assert (U' : UI (upd (heap m) r l (get_marked (y, false))) (fun k => Some k = Some r)) by (by apply mark_UI).
        destruct l as [|l]; injection E as <- <-; cbn [SQ heap]; [|done]. split; [done|]. eapply UI_dead; [exact U'|].
        intros [j A]. rewrite (upd_lk_same _ _ _ _ _ Ec) in A. done.
      + destruct l as [|l]; injection E as <- <-; done.
    - cbn [LockFree_Model.tstep] in E. injection E as <- <-. done.
    - cbn [LockFree_Model.tstep] in E. injection E as <- <-. done.
    - cbn [LockFree_Model.tstep] in E. cbv zeta in E. destruct Q as (G & U). destruct (decide _); injection E as <- <-; [done|]. by eapply SQ_find.
  Qed.
End lf.
