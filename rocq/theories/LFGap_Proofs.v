(** Lock-free skip list: calls that do not overlap never link a node again on a
    level it is not on at rest. *)
From stdpp Require Import functions.
From stdpp Require Import list relations.
From Verif Require Import Base Lin_Spec Lin_Proofs Lin_Hindsight LockFree_Model LockFree_Spec LockFree_Proofs LockFree_Proofs2 LockFree_Proofs3 LockFree_Proofs4 LockFree_Proofs5 LockFree_Proofs6 LockFree_Proofs7 LockFree_Proofs8 LockFree_Proofs9 LockFree_Proofs10 LockFree_Proofs13 LockFree_Proofs14 LockFree_Proofs15.

Lemma exec_app {C E : Type} (st : C -> option E -> C -> Prop) c h1 c1 h2 c2 : exec st c h1 c1 -> exec st c1 h2 c2 -> exec st c (h1 ++ h2) c2.
Proof.
  intros X1 X2. revert h1 c X1. induction X2 as [c1|c1 c2 h c3 X IH St|c1 c2 h e c3 X IH St]; intros h1 c X1.
  - by rewrite app_nil_r.
  - eapply exec_silent; [by apply IH|done].
  - rewrite app_assoc. eapply exec_event; [by apply IH|done].
Qed.

Section lf.
  Context {T : Type} (zero : T) (comp : T -> T -> Z) (H : cmp_ok comp).
  Notation node := (node T).
  Notation heap_t := (list node).
  Notation HI := (HI comp).
  Notation step := (step comp).
  Notation tstep := (tstep comp).
  Notation ok := (ok zero comp).
  (** the nodes on each level at rest, and how many nodes there were *)
  Context (S0 : nat -> nat -> Prop) (N0 : nat).

  Definition kept (h : heap_t) : Prop := N0 <= length h /\ forall l i, onl h l i -> i < N0 -> S0 l i.
  (** the arrays of a search down to level [lo] are fresh *)
  Definition FR (h : heap_t) (lo : nat) (prevs succs : list (option nat)) : Prop :=
    forall l, lo <= l < max_level -> exists i c, prevs !! l = Some (Some i) /\ succs !! l = Some (Some c) /\ lk h i l = Some (Some c, false).
  Definition UQ (m : mem T) (p : pc T) : Prop :=
    let h := heap m in
    kept h /\
    match p with
    | Find k v prevs succs q => (forall l n, k <> ForLink l n) /\ FR h (S (pos_level q)) prevs succs /\ cleanp h q
    | AddCas v new prevs succs => N0 <= new /\ FR h 0 prevs succs
    | AddLink l v new prevs succs => N0 <= new /\ FR h l prevs succs /\
        (forall l', l <= l' < lvl h new -> exists s, succs !! l' = Some s /\ lk h new l' = Some (s, false))
    | _ => True
    end.

  Lemma kept_sub (h h' : heap_t) : kept h -> length h <= length h' -> (forall l i, onl h' l i -> onl h l i) -> kept h'.
  Proof. intros [L K] L' Su. split; [lia|]. intros l i O Li. apply K; [by apply Su|done]. Qed.
  Lemma kept_new (h h' : heap_t) new : kept h -> length h <= length h' -> N0 <= new -> (forall l i, onl h' l i -> onl h l i \/ i = new) -> kept h'.
  Proof. intros [L K] L' Ln Su. split; [lia|]. intros l i O Li. destruct (Su _ _ O) as [O'| ->]; [by apply K|lia]. Qed.
  Lemma kept_alloc (h : heap_t) pub ch nd : HI h pub ch -> kept h -> kept (h ++ [nd]).
  Proof.
    intros I K. eapply kept_sub; [done|rewrite app_length; lia|]. intros l i O. eapply alloc_onl; [exact I|exact O].
  Qed.
  Lemma snip_sub (h : heap_t) p l c n x y : lk h p l = Some (Some c, x) -> lk h c l = Some (Some n, y) ->
    forall l' k, onl (upd h p l (Some n, false)) l' k -> onl h l' k.
  Proof.
    intros Ep Ec l' k O. destruct (decide (l' = l)) as [->|N]; [|by apply onl_ne in O].
    revert k O. apply onl_ind; [apply onl_0|]. intros i j _ E O.
    destruct (decide (i = p)) as [->|Np]; [|apply nxt_other in E; [by eapply onl_S|done]].
    destruct E as [m E]. rewrite (upd_lk_same _ _ _ _ _ Ep) in E. injection E as <- <-.
    eapply onl_S; [eapply onl_S; [exact O|exists x; exact Ep]|exists y; exact Ec].
  Qed.
  Lemma link_sub (h : heap_t) p l c new x y : lk h p l = Some (Some c, x) -> lk h new l = Some (Some c, y) ->
    forall l' k, onl (upd h p l (Some new, false)) l' k -> onl h l' k \/ k = new.
  Proof.
    intros Ep En l' k O. destruct (decide (l' = l)) as [->|N]; [|apply onl_ne in O; [by left|done]].
    assert (G : onl h l k \/ k = new /\ onl h l p); [|tauto]. revert k O. apply onl_ind; [left; apply onl_0|]. intros i j _ E IH.
    assert (C : (i = p /\ j = new) \/ nxt h l i j).
    { destruct (decide (i = p)) as [->|Np]; [|right; by apply nxt_other in E].
      destruct E as [m E]. rewrite (upd_lk_same _ _ _ _ _ Ep) in E. injection E as <- <-. by left. }
    destruct C as [[-> ->]|C].
    - right. split; [done|]. destruct IH as [IH|[_ IH]]; done.
    - left. destruct IH as [IH|[-> IH]]; [by eapply onl_S|]. destruct C as [m C]. rewrite En in C. injection C as <- <-.
      eapply onl_S; [exact IH|exists x; exact Ep].
  Qed.
  Lemma mark_sub (h : heap_t) nd l x : lk h nd l = Some (x, false) -> forall l' k, onl (upd h nd l (x, true)) l' k -> onl h l' k.
  Proof. intros E l' k O. by apply (mark_onl _ _ _ _ _ _ E) in O. Qed.
  Lemma FR_upd h p l x lo prevs succs : FR h lo prevs succs -> l < lo -> FR (upd h p l x) lo prevs succs.
  Proof. intros F L l' Hl. destruct (F l' Hl) as (i & c & Ei & Ec & El). exists i, c. rewrite upd_lk_ne by lia. done. Qed.
  Lemma FR_mono h lo lo' prevs succs : FR h lo prevs succs -> lo <= lo' -> FR h lo' prevs succs.
  Proof. intros F L l Hl. apply F. lia. Qed.

  Lemma UQ_find m pub ch k v prevs succs : HI (heap m) pub ch -> kept (heap m) -> (forall l n, k <> ForLink l n) -> UQ m (find_start k v prevs succs).
  Proof.
    intros I K Hk. split; [done|]. cbn [find_start pos_level]. splits; [done| |by eapply start_clean].
    intros l Hl. unfold max_level in Hl. lia.
  Qed.
  Lemma found_UQ m pub ch k v prevs succs c top m' p' : HI (heap m) pub ch -> kept (heap m) -> (forall l n, k <> ForLink l n) ->
    FR (heap m) 0 prevs succs -> found comp m k v prevs succs (Some c) top = Ok (m', p') -> UQ m' p'.
  Proof.
    intros I K Hk F E. destruct k as [|l new| | | |r]; cbn [found] in E.
    - destruct (equals comp (heap m) (Some c) v) as [[|]| |]; cbn [rbind] in E; try done; injection E as <- <-; [done|].
      split; cbn [heap]; [by eapply kept_alloc|]. split; [by destruct K|]. intros l Hl. destruct (F l Hl) as (i & c' & Ei & Ec & El). exists i, c'. splits; try done. rewrite alloc_lk; [done|]. apply lk_node in El as (n & En & _). by eapply lookup_lt_Some.
    - by destruct (Hk l new).
    - destruct (equals comp (heap m) (Some c) v) as [[|]| |]; cbn [rbind] in E; try done; [|by injection E as <- <-].
      cbn [deref rbind] in E. destruct (heap m !! c) as [n|]; cbn [deref rbind] in E; [|done]. by injection E as <- <-.
    - destruct (equals comp (heap m) (Some c) v) as [b| |]; cbn [rbind] in E; try done; by injection E as <- <-.
    - cbn [deref rbind] in E. destruct (heap m !! c) as [n|]; cbn [deref rbind] in E; [|done]. by injection E as <- <-.
    - by injection E as <- <-.
  Qed.

  Lemma UQ_step m p top m' p' : ok m p -> UQ m p -> running p = true -> random_level top -> tstep m p top = Ok (m', p') -> UQ m' p'.
  Proof.
    intros O [K Q] Hr Ht E. destruct (ok_TI _ _ _ _ O) as (pub & ch & past & f & I & Ti).
    destruct p as [|k v prevs succs q|v new prevs succs|l v new prevs succs| |v l nd|v l nd next| | |v|r]; try done.
    - destruct Ti as (Hk & Ha & Hpos). destruct Q as (Kk & F & Cl).
      destruct q as [l prev|l prev cur|l prev cur next]; cbn [pos_level] in *.
      + destruct Cl as (i0 & j & -> & El). cbn [LockFree_Model.tstep] in E. rewrite (load_next_ok _ _ _ _ El) in E. cbn [rbind] in E. injection E as <- <-.
        split; [done|]. cbn [pos_level]. splits; try done. by exists i0.
      + destruct Hpos as (Ll & i0 & c & -> & -> & (Pi & Ni & Li & Oi) & _ & Pc & Nc & Lc & _). destruct Cl as (? & [= <-] & El).
        destruct (hi_lk _ _ _ _ c l I Lc) as [[n b] Ec]. cbn [LockFree_Model.tstep] in E. rewrite (load_next_ok _ _ _ _ Ec) in E. cbn [rbind is_marked snd] in E. destruct b.
        { injection E as <- <-. split; [done|]. cbn [pos_level]. splits; try done. by exists i0. }
        destruct (less_ok comp (heap m) c v (hi_pub _ _ _ _ I _ Pc)) as (b & Eb & Hb). rewrite Eb in E. cbn [rbind fst] in E. destruct b.
        * injection E as <- <-. split; [done|]. cbn [pos_level]. splits; try done.
          -- intros l' n'. by destruct k; cbn; try done; apply Kk.
          -- by exists c.
        * destruct Ha as (L1 & L2 & _).
          assert (F' : FR (heap m) l (<[l := Some i0]> prevs) (<[l := Some c]> succs)).
          { intros l' Hl. destruct (decide (l' = l)) as [->|N].
            - exists i0, c. rewrite !list_lookup_insert by lia. done.
            - rewrite !list_lookup_insert_ne by done. apply F. lia. }
          destruct l as [|l].
          -- by eapply (found_UQ m pub ch).
          -- injection E as <- <-. split; [done|]. cbn [pos_level]. destruct (down_unmarked comp _ _ _ _ _ _ I Pi El) as [j' Ej]. splits; try done. by exists i0, j'.
      + destruct Hpos as (Ll & i0 & c & -> & -> & (Pi & Ni & Li & Oi) & _ & Pc & Nc & Nc1 & Ec & Mn). destruct Cl as (? & [= <-] & El).
        cbn [LockFree_Model.tstep] in E. rewrite (cas_ok _ _ _ _ _ El) in E. cbn [rbind] in E. injection E as <- <-.
        destruct (hi_link _ _ _ _ I c l _ Pc Nc1 Ec) as (n & En & Pn & _). destruct next as [? b]. cbn in En, Mn. subst. cbn [get_unmarked fst].
        split; cbn [heap pos_level]; [|splits; [done|apply FR_upd; [done|lia]|]].
        * eapply kept_sub; [done|by rewrite upd_length|]. by eapply snip_sub.
        * exists i0, (Some n). split; [done|]. apply (upd_lk_same _ _ _ _ _ El).
    - destruct Ti as (_ & Ha & Np & (top' & Htop & En) & Hs & _). destruct Q as (Ln & F).
      destruct (F 0) as (i & c & Ei & Ec & El); [unfold max_level; lia|]. cbn [LockFree_Model.tstep] in E. rewrite Ei, Ec in E. cbn [deref rbind] in E.
      rewrite (cas_ok _ _ _ _ _ El) in E. cbn [rbind] in E.
      assert (Lkn : forall l' s, l' < top' -> succs !! l' = Some s -> lk (heap m) new l' = Some (s, false)).
      { intros l' s L E'. apply lk_node. eexists. split; [exact En|]. cbn [make_node nexts]. rewrite list_lookup_fmap, lookup_take by done. by rewrite E'. }
      assert (Lvn : lvl (heap m) new = top') by (unfold lvl; by rewrite En).
      pose proof (Lkn 0 (Some c) ltac:(lia) Ec) as Ln0.
      destruct (upd (heap m) i 0 (Some new, false) !! new) as [nd|] eqn:End; cbn [deref rbind] in E; [|done]. injection E as <- <-.
      assert (Lnd : level nd = top').
      { rewrite <-Lvn, <-(upd_lvl (heap m) i 0 (Some new, false) new). unfold lvl. by rewrite End. }
      assert (K' : kept (upd (heap m) i 0 (Some new, false))).
      { eapply (kept_new _ _ new); [done|by rewrite upd_length|done|]. by eapply link_sub. }
      unfold add_next. destruct (decide (1 < level nd)) as [Lt|Ge]; (split; cbn [heap]; [done|]); [|done]. splits; [done| |].
      + apply FR_upd; [|lia]. eapply FR_mono; [done|lia].
      + intros l' Hl'. rewrite upd_lvl in Hl'. destruct (F l') as (a & b & Ea & Eb & _); [lia|]. exists (Some b). split; [done|].
        rewrite upd_lk_ne by lia. apply Lkn; [lia|done].
    - destruct Ti as (_ & Ha & Pn & Ll & Kn). destruct Q as (Ln & F & Lkn). pose proof (hi_lvl _ _ _ _ _ I (hi_pub _ _ _ _ I _ Pn)) as Lm.
      destruct (F l) as (i & c & Ei & Ec & El); [lia|]. cbn [LockFree_Model.tstep] in E. rewrite Ei, Ec in E. cbn [deref rbind] in E.
      rewrite (cas_ok _ _ _ _ _ El) in E. cbn [rbind] in E. destruct (Lkn l) as (s & Es & Lnl); [lia|]. rewrite Ec in Es. injection Es as <-.
      destruct (upd (heap m) i l (Some new, false) !! new) as [nd|] eqn:End; cbn [deref rbind] in E; [|done]. injection E as <- <-.
      assert (Lnd : level nd = lvl (heap m) new).
      { rewrite <-(upd_lvl (heap m) i l (Some new, false) new). unfold lvl. by rewrite End. }
      assert (K' : kept (upd (heap m) i l (Some new, false))).
      { eapply (kept_new _ _ new); [done|by rewrite upd_length|done|]. by eapply link_sub. }
      unfold add_next. destruct (decide (l + 1 < level nd)) as [Lt|Ge]; (split; cbn [heap]; [done|]); [|done]. splits; [done| |].
      + apply FR_upd; [|lia]. eapply FR_mono; [done|lia].
      + intros l' Hl'. rewrite upd_lvl in Hl'. rewrite upd_lk_ne by lia. apply Lkn. lia.
    - cbn [LockFree_Model.tstep] in E. injection E as <- <-. done.
    - destruct Ti as (_ & (r & -> & P & N1 & N2 & L & _)). destruct (hi_lk _ _ _ _ r _ I L) as [[y b] Ey].
      cbn [LockFree_Model.tstep] in E. rewrite (load_next_ok _ _ _ _ Ey) in E. cbn [rbind is_marked snd] in E. destruct b; [destruct l as [|l]|]; by injection E as <- <-.
    - destruct Ti as (_ & (r & -> & P & N1 & N2 & L & _) & Mn). destruct next as [y b]. cbn in Mn. subst b.
      cbn [LockFree_Model.tstep] in E. destruct (cas_next (heap m) (Some r) l (y, false) (get_marked (y, false))) as [[b h']| |] eqn:Ec; cbn [rbind] in E; try done.
      apply cas_next_inv in Ec as [(-> & Ec & ->)|(-> & -> & y' & Ec & Ny)].
      + assert (K' : kept (upd (heap m) r l (get_marked (y, false)))).
        { eapply kept_sub; [done|by rewrite upd_length|]. by eapply mark_sub. }
        destruct l as [|l]; injection E as <- <-; by split.
      + destruct l as [|l]; injection E as <- <-; by split.
    - cbn [LockFree_Model.tstep] in E. injection E as <- <-. done.
    - cbn [LockFree_Model.tstep] in E. injection E as <- <-. done.
    - cbn [LockFree_Model.tstep] in E. cbv zeta in E. destruct (decide _); injection E as <- <-; [done|]. by eapply UQ_find.
  Qed.

  Lemma oat_kept n h0 x h : exec step (sys_init zero n) h0 x -> quiet x -> kept (heap (shared x)) -> one_at_a_time h ->
    forall y, exec step x h y -> exec step (sys_init zero n) (h0 ++ h) y /\ quiet y /\ kept (heap (shared y)).
  Proof.
    intros E0 Q0 K0. induction 1 as [|h t o r Hh IH]; intros y E.
    - rewrite app_nil_r. rewrite (quiet_stays comp _ _ Q0 E). done.
    - apply exec_app_inv in E as (x1 & E1 & E2). destruct (IH _ E1) as (E1' & Q & K). pose proof (call_in_range comp _ _ _ _ _ E2 Q) as Lt.
      destruct (reach zero comp H _ _ _ E1') as (ms & s & ph & past & _ & (pub & ch & Rr)). pose proof (r_heap _ _ _ _ _ _ _ _ _ Rr) as I.
      split; [rewrite app_assoc; by eapply exec_app|].
      destruct (solo_exec comp x1 t o (fun m p => ok m p /\ UQ m p) Q) with (h := [Call t o; Return t r] : list (event (op T) (ret T))) (y := y) as (_ & _ & F); [| |done|].
      + split; [by eapply (quiet_ok zero comp H)|]. destruct o; cbn [start]; first [by eapply UQ_find | by split].
      + intros m p top m' p' [O U] Hr Ht Es. split; [by eapply (ok_step zero comp H)|by eapply UQ_step].
      + destruct (F r eq_refl) as ((_ & [K' _]) & Ep). unfold quiet. rewrite Ep. split; [done|]. exact K'.
  Qed.
End lf.

Section paths.
  Context {T : Type} (zero : T) (comp : T -> T -> Z) (H : cmp_ok comp).
  Lemma path_onl (h : list (node T)) l i ids : path h l i ids -> onl h l i -> forall k, k ∈ ids -> onl h l k /\ k <> tail.
  Proof.
    induction 1 as [i n m En El|i n m j ids En El N P IH]; intros O k Hk; [by apply elem_of_nil in Hk|].
    assert (Oj : onl h l j) by (eapply onl_S; [exact O|]; exists m; apply lk_node; by exists n).
    apply elem_of_cons in Hk as [->|Hk]; [done|]. by apply IH.
  Qed.
  Lemma path_next (h : list (node T)) l i ids : path h l i ids -> forall k j, k = i \/ k ∈ ids -> nxt h l k j -> j = tail \/ j ∈ ids.
  Proof.
    induction 1 as [i n m En El|i n m j0 ids En El N P IH]; intros k j Hk [m' E]; apply lk_node in E as (n' & En' & E).
    - destruct Hk as [->|Hk]; [|by apply elem_of_nil in Hk]. assert (n' = n) as -> by congruence. pose proof (eq_trans (eq_sym El) E) as E2. injection E2 as <- _. by left.
    - destruct Hk as [->|Hk].
      + assert (n' = n) as -> by congruence. pose proof (eq_trans (eq_sym El) E) as E2. injection E2 as <- _. right. by left.
      + apply elem_of_cons in Hk as [->|Hk].
        * destruct (IH j0 j) as [|]; [by left|exists m'; apply lk_node; by exists n'|by left|right; by right].
        * destruct (IH k j) as [|]; [by right|exists m'; apply lk_node; by exists n'|by left|right; by right].
  Qed.
  Lemma onl_path (h : list (node T)) pub ch l ids : HI comp h pub ch -> path h l head ids -> forall k, onl h l k -> k = head \/ k = tail \/ k ∈ ids.
  Proof.
    intros I P. apply onl_ind; [by left|]. intros i j O E IH. right.
    destruct IH as [->|[->|IH]]; [by eapply path_next; [exact P|by left|exact E]| |by eapply path_next; [exact P|by right|exact E]].
    destruct E as [m E]. by apply (hi_tailnil _ _ _ _ I) in E.
  Qed.
  Lemma missing_stays n h x h' y l ids ids' : exec (step comp) (sys_init zero n) h x -> quiet x -> one_at_a_time h' -> exec (step comp) x h' y ->
    path (heap (shared x)) l head ids -> path (heap (shared y)) l head ids' ->
    forall i, i ∈ ids' -> i < length (heap (shared x)) -> i ∈ ids.
  Proof.
    intros E Q Oat E' P P' i Hi Li.
    destruct (reach zero comp H _ _ _ E) as (ms & s & ph & past & _ & (pub & ch & Rr)). pose proof (r_heap _ _ _ _ _ _ _ _ _ Rr) as I.
    destruct (oat_kept zero comp H (onl (heap (shared x))) (length (heap (shared x))) n h x h' E Q) with (y := y) as (E2 & Q2 & [_ K]); try done.
    destruct (reach zero comp H _ _ _ E2) as (ms2 & s2 & ph2 & past2 & _ & (pub2 & ch2 & Rr2)). pose proof (r_heap _ _ _ _ _ _ _ _ _ Rr2) as I2.
    destruct (path_onl _ _ _ _ P' (onl_0 _ _) _ Hi) as [O Nt]. specialize (K _ _ O Li).
    destruct (onl_path _ _ _ _ _ I P _ K) as [->|[->|]]; [|done|done]. exfalso. clear K.
    assert (G : forall i0 ids0, path (heap (shared y)) l i0 ids0 -> onl (heap (shared y)) l i0 -> 0 ∉ ids0); [|by apply (G _ _ P' (onl_0 _ _))].
    clear - I2 H. intros i0 ids0. induction 1 as [i n m En El|i n m j ids En El N P IH]; intros O Hi; [by apply elem_of_nil in Hi|].
    assert (E : nxt (heap (shared y)) l i j) by (exists m; apply lk_node; by exists n).
    destruct (onl_link comp _ _ _ _ _ _ I2 (onl_pub comp _ _ _ _ _ I2 O) E) as (_ & N0 & _).
    apply elem_of_cons in Hi as [Hj|Hi]; [by destruct N0|]. apply IH; [by eapply onl_S|done].
  Qed.
End paths.
