(** Lock-free skip list: a goroutine that runs alone finishes its call. *)
From stdpp Require Import functions.
From stdpp Require Import list.
From Verif Require Import Base Lin_Spec Lin_Proofs Lin_Hindsight LockFree_Model LockFree_Spec LockFree_Proofs LockFree_Proofs2 LockFree_Proofs3 LockFree_Proofs4 LockFree_Proofs5 LockFree_Proofs6 LockFree_Proofs7.

Section lf.
  Context {T : Type} (zero : T) (comp : T -> T -> Z) (H : cmp_ok comp).
  Notation node := (node T).
  Notation heap_t := (list node).
  Notation HI := (HI comp).
  Notation RI := (RI zero comp).
  Notation R := (R zero comp).
  Notation elt := (elt comp).
  Notation step := (step comp).
  Notation tstep := (tstep comp).
  Notation depth := (depth comp).

  (** [k] steps are enough *)
  Inductive halts : nat -> mem T -> pc T -> Prop :=
  | halts_done k m p : running p = false -> halts k m p
  | halts_step k m p : (forall top, random_level top -> forall m' p', tstep m p top = Ok (m', p') -> halts k m' p') -> halts (S k) m p.
  Lemma halts_mono k k' m p : halts k m p -> k <= k' -> halts k' m p.
  Proof.
    intros Hh. revert k'. induction Hh as [k m p Hr|k m p _ IH]; intros k' L; [by apply halts_done|]. destruct k' as [|k']; [lia|].
    apply halts_step. intros top Ht m' p' E. eapply IH; [done|done|lia].
  Qed.
  Definition term (m : mem T) (p : pc T) : Prop := exists k, halts k m p.
  Lemma term_step m p : (forall top, random_level top -> forall m' p', tstep m p top = Ok (m', p') -> term m' p') -> term m p.
  Proof.
    intros F. assert (G : forall n, exists k, forall top, 1 <= top <= n -> top <= max_level -> forall m' p', tstep m p top = Ok (m', p') -> halts k m' p').
    { induction n as [|n [k IH]]; [exists 0; intros; lia|]. destruct (decide (S n <= max_level)) as [L|L].
      - destruct (tstep m p (S n)) as [[m' p']| |] eqn:E.
        + destruct (F (S n)) with (m' := m') (p' := p') as [k' Hk]; [split; [lia|done]|done|]. exists (k `max` k'). intros top Ht Lt m1 p1 E1.
          destruct (decide (top = S n)) as [->|].
          * rewrite E in E1. injection E1 as <- <-. eapply halts_mono; [done|lia].
          * eapply halts_mono; [eapply IH; [|done|done]; lia|lia].
        + exists k. intros top Ht Lt m1 p1 E1. destruct (decide (top = S n)) as [->|]; [by rewrite E in E1|]. eapply IH; [|done|done]; lia.
        + exists k. intros top Ht Lt m1 p1 E1. destruct (decide (top = S n)) as [->|]; [by rewrite E in E1|]. eapply IH; [|done|done]; lia.
      - exists k. intros top Ht Lt. apply IH; lia. }
    destruct (G max_level) as [k Hk]. exists (S k). apply halts_step. intros top [Ht1 Ht2]. by apply Hk.
  Qed.
  Lemma term_done m p : running p = false -> term m p.
  Proof. exists 0. by apply halts_done. Qed.

  (** a goroutine in a reachable state *)
  Definition ok (m : mem T) (p : pc T) : Prop := exists ps t s ph past pub ch, RI m ps s ph past pub ch /\ ps !! t = Some p.
  Lemma ok_step m p top m' p' : ok m p -> running p = true -> random_level top -> tstep m p top = Ok (m', p') -> ok m' p'.
  Proof.
    intros (ps & t & s & ph & past & pub & ch & Rr & Ep) Hr Ht E.
    destruct (tstep_ok zero comp H _ _ _ _ _ _ _ t p top Rr Ep Hr Ht) as (m1 & p1 & s' & ph' & past' & E' & _ & (pub' & ch' & Rr') & _).
    rewrite E in E'. injection E' as <- <-. exists (<[t := p']> ps), t, s', ph', past', pub', ch'. split; [done|]. apply list_lookup_insert. by eapply lookup_lt_Some.
  Qed.
  Lemma ok_run m p top : ok m p -> running p = true -> random_level top -> exists m' p', tstep m p top = Ok (m', p').
  Proof.
    intros (ps & t & s & ph & past & pub & ch & Rr & Ep) Hr Ht.
    destruct (tstep_ok zero comp H _ _ _ _ _ _ _ t p top Rr Ep Hr Ht) as (m1 & p1 & s' & ph' & past' & E' & _). eauto.
  Qed.
  Lemma ok_TI m p : ok m p -> exists pub ch past f, HI (heap m) pub ch /\ TI comp (heap m) pub past f p.
  Proof. intros (ps & t & s & ph & past & pub & ch & Rr & Ep). exists pub, ch, (past t), (ph t). split; by apply Rr. Qed.

  (** *** Del *)
  Lemma term_inc m : term m AddInc.
  Proof. apply term_step. intros top _ m' p' [= <- <-]. by apply term_done. Qed.
  Lemma term_dec m : term m DelDec.
  Proof. apply term_step. intros top _ m' p' [= <- <-]. by apply term_done. Qed.
  Lemma cas_next_inv (h : heap_t) i l a b ok' h' : cas_next h (Some i) l a b = Ok (ok', h') ->
    (ok' = true /\ lk h i l = Some a /\ h' = upd h i l b) \/ (ok' = false /\ h' = h /\ exists y, lk h i l = Some y /\ y <> a).
  Proof.
    intros E. destruct (lk h i l) as [y|] eqn:Ek.
    - destruct (decide (y = a)) as [->|N].
      + rewrite (cas_ok _ _ _ _ _ Ek) in E. injection E as <- <-. by left.
      + rewrite (cas_fail _ _ _ _ _ _ Ek N) in E. injection E as <- <-. right. splits; try done. by exists y.
    - exfalso. unfold cas_next, lk in *. cbn in E. destruct (h !! i) as [n|]; cbn in *; [|done]. rewrite Ek in E. done.
  Qed.
  Lemma term_del l : forall m v nd, ok m (DelLoad v l nd) -> term m (DelLoad v l nd).
  Proof.
    induction l as [|l IH]; intros m v nd O; destruct (ok_TI _ _ O) as (pub & ch & past & f & I & (_ & (r & -> & P & N0 & N1 & L & _)));
      destruct (hi_lk _ _ _ _ r _ I L) as [y E]; apply term_step; intros top Ht m' p' Es; pose proof (ok_step _ _ _ _ _ O eq_refl Ht Es) as O';
      cbn [LockFree_Model.tstep] in Es; rewrite (load_next_ok _ _ _ _ E) in Es; cbn [rbind] in Es; destruct (is_marked y) eqn:M; injection Es as <- <-.
    - by apply term_done.
    - apply term_step. clear top Ht. intros top Ht m' p' Es. cbn [LockFree_Model.tstep] in Es. rewrite (cas_ok _ _ _ _ _ E) in Es. cbn [rbind] in Es. injection Es as <- <-. apply term_dec.
    - by apply IH.
    - apply term_step. clear top Ht. intros top Ht m' p' Es. pose proof (ok_step _ _ _ _ _ O' eq_refl Ht Es) as O2.
      cbn [LockFree_Model.tstep] in Es. rewrite (cas_ok _ _ _ _ _ E) in Es. cbn [rbind] in Es. injection Es as <- <-.
      apply term_step. clear top Ht. intros top Ht m' p' Es. pose proof (ok_step _ _ _ _ _ O2 eq_refl Ht Es) as O3.
      cbn [LockFree_Model.tstep heap] in Es. rewrite (load_next_ok _ _ _ _ (upd_lk_same _ _ _ _ _ E)) in Es. cbn [rbind is_marked get_marked snd] in Es. injection Es as <- <-. by apply IH.
  Qed.
  Lemma term_delcas m v l nd next : ok m (DelCas v l nd next) -> term m (DelCas v l nd next).
  Proof.
    intros O. destruct (ok_TI _ _ O) as (pub & ch & past & f & I & (_ & (r & -> & P & N0 & N1 & L & _) & _)).
    apply term_step. intros top Ht m' p' Es. pose proof (ok_step _ _ _ _ _ O eq_refl Ht Es) as O'. cbn [LockFree_Model.tstep] in Es.
    destruct (cas_next (heap m) (Some r) l next (get_marked next)) as [[b h']| |] eqn:E; cbn [rbind] in Es; try done.
    destruct l as [|l]; [destruct b|]; injection Es as <- <-; [apply term_dec|by apply term_del|by apply term_del].
  Qed.

  (** *** Add: the links of the upper levels *)
  Definition fresh (h : heap_t) (lo : nat) (prevs succs : list (option nat)) : Prop :=
    forall l, lo <= l < max_level -> exists i j, prevs !! l = Some (Some i) /\ succs !! l = Some j /\ lk h i l = Some (j, false).
  Lemma fresh_mono h lo lo' prevs succs : fresh h lo prevs succs -> lo <= lo' -> fresh h lo' prevs succs.
  Proof. intros F L l Hl. apply F. lia. Qed.
  Lemma fresh_upd h lo i l x prevs succs : fresh h lo prevs succs -> l < lo -> fresh (upd h i l x) lo prevs succs.
  Proof. intros F L l' Hl. destruct (F l' Hl) as (a & b & Ea & Eb & Ek). exists a, b. splits; try done. rewrite upd_lk_ne; [done|]. right. lia. Qed.
  Lemma term_addlink_fresh d : forall m l v new prevs succs, ok m (AddLink l v new prevs succs) -> lvl (heap m) new - l <= d -> fresh (heap m) l prevs succs ->
    term m (AddLink l v new prevs succs).
  Proof.
    induction d as [|d IH]; intros m l v new prevs succs O D F; destruct (ok_TI _ _ O) as (pub & ch & past & f & I & (_ & _ & Pn & L & _)); [lia|].
    pose proof (hi_lvl _ _ _ _ _ I (hi_pub _ _ _ _ I _ Pn)) as Lm. destruct (F l) as (i & j & Ei & Ej & E); [lia|].
    apply term_step. intros top Ht m' p' Es. pose proof (ok_step _ _ _ _ _ O eq_refl Ht Es) as O'. cbn [LockFree_Model.tstep] in Es.
    rewrite Ei, Ej in Es. cbn [deref rbind] in Es. rewrite (cas_ok _ _ _ _ _ E) in Es. cbn [rbind] in Es.
    destruct (upd (heap m) i l (Some new, false) !! new) as [nd|] eqn:En; cbn [deref rbind] in Es; [|done]. injection Es as <- <-.
    unfold add_next in *. destruct (decide (l + 1 < level nd)); [|apply term_inc]. apply IH; [done| |].
    - cbn [heap]. rewrite upd_lvl. lia.
    - cbn [heap]. apply fresh_upd; [|lia]. eapply fresh_mono; [done|lia].
  Qed.
  Lemma term_addcas_fresh m v new prevs succs : ok m (AddCas v new prevs succs) -> fresh (heap m) 0 prevs succs -> term m (AddCas v new prevs succs).
  Proof.
    intros O F. destruct (F 0) as (i & j & Ei & Ej & E); [unfold max_level; lia|].
    apply term_step. intros top Ht m' p' Es. pose proof (ok_step _ _ _ _ _ O eq_refl Ht Es) as O'. cbn [LockFree_Model.tstep] in Es.
    rewrite Ei, Ej in Es. cbn [deref rbind] in Es. rewrite (cas_ok _ _ _ _ _ E) in Es. cbn [rbind] in Es.
    destruct (upd (heap m) i 0 (Some new, false) !! new) as [nd|] eqn:En; cbn [deref rbind] in Es; [|done]. injection Es as <- <-.
    unfold add_next in *. destruct (decide (1 < level nd)); [|apply term_inc]. eapply term_addlink_fresh; [done|done|].
    cbn [heap]. apply fresh_upd; [|lia]. eapply fresh_mono; [done|lia].
  Qed.

  (** *** The search *)
  Definition cleanp (h : heap_t) (p : pos) : Prop :=
    match p with
    | PLoad l prev => exists i j, prev = Some i /\ lk h i l = Some (j, false)
    | PCur l prev cur => exists i, prev = Some i /\ lk h i l = Some (cur, false)
    | PSnip l prev cur next => exists i, prev = Some i /\ lk h i l = Some (cur, false)
    end.
  Definition big (h : heap_t) : nat := 4 * length h + 8.
  Definition mu (h : heap_t) (p : pos) : nat :=
    match p with
    | PLoad l prev => l * big h + 4 * default 0 (i ← prev; x ← lk h i l; depth h <$> x.1) + 3
    | PCur l prev cur => l * big h + 4 * default 0 (depth h <$> cur) + 2
    | PSnip l prev cur next => l * big h + 4 * default 0 (depth h <$> cur) + 1
    end.
  Lemma mu_down h l (p : option nat) (c : option nat) : 
    mu h (PLoad l p) < S l * big h + 4 * default 0 (depth h <$> c) + 2.
  Proof.
    unfold mu. assert (default 0 (i ← p; x ← lk h i l; depth h <$> x.1) <= length h); [|unfold big; lia].
    destruct p as [i|]; cbn; [|lia]. destruct (lk h i l) as [[[j|] b]|]; cbn; try lia. apply depth_le.
  Qed.
  Lemma start_clean h pub ch : HI h pub ch -> cleanp h (PLoad (max_level - 1) (Some head)).
  Proof.
    intros I. destruct (hi_lk _ _ _ _ 0 (max_level - 1) I) as [[j b] E]; [rewrite (hi_head _ _ _ _ I); unfold max_level; lia|].
    pose proof (hi_headlive _ _ _ _ I _ _ E) as M. cbn in M. subst b. exists 0, j. done.
  Qed.
  (** an unmarked link stays unmarked further down *)
  Lemma down_unmarked h pub ch i l j : HI h pub ch -> pub i -> lk h i (S l) = Some (j, false) -> exists j', lk h i l = Some (j', false).
  Proof.
    intros I P E. pose proof (hi_lklvl _ _ _ _ _ _ _ I E) as L. destruct (hi_lk _ _ _ _ i l I) as [[j' [|]] E']; [lia| |by exists j'].
    pose proof (hi_mark _ _ _ _ I i l (S l) _ _ P E' ltac:(lia) E). done.
  Qed.

  (** the search, in general: [C] tells whether the search is known not to
      retry; [K] what happens when it ends, [Q] when it retries *)
  Lemma term_search (C : Prop) k v
    (K : forall m k' prevs succs i c top m' p', ok m (Find k' v prevs succs (PCur 0 (Some i) (Some c))) -> (exists r, k' = k \/ (k = ForRank r /\ exists r', k' = ForRank r')) ->
       (C -> fresh (heap m) 0 (<[0 := Some i]> prevs) (<[0 := Some c]> succs)) -> random_level top ->
       found comp m k' v (<[0 := Some i]> prevs) (<[0 := Some c]> succs) (Some c) top = Ok (m', p') -> ok m' p' -> term m' p')
    (Q : C \/ forall m k' prevs succs, ok m (find_start k' v prevs succs) -> (exists r, k' = k \/ (k = ForRank r /\ exists r', k' = ForRank r')) -> term m (find_start k' v prevs succs)) :
    forall d m k' prevs succs p, mu (heap m) p <= d -> (exists r, k' = k \/ (k = ForRank r /\ exists r', k' = ForRank r')) ->
      ok m (Find k' v prevs succs p) -> (C -> cleanp (heap m) p /\ fresh (heap m) (S (pos_level p)) prevs succs) -> term m (Find k' v prevs succs p).
  Proof.
    induction d as [d IH] using lt_wf_ind. intros m k' prevs succs p D Hk O HC.
    destruct (ok_TI _ _ O) as (pub & ch & past & f & I & (Hp & Ha & Hpos)). apply term_step. intros top Ht m' p' Es.
    pose proof (ok_step _ _ _ _ _ O eq_refl Ht Es) as O'. destruct p as [l prev|l prev cur|l prev cur next].
    - destruct Hpos as (Ll & i & -> & (Pi & Ni & Li & Oi) & _). destruct (hi_lk _ _ _ _ i l I Li) as [x E]. cbn [LockFree_Model.tstep] in Es.
      rewrite (load_next_ok _ _ _ _ E) in Es. cbn [rbind] in Es. injection Es as <- <-.
      eapply IH; [|reflexivity|done|done|].
      + eapply Nat.lt_le_trans; [|exact D]. unfold mu. cbn [mbind option_bind]. rewrite E. cbn [mbind option_bind]. unfold get_unmarked. lia.
      + intros c. destruct (HC c) as [(i' & j & [= <-] & E') F]. rewrite E in E'. injection E' as ->. split; [|done]. exists i. done.
    - destruct Hpos as (Ll & i & c & -> & -> & (Pi & Ni & Li & Oi) & _ & Pc & Nc & Lc & _). destruct (hi_lk _ _ _ _ c l I Lc) as [[n b] E]. cbn [LockFree_Model.tstep] in Es.
      rewrite (load_next_ok _ _ _ _ E) in Es. cbn [rbind is_marked snd] in Es. destruct b.
      + injection Es as <- <-. eapply IH; [|reflexivity|done|done|].
        * eapply Nat.lt_le_trans; [|exact D]. unfold mu. lia.
        * intros c0. destruct (HC c0) as [(i' & [= <-] & E') F]. split; [|done]. by exists i.
      + destruct (less_ok comp (heap m) c v (hi_pub _ _ _ _ I _ Pc)) as (b & Eb & Hb). rewrite Eb in Es. cbn [rbind fst] in Es. destruct b.
        * injection Es as <- <-. assert (Nc1 : c <> 1) by (intros ->; by destruct Hb as [Hb _]; specialize (Hb eq_refl)).
          destruct (hi_link _ _ _ _ I c l _ Pc Nc1 E) as (n' & [= ->] & Pn & Nn & Ln & On). eapply IH; [|reflexivity| |done|].
          -- eapply Nat.lt_le_trans; [|exact D]. unfold mu. cbn [fmap option_fmap option_map default from_option id].
             pose proof (depth_lt comp H _ _ _ _ On (hi_pub _ _ _ _ I _ Pn)). lia.
          -- destruct Hk as (r & [->|(-> & r' & ->)]); [destruct k; cbn; eauto|cbn; eauto].
          -- intros c0. destruct (HC c0) as [_ F]. split; [|done]. by exists c.
        * destruct l as [|l].
          -- eapply (K m k' prevs succs i c top); try done. intros c0. destruct (HC c0) as [(i' & [= <-] & E') F].
             intros l' Hl'. destruct Ha as (L1 & L2 & _). destruct (decide (l' = 0)) as [->|N].
             ++ exists i, (Some c). rewrite !list_lookup_insert by lia. done.
             ++ rewrite !list_lookup_insert_ne by done. apply F. cbn [pos_level]. lia.
          -- injection Es as <- <-. eapply IH; [|reflexivity|done|done|].
             ++ eapply Nat.lt_le_trans; [apply (mu_down _ _ _ (Some c))|exact D].
             ++ intros c0. destruct (HC c0) as [(i' & [= <-] & E') F]. split.
                ** destruct (down_unmarked _ _ _ _ _ _ I Pi E') as [j' Ej]. exists i, j'. done.
                ** intros l' Hl'. destruct Ha as (L1 & L2 & _). cbn [pos_level] in *. destruct (decide (l' = S l)) as [->|N].
                   --- exists i, (Some c). rewrite !list_lookup_insert by lia. done.
                   --- rewrite !list_lookup_insert_ne by done. apply F. lia.
    - destruct Hpos as (Ll & i & c & -> & -> & (Pi & Ni & Li & Oi) & _ & Pc & Nc & Nc1 & Ec & Mn). cbn [LockFree_Model.tstep] in Es.
      destruct (cas_next (heap m) (Some i) l (Some c, false) (get_unmarked next, false)) as [[b h']| |] eqn:E; cbn [rbind] in Es; try done.
      apply cas_next_inv in E as [(-> & E & ->)|(-> & -> & y & E & Ny)]; injection Es as <- <-.
      + destruct (hi_link _ _ _ _ I c l _ Pc Nc1 Ec) as (n' & En & Pn & Nn & Ln & On). eapply IH; [|reflexivity|done|done|].
        * eapply Nat.lt_le_trans; [|exact D]. cbn [heap]. unfold mu, big. cbn [mbind option_bind]. rewrite (upd_lk_same _ _ _ _ _ E), upd_length. cbn [mbind option_bind fst]. unfold get_unmarked. rewrite En.
          cbn [fmap option_fmap option_map default from_option id]. rewrite depth_upd. pose proof (depth_lt comp H _ _ _ _ On (hi_pub _ _ _ _ I _ Pn)). lia.
        * intros c0. destruct (HC c0) as [_ F]. split.
          -- exists i, (get_unmarked next). split; [done|]. apply (upd_lk_same _ _ _ _ _ E).
          -- cbn [heap pos_level] in *. apply fresh_upd; [done|lia].
      + destruct Q as [c0|Q]; [|by apply Q]. destruct (HC c0) as [(i' & [= <-] & E') F]. rewrite E in E'. injection E' as ->. done.
  Unshelve. all: exact 0%Z. Qed.

  Lemma term_find_clean m k v prevs succs : ok m (find_start k v prevs succs) -> term m (find_start k v prevs succs).
  Proof.
    intros O. destruct (ok_TI _ _ O) as (pub & ch & past & f & I & _). unfold find_start.
    eapply (term_search True k v); [|by left|reflexivity|exists 0%Z; by left|done|].
    - clear - H. intros m k' prevs succs i c top m' p' O _ F Ht E O'. specialize (F Logic.I). destruct k' as [|l new| | | |r]; cbn [found] in E.
      + destruct (equals comp (heap m) (Some c) v) as [[|]| |]; cbn [rbind] in E; try done; injection E as <- <-; [by apply term_done|].
        apply term_addcas_fresh; [done|]. cbn [heap]. intros l Hl. destruct (F l Hl) as (a & b & Ea & Eb & Ek). exists a, b. splits; try done.
        rewrite alloc_lk; [done|]. apply lk_node in Ek as (n & En & _). by eapply lookup_lt_Some.
      + injection E as <- <-. eapply term_addlink_fresh; [done|done|]. eapply fresh_mono; [done|lia].
      + destruct (equals comp (heap m) (Some c) v) as [[|]| |]; cbn [rbind] in E; try done; [|injection E as <- <-; by apply term_done].
        cbn [deref rbind] in E. destruct (heap m !! c) as [n|]; cbn [deref rbind] in E; [|done]. injection E as <- <-. by apply term_del.
      + destruct (equals comp (heap m) (Some c) v) as [b| |]; cbn [rbind] in E; try done; injection E as <- <-; by apply term_done.
      + cbn [deref rbind] in E. destruct (heap m !! c) as [n|]; cbn [deref rbind] in E; [|done]. injection E as <- <-. by apply term_done.
      + injection E as <- <-. by apply term_done.
    - intros _. split; [by eapply start_clean|]. intros l Hl. cbn [pos_level] in Hl. unfold max_level in Hl. lia.
  Qed.
  Lemma term_addlink d : forall m l v new prevs succs, ok m (AddLink l v new prevs succs) -> lvl (heap m) new - l <= d -> term m (AddLink l v new prevs succs).
  Proof.
    induction d as [|d IH]; intros m l v new prevs succs O D; destruct (ok_TI _ _ O) as (pub & ch & past & f & I & (_ & Ha & Pn & L & _)); [lia|].
    pose proof (hi_lvl _ _ _ _ _ I (hi_pub _ _ _ _ I _ Pn)) as Lm. destruct Ha as (L1 & L2 & Ha). destruct (Ha l) as [(i & Ei & _) (j & Ej & _)]; [lia|].
    apply term_step. intros top Ht m' p' Es. pose proof (ok_step _ _ _ _ _ O eq_refl Ht Es) as O'. cbn [LockFree_Model.tstep] in Es.
    rewrite Ei, Ej in Es. cbn [deref rbind] in Es.
    destruct (cas_next (heap m) (Some i) l (Some j, false) (Some new, false)) as [[b h']| |] eqn:E; cbn [rbind] in Es; try done.
    apply cas_next_inv in E as [(-> & E & ->)|(-> & -> & y & E & Ny)].
    - destruct (upd (heap m) i l (Some new, false) !! new) as [nd|] eqn:En; cbn [deref rbind] in Es; [|done]. injection Es as <- <-.
      unfold add_next in *. destruct (decide (l + 1 < level nd)); [|apply term_inc]. apply IH; [done|]. cbn [heap]. rewrite upd_lvl. lia.
    - injection Es as <- <-. by apply term_find_clean.
  Qed.
  Lemma term_addcas m v new prevs succs : ok m (AddCas v new prevs succs) -> term m (AddCas v new prevs succs).
  Proof.
    intros O. destruct (ok_TI _ _ O) as (pub & ch & past & f & I & (_ & Ha & _)). destruct Ha as (L1 & L2 & Ha). destruct (Ha 0) as [(i & Ei & _) (j & Ej & _)]; [unfold max_level; lia|].
    apply term_step. intros top Ht m' p' Es. pose proof (ok_step _ _ _ _ _ O eq_refl Ht Es) as O'. cbn [LockFree_Model.tstep] in Es.
    rewrite Ei, Ej in Es. cbn [deref rbind] in Es.
    destruct (cas_next (heap m) (Some i) 0 (Some j, false) (Some new, false)) as [[b h']| |] eqn:E; cbn [rbind] in Es; try done. destruct b.
    - destruct (h' !! new) as [nd|] eqn:En; cbn [deref rbind] in Es; [|done]. injection Es as <- <-.
      unfold add_next in *. destruct (decide (1 < level nd)); [|apply term_inc]. by eapply term_addlink.
    - injection Es as <- <-. by apply term_find_clean.
  Qed.
  Lemma term_find m k v prevs succs p : ok m (Find k v prevs succs p) -> term m (Find k v prevs succs p).
  Proof.
    intros O. eapply (term_search False k v); [| |reflexivity|exists 0%Z; by left|done|done].
    - clear - H. intros m k' prevs succs i c top m' p' O _ F Ht E O'. destruct k' as [|l new| | | |r]; cbn [found] in E.
      + destruct (equals comp (heap m) (Some c) v) as [[|]| |]; cbn [rbind] in E; try done; injection E as <- <-; [by apply term_done|]. by apply term_addcas.
      + injection E as <- <-. by eapply term_addlink.
      + destruct (equals comp (heap m) (Some c) v) as [[|]| |]; cbn [rbind] in E; try done; [|injection E as <- <-; by apply term_done].
        cbn [deref rbind] in E. destruct (heap m !! c) as [n|]; cbn [deref rbind] in E; [|done]. injection E as <- <-. by apply term_del.
      + destruct (equals comp (heap m) (Some c) v) as [b| |]; cbn [rbind] in E; try done; injection E as <- <-; by apply term_done.
      + cbn [deref rbind] in E. destruct (heap m !! c) as [n|]; cbn [deref rbind] in E; [|done]. injection E as <- <-. by apply term_done.
      + injection E as <- <-. by apply term_done.
    - right. clear - H. intros m k' prevs succs O _. by apply term_find_clean.
  Qed.
  Lemma term_any m p : ok m p -> term m p.
  Proof.
    intros O. destruct p as [|k v prevs succs p|v new prevs succs|l v new prevs succs| |v l nd|v l nd next| | |v|r].
    - by apply term_done.
    - by apply term_find.
    - by apply term_addcas.
    - by eapply term_addlink.
    - apply term_inc.
    - by apply term_del.
    - by apply term_delcas.
    - apply term_dec.
    - apply term_step. intros top _ m' p' [= <- <-]. by apply term_done.
    - apply term_step. intros top Ht m' p' E. pose proof (ok_step _ _ _ _ _ O eq_refl Ht E) as O'. cbn [LockFree_Model.tstep] in E. cbv zeta in E. destruct (decide _); injection E as <- <-; [by apply term_done|by apply term_find_clean].
    - by apply term_done.
  Qed.
End lf.
