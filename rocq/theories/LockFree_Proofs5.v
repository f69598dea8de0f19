(** Lock-free skip list: every step of every goroutine. *)
From stdpp Require Import functions.
From stdpp Require Import list.
From Verif Require Import Base Lin_Spec Lin_Proofs Lin_Hindsight LockFree_Model LockFree_Spec LockFree_Proofs LockFree_Proofs2 LockFree_Proofs3 LockFree_Proofs4.

Section lf.
  Context {T : Type} (zero : T) (comp : T -> T -> Z) (H : cmp_ok comp).
  Notation node := (node T).
  Notation heap_t := (list node).
  Notation HI := (HI comp).
  Notation ord := (ord comp).
  Notation elt := (elt comp).
  Notation St := (list T).
  Notation phase := (@phase (op T) (ret T)).
  Notation ext := (ext comp).
  Notation TI := (TI comp).
  Notation gapw := (gapw comp).
  Notation was_alive := (was_alive comp).
  Notation RI := (RI zero comp).
  Notation stepped := (stepped zero comp).
  Notation steppedp := (steppedp zero comp).
  Notation tstep := (tstep comp).

  Lemma needs_pending h pub f k v : needs k -> purposeI (T := T) h pub f k v -> exists o, f = Pending o.
  Proof. destruct k; cbn; try done; intros _ ->; by eexists. Qed.
  Lemma start_pos h pub ch past k v : HI h pub ch -> posI comp h pub past k v (PLoad (max_level - 1) (Some head)).
  Proof.
    intros I. cbn [posI]. split; [unfold max_level; lia|]. exists 0. unfold okprev. rewrite (hi_head _ _ _ _ I). splits; try done.
    - apply I.
    - unfold max_level; lia.
    - intros _. left. destruct (hi_lk _ _ _ _ 0 0 I) as [[j m] E]; [rewrite (hi_head _ _ _ _ I); unfold max_level; lia|].
      pose proof (hi_headlive _ _ _ _ I _ _ E) as M. cbn in M. subst m. by exists j.
  Qed.
  Lemma start_arrays h pub v prevs succs lo : arrays comp h pub v lo prevs succs -> arrays comp h pub v max_level prevs succs.
  Proof. intros (L1 & L2 & _). unfold arrays. splits; try done. intros l Hl. lia. Qed.
  Lemma find_start_ok h pub ch past f k v prevs succs lo : HI h pub ch -> purposeI h pub f k v -> arrays comp h pub v lo prevs succs ->
    TI h pub past f (find_start k v prevs succs).
  Proof. intros I P A. cbn [LockFree_Proofs3.TI find_start]. splits; [done|by eapply start_arrays|by eapply start_pos]. Qed.
  Lemma no_nodes_arrays h pub v : arrays (T := T) comp h pub v max_level no_nodes no_nodes.
  Proof. unfold arrays. splits; try done. intros l Hl. lia. Qed.
  Lemma gap_absent h s1 i c v : gapw h s1 i c -> elt (key h i) (EVal v) -> elt (EVal v) (key h c) -> ~ present comp s1 v.
  Proof.
    intros [G _] O1 O2 (w & Hw & E). apply (G w Hw). destruct (val_eeq _ H _ _ E) as [E1 E2]. split.
    - eapply (elt_le_trans _ H); done.
    - eapply (le_elt_trans _ H); done.
  Qed.
  Lemma alive_of_unmarked h pub ch i l j : HI h pub ch -> pub i -> lk h i l = Some (j, false) -> exists j0, lk h i 0 = Some (j0, false).
  Proof.
    intros I P E. destruct (hi_lk _ _ _ _ i 0 I) as [[j0 [|]] E0]; [pose proof (hi_lvl _ _ _ _ _ I (hi_pub _ _ _ _ I _ P)); lia| |by exists j0].
    pose proof (hi_mark _ _ _ _ I i 0 l _ _ P E0 ltac:(lia) E). done.
  Qed.

  (** ** The search *)
  Lemma step_load m ps s ph past pub ch t k v prevs succs l prev top :
    RI m ps s ph past pub ch -> ps !! t = Some (Find k v prevs succs (PLoad l prev)) ->
    steppedp pub (Find k v prevs succs (PLoad l prev)) ps t s ph past (tstep m (Find k v prevs succs (PLoad l prev)) top).
  Proof.
    intros Rr Ep. pose proof (r_heap _ _ _ _ _ _ _ _ _ Rr) as I. pose proof (r_pcs _ _ _ _ _ _ _ _ _ Rr _ _ Ep) as (Hk & Ha & (Ll & i & -> & O & W)).
    destruct O as (Pi & Ni & Li & Oi). destruct (hi_lk _ _ _ _ i l I Li) as [x E]. cbn [LockFree_Model.tstep]. rewrite (load_next_ok _ _ _ _ E). cbn [rbind].
    destruct (hi_link _ _ _ _ I i l x Pi Ni E) as (c & Ec & Pc & Nc & Lc & _). unfold get_unmarked. rewrite Ec.
    eapply (step_local zero comp H); [done|done| | |done]; [|by destruct k].
    cbn [LockFree_Proofs3.TI]. splits; [done|done|]. split; [done|]. exists i, c. splits; try done.
    intros -> N. destruct (needs_pending _ _ _ _ _ N Hk) as [o Ho]. destruct x as [x [|]]; cbn in Ec; subst x.
    - destruct (W N) as [[j A]|(j & s1 & A & Hs & G)]; rewrite E in A; [done|]. injection A as <-. by exists s1.
    - exists s. split; [by eapply (r_past _ _ _ _ _ _ _ _ _ Rr)|]. rewrite (r_set _ _ _ _ _ _ _ _ _ Rr). eapply (gap_now_alive comp H); done.
  Qed.

  Lemma arrays_set h pub v l prevs succs i c : arrays comp h pub v (S l) prevs succs -> l < max_level -> okprev comp h pub v l i -> oknext comp h pub v l c ->
    arrays comp h pub v l (<[l := Some i]> prevs) (<[l := Some c]> succs).
  Proof.
    intros (L1 & L2 & A) Hl Oi Oc. unfold arrays. rewrite !insert_length. splits; try done. intros l' Hl'. destruct (decide (l' = l)) as [->|N].
    - rewrite !list_lookup_insert by lia. split; [by exists i|by exists c].
    - rewrite !list_lookup_insert_ne by done. apply A. lia.
  Qed.

  Lemma make_node_lk (h : heap_t) new top v succs l x : h !! new = Some (make_node top v succs) -> lk h new l = Some x -> exists s, l < top /\ succs !! l = Some s /\ x = (s, false).
  Proof.
    unfold lk. intros E. rewrite E. cbn. rewrite list_lookup_fmap. intros F. destruct (take top succs !! l) as [s|] eqn:G; [|done].
    injection F as <-. apply lookup_take_Some in G as [G L]. by exists s.
  Qed.

  Lemma step_found m ps s ph past pub ch t k v prevs succs i c n top :
    RI m ps s ph past pub ch -> ps !! t = Some (Find k v prevs succs (PCur 0 (Some i) (Some c))) -> random_level top ->
    ~ elt (key (heap m) c) (EVal v) -> lk (heap m) c 0 = Some (n, false) ->
    steppedp pub (Find k v prevs succs (PCur 0 (Some i) (Some c))) ps t s ph past (found comp m k v (<[0 := Some i]> prevs) (<[0 := Some c]> succs) (Some c) top).
  Proof.
    intros Rr Ep Rt Nl Ec. pose proof (r_heap _ _ _ _ _ _ _ _ _ Rr) as I.
    pose proof (r_pcs _ _ _ _ _ _ _ _ _ Rr _ _ Ep) as (Hk & Ha & (_ & i' & c' & [= <-] & [= <-] & O & W & Pc & Nc & Lc & G)).
    assert (Ac : alive (heap m) c) by by exists n. pose proof (hi_pub _ _ _ _ I _ Pc) as Lh.
    assert (On : oknext comp (heap m) pub v 0 c) by done.
    pose proof (arrays_set _ _ _ 0 _ _ _ _ Ha ltac:(unfold max_level; lia) O On) as Ha'.
    destruct (equals_ok _ H (heap m) c v Lh) as (b & Eb & Hb). pose proof (r_set _ _ _ _ _ _ _ _ _ Rr) as Es.
    assert (Pr : b = true -> present comp s v).
    { intros Hbt. apply Hb in Hbt as [_ G2]. assert (c <> 1) by (intros ->; by apply G2).
      destruct (alive_in_abs _ H _ _ _ c I Pc Ac Nc H0) as (w & K & Hw). exists w. rewrite Es. split; [done|]. rewrite K in Nl, G2. by apply (eeq_val _ H). }
    assert (Lt : b = false -> elt (EVal v) (key (heap m) c)).
    { intros ->. destruct (elt_dec comp (EVal v) (key (heap m) c)); [done|]. exfalso. by destruct Hb as [_ Hb]; discriminate Hb. }
    assert (Ab : b = false -> needs k -> exists s1, s1 ∈ past t /\ ~ present comp s1 v).
    { intros Hbf N. destruct (G eq_refl N) as (s1 & Hs & Gs). exists s1. split; [done|]. eapply gap_absent; [done|apply O|by apply Lt]. }
    destruct k as [|l new| | | |rank]; cbn [found] in *; cbn [purposeI] in Hk.
    - rewrite Eb. cbn [rbind]. destruct b.
      + eapply (step_now zero comp H); [done|done|done|done|]. apply L_add_dup. by apply Pr.
      + set (succs' := <[0 := Some c]> succs) in *. destruct Ha' as (L1 & L2 & Ha').
        eapply (step_mem zero comp H); [done|done|apply (HI_alloc comp H); [apply Rr|..]| | | |done|].
        * cbn. rewrite fmap_length, take_length. unfold random_level in Rt. lia.
        * apply Rt.
        * rewrite (absv_alloc comp _ _ _ _ I). symmetry. apply Rr.
        * intros u _. by eapply (ext_alloc comp).
        * cbn [LockFree_Proofs3.TI]. splits; [done| | | | |].
          -- eapply (arrays_ext comp); [by eapply (ext_alloc comp _ _ _ (past t))|]. done.
          -- intros P. apply (hi_pub _ _ _ _ I) in P. lia.
          -- exists top. split; [apply Rt|]. by rewrite lookup_app_r, Nat.sub_diag by lia.
          -- intros l j Ej. destruct (decide (l < max_level)) as [Ll|Ll].
             ++ destruct (Ha' l) as [_ (j' & Ej' & Oj)]; [lia|]. rewrite Ej in Ej'. injection Ej' as <-. apply I. apply Oj.
             ++ apply lookup_lt_Some in Ej. lia.
          -- exists c. split; [unfold succs'; apply list_lookup_insert; destruct Ha as (_ & L2' & _); rewrite L2'; unfold max_level; lia|]. rewrite alloc_key by done. by apply Lt.
        * intros v0 n' a b Eq u v' a' b' Nu Eu. injection Eq as <- <- _ _. pose proof (r_pcs _ _ _ _ _ _ _ _ _ Rr _ _ Eu) as (_ & _ & _ & (top' & _ & Hn) & _).
          apply lookup_lt_Some in Hn. lia.
    - destruct Hk as (Hf & Pn & Ln & Kn). eapply (step_local zero comp H); [done|done| |done|done]. cbn [LockFree_Proofs3.TI]. splits; try done; lia.
    - rewrite Eb. cbn [rbind]. destruct b.
      + destruct (lookup_lt_is_Some_2 _ _ Lh) as [nd En]. cbn [deref rbind]. rewrite En. cbn [deref rbind].
        apply Hb in Pr as [G1 G2] || (destruct (proj1 Hb eq_refl) as [G1 G2]).
        assert (Lv : lvl (heap m) c = level nd) by (unfold lvl; by rewrite En). pose proof (hi_len _ _ _ _ I c nd En) as [_ Lr].
        eapply (step_local zero comp H); [done|done| |done|done]. cbn [LockFree_Proofs3.TI]. split; [done|]. exists c. splits; try done.
        * intros ->. by apply G2.
        * lia.
        * intros l' Hl'. lia.
        * by left.
      + destruct (Ab eq_refl) as (s1 & Hs & Np); [done|]. eapply (step_past zero comp H); [done|done|done|done|done|]. by apply L_del_none.
    - rewrite Eb. cbn [rbind]. destruct b.
      + eapply (step_now zero comp H); [done|done|done|done|]. apply L_has. by apply Pr.
      + destruct (Ab eq_refl) as (s1 & Hs & Np); [done|]. eapply (step_past zero comp H); [done|done|done|done|done|]. by apply L_has_not.
    - destruct (lookup_lt_is_Some_2 _ _ Lh) as [nd En]. cbn [deref rbind]. rewrite En. cbn [deref rbind].
      destruct (G eq_refl) as (s1 & Hs & [G1 G2]); [done|]. eapply (step_past zero comp H); [done|done|done|done|done|].
      destruct (decide (c = 1)) as [->|Nc1].
      + pose proof (r_zero _ _ _ _ _ _ _ _ _ Rr) as Z. rewrite En in Z. injection Z as ->. apply L_get_none.
        intros x Hx. destruct (elt_dec comp (EVal x) (EVal v)) as [?|Ge]; [done|]. exfalso. apply (G1 x Hx). split; [|done].
        eapply (elt_le_trans _ H); [apply O|done].
      + assert (K : key (heap m) c = EVal (value nd)) by (unfold key; rewrite !decide_False by done; by rewrite En). rewrite K in Nl, G1, G2.
        destruct G2 as [?|[D|(w & [= <-] & Hw)]]; [done|by destruct (alive_not_dead _ _ Ac D)|].
        apply L_get; [done|cbn in Nl; lia|]. intros x Hx Gx.
        destruct (Z_le_gt_dec (comp (value nd) x) 0) as [?|Gt]; [done|]. exfalso. apply (G1 x Hx). split.
        * eapply (elt_le_trans _ H); [apply O|]. cbn. lia.
        * cbn. apply (cmp_lt_gt _ H). lia.
    - eapply (step_now zero comp H); [done|done|done|done|]. apply L_rank.
  Qed.

  Lemma step_cur m ps s ph past pub ch t k v prevs succs l prev cur top :
    RI m ps s ph past pub ch -> ps !! t = Some (Find k v prevs succs (PCur l prev cur)) -> random_level top ->
    steppedp pub (Find k v prevs succs (PCur l prev cur)) ps t s ph past (tstep m (Find k v prevs succs (PCur l prev cur)) top).
  Proof.
    intros Rr Ep Rt. pose proof (r_heap _ _ _ _ _ _ _ _ _ Rr) as I.
    pose proof (r_pcs _ _ _ _ _ _ _ _ _ Rr _ _ Ep) as (Hk & Ha & (Ll & i & c & -> & -> & O & W & Pc & Nc & Lc & G)).
    destruct (hi_lk _ _ _ _ c l I Lc) as [next E]. cbn [LockFree_Model.tstep]. rewrite (load_next_ok _ _ _ _ E). cbn [rbind]. unfold is_marked.
    destruct next as [n [|]]; cbn [snd].
    - eapply (step_local zero comp H); [done|done| | |done]; [|by destruct k]. cbn [LockFree_Proofs3.TI]. splits; [done|done|]. split; [done|].
      exists i, c. splits; try done. intros ->. by apply (hi_tailnil _ _ _ _ I) in E.
    - destruct (less_ok comp (heap m) c v (hi_pub _ _ _ _ I _ Pc)) as (b & -> & Hb). cbn [rbind fst]. destruct b.
      + destruct Hb as [Hb _]. specialize (Hb eq_refl).
        assert (Nc1 : c <> 1) by (intros ->; done).
        destruct (hi_link _ _ _ _ I c l _ Pc Nc1 E) as (n' & [= ->] & Pn & Nn & Ln & _).
        destruct (alive_of_unmarked _ _ _ _ _ _ I Pc E) as [j0 E0].
        eapply (step_local zero comp H); [done|done| | |done]; [|by destruct k]. cbn [LockFree_Proofs3.TI]. splits; [by destruct k|done|]. split; [done|].
        exists c, n'. splits; try done.
        * intros _. left. by exists j0.
        * intros -> N. assert (N' : needs k) by (by destruct k). destruct (needs_pending _ _ _ _ _ N' Hk) as [o Ho].
          exists s. split; [by eapply (r_past _ _ _ _ _ _ _ _ _ Rr)|]. rewrite (r_set _ _ _ _ _ _ _ _ _ Rr). eapply (gap_now_alive comp H); done.
      + assert (Nl : ~ elt (key (heap m) c) (EVal v)) by (intros F; apply Hb in F; done). destruct l as [|l].
        * eapply step_found; done.
        * assert (On : oknext comp (heap m) pub v (S l) c) by done. pose proof (arrays_set _ _ _ _ _ _ _ _ Ha Ll O On) as Ha'.
          eapply (step_local zero comp H); [done|done| | |done]; [|by destruct k]. cbn [LockFree_Proofs3.TI]. splits; [done|done|]. split; [lia|].
          exists i. splits; try done. destruct O as (? & ? & ? & ?). unfold okprev. splits; try done. lia.
  Qed.

  Lemma step_snip m ps s ph past pub ch t k v prevs succs l prev cur next top :
    RI m ps s ph past pub ch -> ps !! t = Some (Find k v prevs succs (PSnip l prev cur next)) ->
    steppedp pub (Find k v prevs succs (PSnip l prev cur next)) ps t s ph past (tstep m (Find k v prevs succs (PSnip l prev cur next)) top).
  Proof.
    intros Rr Ep. pose proof (r_heap _ _ _ _ _ _ _ _ _ Rr) as I.
    pose proof (r_pcs _ _ _ _ _ _ _ _ _ Rr _ _ Ep) as TIt. pose proof TIt as (Hk & Ha & (Ll & i & c & -> & -> & O & W & Pc & Nc & Nc1 & Lc & G)).
    destruct O as (Pi & Ni & Li & Oi). destruct (hi_lk _ _ _ _ i l I Li) as [y E]. cbn [LockFree_Model.tstep].
    destruct (decide (y = (Some c, false))) as [->|Ny].
    - rewrite (cas_ok _ _ _ _ _ E). cbn [rbind]. destruct next as [n m']. cbn in G. subst m'.
      destruct (hi_link _ _ _ _ I c l _ Pc Nc1 Lc) as (n' & [= ->] & Pn & Nn & Ln & On). unfold get_unmarked. cbn [fst].
      destruct (hi_link _ _ _ _ I i l _ Pi Ni E) as (c' & [= <-] & _ & _ & _ & Oc).
      assert (X : forall u, ext None (heap m) pub (past u) (upd (heap m) i l (Some n', false)) pub (past u)) by (intros u; eapply ext_write; eauto).
      assert (TI' : TI (upd (heap m) i l (Some n', false)) pub (past t) (ph t) (Find k v prevs succs (PLoad l (Some i)))).
      { pose proof (TI_ext comp H _ _ _ _ _ _ _ (X t) ch (ph t) _ I ltac:(done) TIt) as (Hk' & Ha' & (_ & i' & c' & [= <-] & [= <-] & O' & W' & _)).
        cbn [LockFree_Proofs3.TI]. splits; [done|done|]. split; [done|]. by exists i. }
      destruct l as [|l].
      + destruct (HI_snip0 comp H _ _ _ _ _ _ I Pi E Lc) as (ch' & I' & Es). eapply (step_mem zero comp H); [done|done|done| |by intros u _|done|done|done].
        rewrite Es. symmetry. apply Rr.
      + eapply (step_mem zero comp H); [done|done| | |by intros u _|done|done|done].
        * eapply (HI_write comp); try done; [lia|]. eapply (ord_trans comp H); done.
        * rewrite absv_upper by lia. symmetry. apply Rr.
    - rewrite (cas_fail _ _ _ _ _ _ E Ny). cbn [rbind].
      eapply (step_local zero comp H); [done|done| |by destruct k|done]. by eapply find_start_ok.
  Qed.

  (** ** Add *)
  Lemma add_next_ok h pub past l top v new prevs succs : arrays comp h pub v 0 prevs succs -> pub new -> lvl h new = top -> key h new = EVal v -> 0 < l ->
    TI h pub past (Effected (Add v) (RBool true)) (add_next l top v new prevs succs).
  Proof.
    intros A P L K Hl. unfold add_next. destruct (decide (l < top)); cbn [LockFree_Proofs3.TI]; [|by exists v]. splits; try done; lia.
  Qed.
  Lemma add_next_owed l top v new prevs succs : owed (T := T) (add_next l top v new prevs succs) = 1%Z.
  Proof. unfold add_next. by destruct (decide _). Qed.

  Lemma step_addcas m ps s ph past pub ch t v new prevs succs top :
    RI m ps s ph past pub ch -> ps !! t = Some (AddCas v new prevs succs) ->
    steppedp pub (AddCas v new prevs succs) ps t s ph past (tstep m (AddCas v new prevs succs) top).
  Proof.
    intros Rr Ep. pose proof (r_heap _ _ _ _ _ _ _ _ _ Rr) as I.
    pose proof (r_pcs _ _ _ _ _ _ _ _ _ Rr _ _ Ep) as (Hf & Ha & Np & (tp & Ht & Hn) & Hlt & (j & Ej & Oj)).
    pose proof Ha as (L1 & L2 & A). destruct (A 0) as [(i & Ei & (Pi & Ni & Li & Oi)) (j' & Ej' & On)]; [unfold max_level; lia|].
    rewrite Ej in Ej'. injection Ej' as <-. cbn [LockFree_Model.tstep]. rewrite Ei, Ej. cbn [deref rbind].
    destruct (hi_lk _ _ _ _ i 0 I Li) as [y E]. destruct (decide (y = (Some j, false))) as [->|Ny].
    - rewrite (cas_ok _ _ _ _ _ E). cbn [rbind].
      assert (Nni : new <> i) by (intros ->; done).
      rewrite upd_lookup, decide_False by done. rewrite Hn. cbn [deref rbind level make_node].
      assert (N0 : new <> 0) by (intros ->; apply Np, I). assert (N1 : new <> 1) by (intros ->; apply Np, I).
      assert (K : key (heap m) new = EVal v) by (unfold key; rewrite !decide_False by done; by rewrite Hn).
      assert (Ln : lvl (heap m) new = tp) by (unfold lvl; by rewrite Hn).
      destruct (HI_insert comp H (heap m) pub ch i j new v) as (ch' & I' & Es & Nps); try done.
      { by eapply lookup_lt_Some. }
      { destruct (hi_lk _ _ _ _ new 0 I) as [x Ex]; [lia|]. rewrite Ex. destruct (make_node_lk _ _ _ _ _ _ _ Hn Ex) as (s' & _ & Es & ->). rewrite Ej in Es. by injection Es as <-. }
      { intros l x Ex. destruct (make_node_lk _ _ _ _ _ _ _ Hn Ex) as (s' & Hl & Es & ->). destruct (A l) as [_ (j' & Ej' & (Pj' & Nj' & Lj' & Oj'))]; [lia|].
        rewrite Es in Ej'. injection Ej' as ->. exists j'. splits; try done. by eapply Hlt. }
      set (h' := upd (heap m) i 0 (Some new, false)) in *. set (pub' := fun k => pub k \/ k = new) in *.
      assert (X : forall u, ext (Some new) (heap m) pub (past u) h' pub' (absv h' ch' :: past u)).
      { intros u. eapply ext_write; eauto; [by left| |by right]. intros k [?| ->]; [by left|by right]. }
      exists (Mem h' (size m)), (add_next 1 tp v new prevs succs), (absv h' ch'), (<[t := Effected (Add v) (RBool true)]> ph), (fun u => absv h' ch' :: past u), pub', ch'.
      splits; [done| | |intros u N; by rewrite fn_lookup_insert_ne|right; unfold add_next; destruct (decide _); cbn [rem]; unfold max_level; lia].
      + eapply HEff; [done|]. rewrite (r_set _ _ _ _ _ _ _ _ _ Rr). by apply L_add.
      + eapply (R_step zero comp H _ _ _ _ _ _ _ t (AddCas v new prevs succs) (Some new)); try done.
        * intros u N. by rewrite fn_lookup_insert_ne.
        * rewrite fn_lookup_insert. apply add_next_ok; [|by right| | |lia].
          -- by eapply arrays_ext.
          -- cbn [heap shared]. subst h'. rewrite (upd_lvl (heap m)). done.
          -- cbn [heap shared]. subst h'. rewrite (upd_key (heap m)). done.
        * intros n [= <-]. eauto.
        * intros v' n a b F. unfold add_next in F. by destruct (decide _).
        * cbn [size shared pcs]. rewrite add_next_owed, (r_size _ _ _ _ _ _ _ _ _ Rr). cbn [owed]. apply Permutation_length in Es. cbn in Es. rewrite Es.
          rewrite (r_set _ _ _ _ _ _ _ _ _ Rr) at 1. f_equal. lia.
        * intros u o _. left.
    - rewrite (cas_fail _ _ _ _ _ _ E Ny). cbn [rbind]. eapply (step_local zero comp H); [done|done| |done|done]. eapply find_start_ok; [exact I|exact Hf|exact Ha].
  Unshelve. exact 0. Qed.

  Lemma step_addlink m ps s ph past pub ch t l v new prevs succs top :
    RI m ps s ph past pub ch -> ps !! t = Some (AddLink l v new prevs succs) ->
    steppedp pub (AddLink l v new prevs succs) ps t s ph past (tstep m (AddLink l v new prevs succs) top).
  Proof.
    intros Rr Ep. pose proof (r_heap _ _ _ _ _ _ _ _ _ Rr) as I.
    pose proof (r_pcs _ _ _ _ _ _ _ _ _ Rr _ _ Ep) as TIt. pose proof TIt as (Hf & Ha & Pn & Ln & K).
    pose proof (hi_lvl _ _ _ _ _ I (hi_pub _ _ _ _ I _ Pn)) as Lm.
    pose proof Ha as (L1 & L2 & A). destruct (A l) as [(i & Ei & (Pi & Ni & Li & Oi)) (j & Ej & On)]; [lia|].
    cbn [LockFree_Model.tstep]. rewrite Ei, Ej. cbn [deref rbind].
    destruct (hi_lk _ _ _ _ i l I Li) as [y E]. destruct (decide (y = (Some j, false))) as [->|Ny].
    - rewrite (cas_ok _ _ _ _ _ E). cbn [rbind].
      set (h' := upd (heap m) i l (Some new, false)).
      assert (X : forall u, ext None (heap m) pub (past u) h' pub (past u)) by (intros u; eapply ext_write; eauto).
      destruct (lookup_lt_is_Some_2 (h' : heap_t) new) as [nd En]; [unfold h'; rewrite upd_length; by apply I|]. rewrite En. cbn [deref rbind].
      eapply (step_mem zero comp H); [done|done| | |by intros u _| | |].
      + eapply (HI_write comp); try done; [lia| |lia|].
        * intros ->. by unfold key in K.
        * left. by rewrite K.
      + unfold h'. rewrite absv_upper by lia. symmetry. apply Rr.
      + rewrite Hf. apply add_next_ok; [by eapply arrays_ext|done| |unfold h'; by rewrite upd_key|lia]. unfold lvl. by rewrite En.
      + by rewrite add_next_owed.
      + intros v' n a b F. unfold add_next in F. by destruct (decide _).
    - rewrite (cas_fail _ _ _ _ _ _ E Ny). cbn [rbind]. eapply (step_local zero comp H); [done|done| |done|done]. by eapply find_start_ok.
  Unshelve. all: exact 0. Qed.

  Lemma step_size m ps s ph past pub ch t p d r : RI m ps s ph past pub ch -> ps !! t = Some p -> owed p = d ->
    (exists o, ph t = Effected o r) ->
    steppedp pub p ps t s ph past (Ok (Mem (heap m) (to_int32 (size m + d)), Ready r)).
  Proof.
    intros Rr Ep Ho Hf. exists (Mem (heap m) (to_int32 (size m + d))), (Ready r), s, ph, past, pub, ch. splits; [done|constructor| |done|by left].
    eapply (R_step zero comp H _ _ _ _ _ _ _ t p None); try done; try apply Rr.
    - intros u _. eapply ext_refl, Rr.
    - cbn [size owed shared pcs]. rewrite (r_size _ _ _ _ _ _ _ _ _ Rr), to_int32_add. f_equal. lia.
  Qed.

  (** ** Del *)
  Lemma step_delload m ps s ph past pub ch t v l nd top :
    RI m ps s ph past pub ch -> ps !! t = Some (DelLoad v l nd) -> steppedp pub (DelLoad v l nd) ps t s ph past (tstep m (DelLoad v l nd) top).
  Proof.
    intros Rr Ep. pose proof (r_heap _ _ _ _ _ _ _ _ _ Rr) as I.
    pose proof (r_pcs _ _ _ _ _ _ _ _ _ Rr _ _ Ep) as (Hf & (r & -> & P & N0 & N1 & L & O1 & O2 & M & A)).
    destruct (hi_lk _ _ _ _ r l I L) as [[n b] E]. cbn [LockFree_Model.tstep]. rewrite (load_next_ok _ _ _ _ E). cbn [rbind is_marked snd]. destruct b.
    - destruct l as [|l].
      + destruct A as [A|(s1 & Hs & Pr)]; [exfalso; eapply alive_not_dead; [done|by exists n]|].
        eapply (step_past zero comp H); [done|done|done|done|done|]. by apply L_del_none.
      + eapply (step_local zero comp H); [done|done| |done|done]. cbn [LockFree_Proofs3.TI]. split; [done|]. exists r. splits; try done; [lia|].
        intros l' Hl'. destruct (decide (l' = S l)) as [->|]; [by exists n|apply M; lia].
    - eapply (step_local zero comp H); [done|done| |done|done]. cbn [LockFree_Proofs3.TI]. splits; [done| |done]. exists r. splits; done.
  Qed.
  Lemma step_delcas m ps s ph past pub ch t v l nd next top :
    RI m ps s ph past pub ch -> ps !! t = Some (DelCas v l nd next) -> steppedp pub (DelCas v l nd next) ps t s ph past (tstep m (DelCas v l nd next) top).
  Proof.
    intros Rr Ep. pose proof (r_heap _ _ _ _ _ _ _ _ _ Rr) as I.
    pose proof (r_pcs _ _ _ _ _ _ _ _ _ Rr _ _ Ep) as (Hf & D & Nm). pose proof D as (r & -> & P & N0 & N1 & L & O1 & O2 & M & A).
    destruct next as [n b]. cbn in Nm. subst b. destruct (hi_lk _ _ _ _ r l I L) as [y E]. cbn [LockFree_Model.tstep].
    assert (U : forall l' z, l < l' -> lk (heap m) r l' = Some z -> z.2 = true).
    { intros l' z Hl Ez. destruct (M l') as [j Ej]; [split; [done|by eapply hi_lklvl]|]. rewrite Ej in Ez. by injection Ez as <-. }
    destruct (decide (y = (n, false))) as [->|Ny].
    - rewrite (cas_ok _ _ _ _ _ E). cbn [rbind get_marked fst]. destruct l as [|l].
      + destruct (absv_mark0 comp H _ _ _ _ _ I P N0 N1 E) as (w & K & Es). pose proof (HI_mark0 comp _ _ _ _ _ I P N0 N1 E U) as I'.
        set (h' := upd (heap m) r 0 (n, true)) in *.
        exists (Mem h' (size m)), DelDec, (absv h' ch), (<[t := Effected (Del v) (RBool true)]> ph), (fun u => absv h' ch :: past u), pub, ch. splits; [done| | |intros u N; by rewrite fn_lookup_insert_ne|by left].
        * eapply HEff; [done|]. rewrite (r_set _ _ _ _ _ _ _ _ _ Rr). eapply L_del; [|done]. rewrite K in O1, O2. by apply (eeq_val _ H).
        * eapply (R_step zero comp H _ _ _ _ _ _ _ t (DelCas v 0 (Some r) (n, false)) None); try done.
          -- intros u _. eapply (ext_mark0 comp H); try done; [by right|left].
          -- intros u N. by rewrite fn_lookup_insert_ne.
          -- cbn [LockFree_Proofs3.TI]. rewrite fn_lookup_insert. by exists v.
          -- cbn [size owed shared pcs]. rewrite (r_size _ _ _ _ _ _ _ _ _ Rr). apply Permutation_length in Es. cbn in Es.
             rewrite (r_set _ _ _ _ _ _ _ _ _ Rr) at 1. rewrite Es. f_equal. lia.
          -- intros u o _. left.
      + assert (X : forall u, ext None (heap m) pub (past u) (upd (heap m) r (S l) (n, true)) pub (past u)) by (intros u; eapply ext_mark_up; eauto; lia).
        eapply (step_mem zero comp H); [done|done| | |by intros u _| |done|done].
        * eapply (HI_mark comp); try done. lia.
        * rewrite absv_upper by lia. symmetry. apply Rr.
        * cbn [LockFree_Proofs3.TI]. split; [done|]. eapply (delI_ext comp H); [apply (X t)|done|done].
    - rewrite (cas_fail _ _ _ _ _ _ E Ny). cbn [rbind]. destruct l as [|l].
      + eapply (step_local zero comp H); [done|done| |done|done]. by split.
      + replace (Mem (heap m) (size m)) with m by (by destruct m). eapply (step_local zero comp H); [done|done| |done|done]. by split.
  Qed.

  Lemma tstep_ok_pub m ps s ph past pub ch t p top : RI m ps s ph past pub ch -> ps !! t = Some p -> running p = true -> random_level top ->
    steppedp pub p ps t s ph past (tstep m p top).
  Proof.
    intros Rr Ep Hr Ht. destruct p as [|k v prevs succs p|v new prevs succs|l v new prevs succs| |v l nd|v l nd next| | |v|r]; try done.
    - destruct p as [l prev|l prev cur|l prev cur next]; [by eapply step_load|by eapply step_cur|by eapply step_snip].
    - by eapply step_addcas.
    - by eapply step_addlink.
    - cbn [LockFree_Model.tstep]. pose proof (r_pcs _ _ _ _ _ _ _ _ _ Rr _ _ Ep) as (v & Hf). eapply step_size; [done|done|done|]. by exists (Add v).
    - by eapply step_delload.
    - by eapply step_delcas.
    - cbn [LockFree_Model.tstep]. pose proof (r_pcs _ _ _ _ _ _ _ _ _ Rr _ _ Ep) as (v & Hf). eapply (step_size _ _ _ _ _ _ _ _ _ (-1)%Z); [done|done|done|]. by exists (Del v).
    - cbn [LockFree_Model.tstep]. eapply (step_now zero comp H); [done|done|by apply (r_pcs _ _ _ _ _ _ _ _ _ Rr _ _ Ep)|done|]. apply L_len.
    - cbn [LockFree_Model.tstep]. pose proof (r_pcs _ _ _ _ _ _ _ _ _ Rr _ _ Ep) as Hf. cbn in Hf. cbv zeta. destruct (decide (size m <= 1)%Z).
      + eapply (step_now zero comp H); [done|done|done|done|]. apply L_rank.
      + eapply (step_local zero comp H); [done|done| |done|done]. eapply find_start_ok; [apply Rr|done|apply no_nodes_arrays].
  Qed.
  Lemma tstep_ok m ps s ph past pub ch t p top : RI m ps s ph past pub ch -> ps !! t = Some p -> running p = true -> random_level top ->
    stepped ps t s ph past (tstep m p top).
  Proof. intros Rr Ep Hr Ht. eapply steppedp_stepped. by eapply tstep_ok_pub. Qed.
End lf.
