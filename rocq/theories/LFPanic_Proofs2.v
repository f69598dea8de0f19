(** Lock-free skip list with a panicking comparator: calls that do not overlap. *)
From stdpp Require Import functions.
From Verif Require Import Base Lin_Spec Lin_Proofs Lin_Hindsight LockFree_Model LockFree_Spec LockFree_Proofs LockFree_Proofs2 LockFree_Proofs3 LockFree_Proofs4 LockFree_Proofs5 LockFree_Proofs6 LockFree_Proofs7 LockFree_Proofs8 LockFree_Proofs9 LockFree_Proofs10 LockFree_Proofs13 LockFree_Proofs14 LockFree_Proofs15.
From Verif Require Import LFPanic_Model LFPanic_Spec LFPanic_Proofs.

Section lf.
  Context {T : Type} (zero : T) (comp : T -> T -> Z) (H : cmp_ok comp).
  Notation R := (R zero comp).
  Notation RI := (RI zero comp).
  Notation step := (step comp).
  Notation pstep := (pstep comp).
  Notation tstep := (tstep comp).
  Notation legal := (set_legal zero comp).
  Notation GI := (GI comp).
  Notation SQ := (SQ comp).
  Notation ok := (ok zero comp).
  Notation seqI := (seqI zero comp).
  Notation elt := (elt comp).

  Definition rel (x : sys T) : Prop := exists s ph past, R x s ph past.

  (** ** a plain call from a quiet state that satisfies the relation *)
  Lemma g_R x s : rel x -> stored x s -> exists ph past, R x s ph past.
  Proof. intros G Hs. by apply (R_of_stored zero comp H). Qed.
  Lemma g_size x s : rel x -> stored x s -> quiet x -> size (shared x) = to_int32 (Z.of_nat (length s)).
  Proof. intros G Hs Q. destruct (g_R _ _ G Hs) as (ph & past & (pub & ch & Rr)). rewrite (r_size _ _ _ _ _ _ _ _ _ Rr), total_quiet by done. f_equal. lia. Qed.
  Lemma g_seqI x s t o : rel x -> quiet x -> stored x s -> t < length (pcs x) -> seqI (pcs x) t s o (shared x) (start o).
  Proof.
    intros G Q Hs Lt. destruct (g_R _ _ G Hs) as (ph & past & Rx).
    destruct x as [m ps]. cbn [pcs shared] in *. destruct (lookup_lt_is_Some_2 _ _ Lt) as [p Ep]. pose proof (Q t p Ep) as ->.
    destruct (sim_step zero comp H _ _ _ _ _ _ Rx (s_call comp m ps t o Ep)) as (s' & ph' & past' & A & Rx').
    inversion A as [|? ? ? ? ? Hi| | |]; subst. eexists _, _, _. split; [exact Rx'|]. left.
    rewrite !fn_lookup_insert. splits; try done. intros z Hz. by apply elem_of_list_singleton in Hz.
  Qed.
  Lemma g_stored x : rel x -> exists s, stored x s.
  Proof. intros (s & ph & past & Rx). destruct (R_stored zero comp H _ _ _ _ Rx) as (ids & P & Es & _). exists s. by exists ids. Qed.
  Lemma g_ok x t o : rel x -> quiet x -> t < length (pcs x) -> ok (shared x) (start o).
  Proof.
    intros G Q Lt. destruct (g_stored _ G) as [s Hs].
    destruct (g_seqI _ _ _ o G Q Hs Lt) as (s1 & ph1 & past1 & (pub & ch & Rr) & _).
    exists (<[t := start o]> (pcs x)), t, s1, ph1, past1, pub, ch. split; [done|]. by apply list_lookup_insert.
  Qed.
  Lemma g_call x s t o r y : rel x -> quiet x -> stored x s -> exec step x [Call t o; Return t r] y ->
    quiet y /\ exists s', legal s o r s' /\ stored y s'.
  Proof.
    intros E Q Hs E2. pose proof (call_in_range comp _ _ _ _ _ E2 Q) as Lt. pose proof (g_seqI _ _ _ o E Q Hs Lt) as I0.
    destruct (solo_exec comp x t o (seqI (pcs x) t s o) Q I0 (fun m p top m' p' A B C D => seqI_step zero comp H _ _ _ _ _ _ _ _ _ Lt A B C D) _ _ E2) as (_ & _ & G).
    destruct (G r eq_refl) as ((s1 & ph & past & Rr & D) & Ep). split; [unfold quiet; rewrite Ep; exact Q|]. exists s1.
    pose proof Rr as (pub & ch & Rr0). pose proof (r_pcs _ _ _ _ _ _ _ _ _ Rr0 t _ (list_lookup_insert _ _ _ Lt)) as [o' Ho]. split.
    - destruct D as [(Hp & _)|(r' & He & L)]; rewrite Ho in *; [done|]. by injection He as -> ->.
    - destruct (R_stored zero comp H _ _ _ _ Rr) as (ids & P & Es & _). exists ids. done.
  Qed.
  Lemma g_len x s t r y : rel x -> quiet x -> stored x s -> (Z.of_nat (length s) < 2 ^ 31)%Z -> exec step x [Call t Len; Return t r] y -> r = RInt (Z.of_nat (length s)).
  Proof.
    intros E Q Hs L E2.
    destruct (solo_exec comp x t Len (fun m p => m = shared x /\ (p = LenLoad \/ p = Ready (RInt (Z.of_nat (length s))))) Q) with (h := [Call t Len; Return t r] : list (event (op T) (ret T))) (y := y) as (_ & _ & G); try done.
    - split; [done|]. by left.
    - intros m p top m' p' [-> [-> | ->]] Hr _ Es; [|done]. injection Es as <- <-. split; [done|]. right. rewrite (g_size _ _ E Hs Q), to_int32_small by lia. done.
    - destruct (G r eq_refl) as ((_ & [F|F]) & _); [done|]. by injection F as ->.
  Qed.
  Lemma g_rank x tw t v r y : rel x -> quiet x -> GI (heap (shared x)) none2 -> UI (heap (shared x)) none1 -> towers x tw -> (Z.of_nat (length tw) < 2 ^ 31)%Z ->
    exec step x [Call t (Rank v); Return t r] y -> r = RInt (rank_of comp v tw).
  Proof.
    intros E Q G U (ids & P & ->) L E2. pose proof (call_in_range comp _ _ _ _ _ E2 Q) as Lt.
    pose proof E as (s & ph & past & (pub & ch & Rr)). pose proof (r_heap _ _ _ _ _ _ _ _ _ Rr) as I.
    assert (Hs : stored x (omap (unmarked_value (heap (shared x))) ids)) by (by exists ids).
    pose proof (g_size _ _ E Hs Q) as Sz. rewrite tower_values, fmap_length, to_int32_small in Sz by lia.
    destruct (solo_exec comp x t (Rank v) (rankX zero comp v (omap (tower (heap (shared x))) ids)) Q) with (h := [Call t (Rank v); Return t r] : list (event (op T) (ret T))) (y := y) as (_ & _ & F); [| |done|].
    - cbn [rankX start]. splits; [done|by apply (g_ok x t (Rank v))| | |done].
      + by eapply (SQ_start comp (shared x) _ _ (Rank v)).
      + by eapply (towers_TW comp H).
    - intros m p top m' p'. apply (rankX_step zero comp H).
    - by destruct (F r eq_refl) as [F1 _].
  Qed.
  Lemma g_level x tw l ids : rel x -> GI (heap (shared x)) none2 -> towers x tw -> l < max_level ->
    path (heap (shared x)) l head ids -> omap (tower (heap (shared x))) ids = filter (fun w => l < w.2) tw.
  Proof.
    intros E G (ids0 & P0 & ->) Ll P.
    pose proof E as (s & ph & past & (pub & ch & Rr)). pose proof (r_heap _ _ _ _ _ _ _ _ _ Rr) as I.
    destruct (towers_TW comp H _ _ _ _ I P0) as [S0 M0]. destruct (path_sorted comp H _ _ _ l I G Ll _ _ P (onl_0 _ _)) as (S1 & _ & M1).
    eapply (sorted_ext (lt1 comp)); [| |done|by apply sorted_filter|].
    - intros a F. apply (elt_irrefl _ H (EVal a.1)). exact F.
    - intros a b c F1 F2. exact (elt_trans _ H (EVal a.1) (EVal b.1) (EVal c.1) F1 F2).
    - intros [w a]. rewrite elem_of_list_filter, M0, elem_of_list_omap. cbn [snd]. split.
      + intros (k & Hk & Et). apply M1 in Hk as (Ok & N0 & N1). apply tower_spec in Et as (A & K & <-); [|done..]. split; [by eapply (onl_lvl comp)|].
        exists k. splits; try done. eapply pub_live; [done|by eapply onl_pub|done].
      + intros (La & k & Lk & N0 & N1 & K & <-). exists k. split; [|apply tower_spec; [done|done|]; splits; try done; apply Lk]. apply M1. splits; try done.
        eapply (GI_full comp H); [done|exact G|done|done|intros []].
  Qed.

  (** ** runs with panics *)
  Lemma plain_exec x h' y : exec pstep x h' y -> forall h, h' = Did <$> h -> exec step x h y.
  Proof.
    intros E. induction E as [c|c c1 h c2 E IH St|c c1 h e c2 E IH St]; intros h0 E0.
    - by destruct h0; [constructor|].
    - inversion St as [x' e y' St'|]; subst. destruct e as [e|]; [done|]. eapply exec_silent; [by apply IH|done].
    - destruct h0 as [|e0 h0 _] using rev_ind; [by destruct h|]. rewrite fmap_app in E0. apply app_inj_tail in E0 as [-> ->].
      inversion St as [x' e' y' St'|]; subst. destruct e' as [e'|]; [|done]. match goal with F : _ <$> _ = _ |- _ => injection F as -> end.
      eapply exec_event; [by apply IH|done].
  Qed.
  Lemma panic_split x h t y : exec pstep x (h ++ [Abandoned t]) y ->
    exists m ps p z, exec pstep x h (Sys m ps) /\ ps !! t = Some p /\ compares m p /\ exec pstep (Sys m (<[t := Quiet]> ps)) [] y /\ z = Sys m ps.
  Proof.
    intros E. remember (h ++ [Abandoned t]) as hh eqn:Eh. induction E as [c|c c1 h1 c2 E IH St|c c1 h1 e c2 E IH St].
    - by destruct h.
    - destruct (IH Eh) as (m & ps & p & z & E1 & Ep & Hc & E2 & _). exists m, ps, p, (Sys m ps). splits; try done. by eapply exec_silent.
    - apply app_inj_tail in Eh as [-> ->]. inversion St as [x' e' y' St'|m ps u p Ep Hc]; subst; [by destruct e'|].
      exists m, ps, p, (Sys m ps). splits; try done. constructor.
  Qed.
  Lemma R_abandon m ps s ph past t p : R (Sys m ps) s ph past -> ps !! t = Some p -> owed p = 0%Z ->
    R (Sys m (<[t := Quiet]> ps)) s (<[t := Idle]> ph) past.
  Proof.
    intros (pub & ch & Rr) Ep Ho. cbn [shared pcs] in Rr. exists pub, ch. eapply (R_step zero comp H _ _ _ _ _ _ _ t p None); try done; try apply Rr.
    - intros u N. eapply ext_refl, Rr.
    - intros u N. by rewrite fn_lookup_insert_ne.
    - rewrite fn_lookup_insert. done.
    - cbn [size shared pcs owed]. rewrite (r_size _ _ _ _ _ _ _ _ _ Rr). f_equal. lia.
    - intros u o'. destruct (decide (u = t)) as [->|N]; [by rewrite !fn_lookup_insert|]. rewrite !fn_lookup_insert_ne by done. apply Rr.
  Qed.

  (** a search changes no tower *)
  Definition IW (tw : list (T * nat)) (m : mem T) (p : pc T) : Prop :=
    ok m p /\ SQ m p /\
    match p with
    | AddLink _ _ _ _ _ | AddInc | DelLoad _ _ _ | DelCas _ _ _ _ | DelDec | Ready _ | Quiet => True
    | _ => TW comp (heap m) tw
    end.
  Lemma TW_alloc h pub ch nd tw : HI comp h pub ch -> TW comp h tw -> TW comp (h ++ [nd]) tw.
  Proof.
    intros I [S M]. split; [done|]. intros w a. rewrite M. split; intros (k & A & B & C & D & F); exists k.
    - assert (L : k < length h) by (eapply hi_pub; [done|]; by eapply live_pub). rewrite (alloc_live comp _ _ _ I), alloc_key', alloc_lvl' by done. done.
    - apply (alloc_live comp _ _ _ I) in A. assert (L : k < length h) by (eapply hi_pub; [done|]; by eapply live_pub). rewrite alloc_key' in D by done. rewrite alloc_lvl' in F by done. done.
  Qed.
  Lemma IW_step tw m p top m' p' : IW tw m p -> running p = true -> random_level top -> tstep m p top = Ok (m', p') -> IW tw m' p'.
  Proof.
    intros (O & S & W) Hr Ht E. pose proof (ok_step zero comp H _ _ _ _ _ O Hr Ht E) as O'. pose proof (SQ_step zero comp H _ _ _ _ _ O S Hr Ht E) as S'.
    split; [done|]. split; [done|]. destruct (ok_TI _ _ _ _ O) as (pub & ch & past & f & I & Ti).
    destruct p as [|k v prevs succs q|v new prevs succs|l v new prevs succs| |v l nd|v l nd next| | |v|r]; try done.
    - destruct Ti as (Hk & Ha & Hpos). destruct S as (G & U & K & F & Cl & (i0 & Ei0 & On)).
      destruct q as [l prev|l prev cur|l prev cur next]; cbn [prev_of pos_level] in *; subst prev.
      + cbn [LockFree_Model.tstep] in E. destruct (load_next _ _ _) as [x| |]; cbn [rbind] in E; try done. by injection E as <- <-.
      + cbn [LockFree_Model.tstep] in E. destruct (load_next _ _ _) as [x| |]; cbn [rbind] in E; try done. destruct (is_marked x); [by injection E as <- <-|].
        destruct (less _ _ _ _) as [b| |]; cbn [rbind] in E; try done. destruct b; [by injection E as <- <-|]. destruct l as [|l]; [|by injection E as <- <-].
        destruct k as [|l' new| | | |z]; cbn [found] in E.
        * destruct (equals _ _ _ _) as [b| |]; cbn [rbind] in E; try done. destruct b; injection E as <- <-; [done|]. cbn [heap]. by eapply TW_alloc.
        * by injection E as <- <-.
        * destruct (equals _ _ _ _) as [b| |]; cbn [rbind] in E; try done. destruct b; [|by injection E as <- <-].
          destruct cur; cbn [deref rbind] in E; [|done]. destruct (heap m !! _); cbn [deref rbind] in E; [|done]. by injection E as <- <-.
        * destruct (equals _ _ _ _) as [b| |]; cbn [rbind] in E; try done. by injection E as <- <-.
        * destruct cur; cbn [deref rbind] in E; [|done]. destruct (heap m !! _); cbn [deref rbind] in E; [|done]. by injection E as <- <-.
        * by injection E as <- <-.
      + destruct Hpos as (Ll & ? & c & [= <-] & -> & (Pi & Ni & Li & Oi) & _ & Pc & Nc & Nc1 & Ec & Mn). destruct Cl as (? & [= <-] & El).
        cbn [LockFree_Model.tstep] in E. rewrite (cas_ok _ _ _ _ _ El) in E. cbn [rbind] in E. injection E as <- <-.
        destruct (hi_link _ _ _ _ I c l _ Pc Nc1 Ec) as (n & En & Pn & _). destruct next as [? b]. cbn in En, Mn. subst. cbn [get_unmarked fst heap].
        eapply TW_ext; [| | |exact W].
        * intros k'. by eapply (snip_live comp H).
        * intros k'. apply upd_key.
        * intros k'. apply upd_lvl.
    - cbn [LockFree_Model.tstep] in E. destruct (prevs !! 0); cbn [deref rbind] in E; [|done]. destruct (succs !! 0); cbn [deref rbind] in E; [|done].
      destruct (cas_next _ _ _ _ _) as [[b h]| |]; cbn [rbind] in E; try done. destruct b.
      + destruct (h !! new); cbn [deref rbind] in E; [|done]. injection E as <- <-. unfold add_next. by destruct (decide _).
      + injection E as <- <-. done.
    - cbn [LockFree_Model.tstep] in E. destruct (prevs !! l); cbn [deref rbind] in E; [|done]. destruct (succs !! l); cbn [deref rbind] in E; [|done].
      destruct (cas_next _ _ _ _ _) as [[b h]| |]; cbn [rbind] in E; try done. destruct b.
      + destruct (h !! new); cbn [deref rbind] in E; [|done]. injection E as <- <-. unfold add_next. by destruct (decide _).
      + injection E as <- <-. destruct S' as (_ & _ & K & _). by destruct (K l new).
    - cbn [LockFree_Model.tstep] in E. by injection E as <- <-.
    - cbn [LockFree_Model.tstep] in E. destruct (load_next _ _ _) as [x| |]; cbn [rbind] in E; try done. destruct (is_marked x); [destruct l|]; by injection E as <- <-.
    - cbn [LockFree_Model.tstep] in E. destruct (cas_next _ _ _ _ _) as [[b h]| |]; cbn [rbind] in E; try done. destruct l; [destruct b|]; by injection E as <- <-.
    - cbn [LockFree_Model.tstep] in E. by injection E as <- <-.
    - cbn [LockFree_Model.tstep] in E. by injection E as <- <-.
    - cbn [LockFree_Model.tstep] in E. cbv zeta in E. destruct (decide _); injection E as <- <-; done.
  Qed.
  Lemma TW_unique (h : list (node T)) a b : TW comp h a -> TW comp h b -> a = b.
  Proof.
    intros [S1 M1] [S2 M2]. apply (sorted_ext (lt1 comp)); [| |done|done|].
    - intros w F. apply (elt_irrefl _ H (EVal w.1)). exact F.
    - intros x y z F1 F2. exact (elt_trans _ H (EVal x.1) (EVal y.1) (EVal z.1) F1 F2).
    - intros [w c]. by rewrite M1, M2.
  Qed.
  Lemma exec_length x h z : exec step x h z -> length (pcs z) = length (pcs x).
  Proof. induction 1 as [c|c c1 h c2 Ez IH St|c c1 h e c2 Ez IH St]; [done|..]; rewrite <-IH; inversion St; subst; cbn [pcs]; by rewrite insert_length. Qed.
  Lemma exec_rel x h y : exec step x h y -> rel x -> rel y.
  Proof.
    induction 1 as [c|c c1 h c2 E IH St|c c1 h e c2 E IH St]; intros G; [done|..]; destruct (IH G) as (s & ph & past & Rx);
      destruct (sim_step zero comp H _ _ _ _ _ _ Rx St) as (s' & ph' & past' & _ & Rx'); by exists s', ph', past'.
  Qed.
  Definition fine (x : sys T) : Prop := rel x /\ quiet x /\ GI (heap (shared x)) none2 /\ UI (heap (shared x)) none1.
  Lemma g_abandoned x t o y : fine x -> exec pstep x [Did (Call t o); Abandoned t] y ->
    fine y /\ (forall s, stored x s -> stored y s) /\ (forall tw, towers x tw -> towers y tw).
  Proof.
    intros (G & Q & Gg & U) E. destruct (panic_split x [Did (Call t o)] t y E) as (m & ps & p & _ & E1 & Ep & Hc & E2 & _).
    pose proof (plain_exec _ _ _ E1 [Call t o] eq_refl) as E1'. destruct (g_stored _ G) as [s Hs].
    assert (exists ids, path (heap (shared x)) 0 head ids) as [ids P] by (destruct Hs as (ids & P & _); by exists ids).
    set (tw := omap (tower (heap (shared x))) ids). pose proof G as (s0 & ph0 & past0 & (pub & ch & Rr)). pose proof (r_heap _ _ _ _ _ _ _ _ _ Rr) as I.
    pose proof (towers_TW comp H _ _ _ _ I P) as W. fold tw in W.
    assert (Lt : t < length (pcs x)).
    { rewrite <-(exec_length _ _ _ E1'). cbn [pcs]. by eapply lookup_lt_Some. }
    destruct (solo_exec comp x t o (fun m p => seqI (pcs x) t s o m p /\ IW tw m p) Q) with (h := [Call t o] : list (event (op T) (ret T))) (y := Sys m ps) as (_ & F & _); [| |done|].
    - split; [by apply g_seqI|]. split; [by apply (g_ok x t o)|]. split; [by eapply SQ_start|]. destruct o; done.
    - intros m1 p1 top m2 p2 [A B] Hr Ht Es. split; [by eapply (seqI_step zero comp H)|by eapply IW_step].
    - destruct (F eq_refl) as (p' & _ & Eps & (s1 & ph & past & Rx & D) & (O & Sq & Wp)). cbn [shared pcs] in *. rewrite <-Eps in Rx.
      rewrite Eps, list_lookup_insert in Ep by done. injection Ep as ->. assert (Ept : ps !! t = Some p) by (rewrite Eps; by apply list_lookup_insert).
      destruct Hc as (k & v & prevs & succs & l & prev & c & nd & nx & -> & _). destruct Sq as (Gy & Uy & K & _).
      assert (Ho : owed (Find k v prevs succs (PCur l prev (Some c)) : pc T) = 0%Z) by (destruct k as [|l' new| | | |z]; try done; by destruct (K l' new)).
      pose proof (R_abandon _ _ _ _ _ _ _ Rx Ept Ho) as Ry. 
      assert (Eq : <[t := Quiet]> ps = pcs x).
      { rewrite Eps, list_insert_insert. apply list_insert_id. destruct (lookup_lt_is_Some_2 _ _ Lt) as [q Eq]. rewrite Eq. f_equal. by eapply Q. }
      rewrite Eq in Ry, E2. assert (Q2 : quiet (Sys m (pcs x))) by exact Q.
      pose proof (quiet_stays comp _ _ Q2 (plain_exec _ _ _ E2 [] eq_refl)) as ->. cbn [shared pcs].
      assert (s1 = s) as ->.
      { destruct D as [(_ & D & _)|(r & D & _)]; [done|]. exfalso. destruct Rx as (pub' & ch' & Rr'). pose proof (r_pcs _ _ _ _ _ _ _ _ _ Rr' _ _ Ept) as (Hk & _).
        destruct k as [|l' new| | | |z]; cbn [purposeI] in Hk; first [by rewrite D in Hk|by destruct (K l' new)]. }
      assert (Hy : rel (Sys m (pcs x))) by (by exists s, (<[t := Idle]> ph), past).
      assert (Hsy : stored (Sys m (pcs x)) s).
      { destruct (R_stored zero comp H _ _ _ _ Ry) as (ids' & P' & Es' & _). by exists ids'. }
      split; [by split; [|split]|]. split.
      + intros s' Hs'. by rewrite (stored_det _ _ _ Hs' Hs).
      + intros tw' (ids' & P' & ->). rewrite (path_det _ _ _ _ _ P' P). fold tw.
        destruct Hsy as (idsy & Py & _). cbn [shared] in Py. exists idsy. cbn [shared]. split; [done|].
        destruct Ry as (pub' & ch' & Rr'). pose proof (r_heap _ _ _ _ _ _ _ _ _ Rr') as I'. cbn [shared] in I'.
        eapply TW_unique; [exact Wp|]. by eapply (towers_TW comp H).
  Qed.
  Lemma g_returned x t o r y : fine x -> exec step x [Call t o; Return t r] y -> fine y.
  Proof.
    intros (G & Q & Gg & U) E2. pose proof (call_in_range comp _ _ _ _ _ E2 Q) as Lt.
    pose proof G as (s0 & ph0 & past0 & (pub & ch & Rr)). pose proof (r_heap _ _ _ _ _ _ _ _ _ Rr) as I.
    pose proof (exec_rel _ _ _ E2 G) as Gy.
    destruct (solo_exec comp x t o (fun m p => ok m p /\ SQ m p) Q) with (h := [Call t o; Return t r] : list (event (op T) (ret T))) (y := y) as (_ & _ & F); [| |done|].
    - split; [by apply (g_ok x t o)|]. by eapply SQ_start.
    - intros m p top m' p' [O S] Hr Ht Es. split; [by eapply ok_step|by eapply (SQ_step zero comp H)].
    - destruct (F r eq_refl) as ((_ & S) & Ep). split; [done|]. split; [by unfold quiet; rewrite Ep|]. exact S.
  Qed.
  Lemma poat_fine n h : pone_at_a_time h -> forall x, exec pstep (sys_init zero n) h x -> fine x.
  Proof.
    assert (Q0 : quiet (sys_init zero n)) by (intros t p Ep; cbn in Ep; by apply lookup_replicate in Ep as [-> _]).
    induction 1 as [|h t o r Hh IH|h t o Hh IH]; intros x E.
    - rewrite (quiet_stays comp _ _ Q0 (plain_exec _ _ _ E [] eq_refl)). split; [by eexists _, _, _; apply init_R|]. split; [done|]. apply (init_GI zero comp).
    - apply exec_app_inv in E as (x1 & E1 & E2). eapply g_returned; [by apply IH|]. by apply (plain_exec _ _ _ E2 [Call t o; Return t r]).
    - apply exec_app_inv in E as (x1 & E1 & E2). by destruct (g_abandoned _ _ _ _ (IH _ E1) E2).
  Qed.
End lf.
