(** Lock-free skip list: a removal that runs alone leaves the nodes from its
    value on linked at the bottom level. *)
From stdpp Require Import functions.
From stdpp Require Import list relations.
From Verif Require Import Base Lin_Spec Lin_Proofs Lin_Hindsight LockFree_Model LockFree_Spec LFKeep_Spec LockFree_Proofs LockFree_Proofs2 LockFree_Proofs3 LockFree_Proofs4 LockFree_Proofs5 LockFree_Proofs6 LockFree_Proofs7 LockFree_Proofs8 LockFree_Proofs9 LockFree_Proofs10 LockFree_Proofs13 LockFree_Proofs15.

Local Lemma exec_app {C E : Type} (st : C -> option E -> C -> Prop) c h1 h2 c1 c2 : exec st c h1 c1 -> exec st c1 h2 c2 -> exec st c (h1 ++ h2) c2.
Proof.
  intros E1 E2. induction E2 as [c1|c1 c2 h c3 E0 IH St|c1 c2 h e c3 E0 IH St].
  - by rewrite app_nil_r.
  - eapply exec_silent; [by apply IH|done].
  - rewrite app_assoc. eapply exec_event; [by apply IH|done].
Qed.

Section lf.
  Context {T : Type} (zero : T) (comp : T -> T -> Z) (H : cmp_ok comp).
  Notation node := (node T).
  Notation heap_t := (list node).
  Notation HI := (HI comp).
  Notation elt := (elt comp).
  Notation step := (step comp).
  Notation tstep := (tstep comp).

  Lemma cas_cases (h : heap_t) i l e d b h' : cas_next h (Some i) l e d = Ok (b, h') ->
    (b = true /\ lk h i l = Some e /\ h' = upd h i l d) \/ (b = false /\ h' = h).
  Proof using Type.
    intros E. destruct (lk h i l) as [x|] eqn:L.
    - destruct (decide (x = e)) as [->|N].
      + rewrite (cas_ok _ _ _ _ d L) in E. left. injection E as <- <-. done.
      + rewrite (cas_fail _ _ _ _ _ d L N) in E. right. injection E as <- <-. done.
    - unfold lk in L. unfold cas_next in E. cbn [deref rbind] in E. destruct (h !! i) as [n|]; cbn in L, E; [|done].
      by rewrite L in E.
  Qed.
  Lemma onl_ch (h : heap_t) pub ch i : HI h pub ch -> onl h 0 i -> i ∈ 0 :: ch.
  Proof.
    intros I. revert i. apply onl_ind; [left|]. intros i j O E Hi.
    destruct (onl_link comp _ _ _ _ _ _ I (onl_pub comp _ _ _ _ _ I O) E) as (_ & _ & _ & N).
    destruct (chain_split _ _ _ _ _ I Hi N) as (a & j' & b & -> & _ & E').
    rewrite (nxt_det _ _ _ _ _ E E'). right. apply elem_of_app. right. left.
  Qed.
  (** taking out a node at the bottom level leaves the others *)
  Lemma snip_others (h : heap_t) pub ch p c s b : HI h pub ch -> p ∈ 0 :: ch -> lk h p 0 = Some (Some c, b) -> nxt h 0 c s ->
    forall k, onl h 0 k -> k <> c -> onl (upd h p 0 (Some s, false)) 0 k.
  Proof.
    intros I Hp E [mc Ec]. set (h' := upd h p 0 (Some s, false)).
    assert (Pp : pub p) by (by eapply (chain_pub comp)).
    assert (Np : p <> 1). { intros ->. by apply (hi_tailnil _ _ _ _ I) in E. }
    assert (Lpc : elt (key h p) (key h c)).
    { destruct (hi_link _ _ _ _ I p 0 _ Pp Np E) as (j & [= <-] & _ & _ & _ & [O|[O _]]); [done|lia]. }
    assert (Npc : p <> c) by (intros <-; by apply (elt_irrefl comp H) in Lpc).
    assert (Gen : forall k, onl h 0 k -> (k = c /\ onl h' 0 p) \/ (k <> c /\ onl h' 0 k)).
    { apply onl_ind.
      - right. split; [|apply onl_0]. intros <-. pose proof (elt_irrefl comp H (key h p)) as X. clear -Lpc. unfold key in Lpc. cbn in Lpc.
        destruct (decide (p = 0)); [done|]. destruct (decide (p = 1)); [done|]. by destruct (h !! p).
      - intros i j O [m Ei] IH. assert (Hi : i ∈ 0 :: ch) by (by eapply onl_ch).
        destruct IH as [[-> Op]|[Nic Oi]].
        + right. rewrite Ec in Ei. injection Ei as <- ->. split.
          * intros ->. assert (Pc : pub c) by (by eapply (chain_pub comp)).
            assert (Nc : c <> 1). { intros ->. by apply (hi_tailnil _ _ _ _ I) in Ec. }
            destruct (hi_link _ _ _ _ I c 0 _ Pc Nc Ec) as (j & [= <-] & _ & _ & _ & [O'|[O' _]]); [by apply (elt_irrefl comp H) in O'|lia].
          * eapply onl_S; [exact Op|]. exists false. unfold h'. by eapply upd_lk_same.
        + destruct (decide (i = p)) as [->|Nip].
          { left. rewrite E in Ei. injection Ei as <- ->. done. }
          assert (Ei' : nxt h' 0 i j). { exists m. unfold h'. rewrite upd_lk_ne by (by left). done. }
          destruct (decide (j = c)) as [->|Njc]; [|right; split; [done|by eapply onl_S]].
          exfalso.
          destruct (onl_link comp _ _ _ _ _ _ I (onl_pub comp _ _ _ _ _ I O) (ex_intro _ m Ei)) as (_ & _ & _ & Ni1).
          assert (Lic : elt (key h i) (key h c)).
          { destruct (hi_link _ _ _ _ I i 0 _ (onl_pub comp _ _ _ _ _ I O) Ni1 Ei) as (j & [= <-] & _ & _ & _ & [O'|[O' _]]); [done|lia]. }
          destruct (chain_gap comp H _ _ _ _ _ _ i I Hp E Hi) as [F|[F|[F|F]]]; [done| |done|].
          * destruct (chain_gap comp H _ _ _ _ _ _ p I Hi Ei Hp) as [G|[G|[G|G]]]; [done| |done|].
            -- by apply (elt_irrefl comp H (key h p)), (elt_trans comp H _ (key h i)).
            -- by apply (elt_irrefl comp H (key h p)), (elt_trans comp H _ (key h c)).
          * by apply (elt_irrefl comp H (key h i)), (elt_trans comp H _ (key h c)). }
    intros k O N. destruct (Gen k O) as [[-> _]|[_ F]]; done.
  Qed.

  (** what is kept while a goroutine removes [v] alone *)
  Definition KI (K : nat -> T -> Prop) (ps : list (pc T)) (t : nat) (s : list T) (v : T) (m : mem T) (p : pc T) : Prop :=
    seqI zero comp ps t s (Del v) m p /\
    forall k u, K k u -> onl (heap m) 0 k /\ key (heap m) k = EVal u /\ ~ elt (EVal u) (EVal v).
  Lemma KI_step K ps t s v m p top m' p' : t < length ps -> present comp s v ->
    KI K ps t s v m p -> running p = true -> random_level top -> tstep m p top = Ok (m', p') -> KI K ps t s v m' p'.
  Proof.
    intros Lt (w & Hw & Ew) (Q & HK) Hr Ht E. split; [by eapply (seqI_step zero comp H)|].
    destruct Q as (s1 & ph & past & (pub & ch & Rr) & D). cbn [shared pcs] in Rr.
    pose proof (r_heap _ _ _ _ _ _ _ _ _ Rr) as I.
    pose proof (r_pcs _ _ _ _ _ _ _ _ _ Rr t p (list_lookup_insert _ _ _ Lt)) as Tp.
    assert (Same : heap m' = heap m -> forall k u, K k u -> onl (heap m') 0 k /\ key (heap m') k = EVal u /\ ~ elt (EVal u) (EVal v)) by (by intros ->).
    destruct p as [|k v' prevs succs [l prev|l prev cur|l prev cur next]|v' new prevs succs|l v' new prevs succs| |v' l nd|v' l nd next| | |v'|r]; cbn [LockFree_Model.tstep] in E; try done.
    - apply Same. destruct (load_next _ _ _); cbn [rbind] in E; [|done..]. by injection E as <- _.
    - apply Same. cbn [TI] in Tp. destruct Tp as (Pu & _). 
      assert (k = ForDel) as ->.
      { destruct D as [(Hp & _)|(r & Hp & _)]; rewrite Hp in Pu; destruct k; cbn in Pu; try done; destruct Pu; done. }
      destruct (load_next _ _ _) as [x| |]; cbn [rbind] in E; try done. destruct (is_marked x); [by injection E as <- _|].
      destruct (less _ _ _ _) as [[|]| |]; cbn [rbind] in E; try done; [by injection E as <- _|].
      destruct l; [|by injection E as <- _]. cbn [found] in E.
      destruct (equals comp (heap m) cur v') as [[|]| |]; cbn [rbind] in E; try done; [|by injection E as <- _].
      destruct cur as [c|]; cbn [deref rbind] in E; [|done]. destruct (heap m !! c); cbn [deref rbind] in E; [|done]. by injection E as <- _.
    - cbn [TI] in Tp. destruct Tp as (Pu & _ & Po). cbn [posI] in Po.
      assert (k = ForDel /\ v' = v /\ s1 = s) as (-> & -> & ->).
      { destruct D as [(Hp & Es & _)|(r & Hp & _)]; rewrite Hp in Pu; destruct k; cbn in Pu; try done; try (by destruct Pu). injection Pu as ->. done. }
      destruct Po as (Ll & i & c & -> & -> & (Pi & Ni & Lvi & Oi) & _ & Pc & Nc0 & Nc1 & Ec & Mx).
      destruct (cas_next _ _ _ _ _) as [[b h]| |] eqn:Ecas; cbn [rbind] in E; try done.
      destruct (cas_cases _ _ _ _ _ _ _ Ecas) as [(-> & Ei & ->)|(-> & ->)]; [|apply Same; by injection E as <- _].
      injection E as <- _. cbn [heap]. intros k u Kk. destruct (HK k u Kk) as (Ok & Ku & Nk). rewrite upd_key. split; [|done].
      destruct l as [|l]; [|by apply onl_ne].
      destruct next as [nx mk]. cbn [snd] in Mx. subst mk.
      destruct (hi_link _ _ _ _ I c 0 _ Pc Nc1 Ec) as (sx & [= ->] & _).
      assert (Hi : i ∈ 0 :: ch) by (apply (hi_live _ _ _ _ I); [done|by exists (Some c)]).
      cbn [fst]. eapply snip_others; [exact I|exact Hi|exact Ei|by exists true|done|].
      intros ->.
      rewrite (r_set _ _ _ _ _ _ _ _ _ Rr) in Hw. apply (elem_absv comp H _ _ _ _ I) in Hw as (z & Hz & Nz & Az & Kz).
      destruct (val_eeq comp H _ _ Ew) as [W1 W2].
      destruct (chain_gap comp H _ _ _ _ _ _ z I Hi Ei ltac:(by right)) as [F|[F|[F|F]]].
      + subst z. rewrite Kz in Oi. done.
      + rewrite Kz in F. apply W1. by eapply (elt_trans comp H).
      + subst z. destruct Az as [j Az]. rewrite Az in Ec. done.
      + rewrite Kz in F. apply Nk. rewrite <-Ku. eapply (elt_le_trans comp H); [exact F|exact W2].
    - exfalso. cbn [TI] in Tp. destruct Tp as (Pu & _). destruct D as [(Hp & _)|(r & Hp & _)]; rewrite Hp in Pu; done.
    - exfalso. cbn [TI] in Tp. destruct Tp as (Pu & _). destruct D as [(Hp & _)|(r & Hp & _)]; rewrite Hp in Pu; done.
    - apply Same. by injection E as <- _.
    - apply Same. destruct (load_next _ _ _) as [x| |]; cbn [rbind] in E; try done. destruct (is_marked x); [destruct l|]; by injection E as <- _.
    - cbn [TI] in Tp. destruct Tp as (_ & (r & -> & _) & Nx).
      destruct (cas_next _ _ _ _ _) as [[b h]| |] eqn:Ecas; cbn [rbind] in E; try done.
      destruct next as [nx mk]. cbn [snd] in Nx. subst mk.
      destruct (cas_cases _ _ _ _ _ _ _ Ecas) as [(-> & Ei & ->)|(-> & ->)]; [|apply Same; destruct l; by injection E as <- _].
      assert (heap m' = upd (heap m) r l (nx, true)) as -> by (destruct l; by injection E as <- _).
      intros k u Kk. destruct (HK k u Kk) as (Ok & Ku & Nk). rewrite upd_key. split; [|done]. by apply (mark_onl (heap m) r l nx).
    - apply Same. by injection E as <- _.
    - apply Same. by injection E as <- _.
    - apply Same. cbv zeta in E. destruct (decide _); by injection E as <- _.
  Qed.

  Lemma onl_linked n h x i w : exec step (sys_init zero n) h x -> i <> 0 -> i <> 1 -> onl (heap (shared x)) 0 i -> key (heap (shared x)) i = EVal w -> linked x i w.
  Proof.
    intros E N0 N1 O K. destruct (reach zero comp H _ _ _ E) as (ms & s & ph & past & _ & (pub & ch & Rr)). pose proof (r_heap _ _ _ _ _ _ _ _ _ Rr) as I.
    destruct (chain_ids _ H _ _ _ I) as (ids & Ec & M1 & M0). exists ids. pose proof (hi_seg _ _ _ _ I) as S. rewrite Ec in S. splits.
    - by apply seg_path.
    - pose proof (onl_ch _ _ _ _ I O) as Hi. rewrite Ec in Hi. apply elem_of_cons in Hi as [->|Hi]; [done|]. apply elem_of_app in Hi as [Hi|Hi]; [done|]. by apply elem_of_list_singleton in Hi.
    - unfold key in K. rewrite !decide_False in K by done. destruct (heap (shared x) !! i) as [nd|]; [|done]. cbn. by injection K as ->.
  Qed.
  Lemma linked_onl n h x i w : exec step (sys_init zero n) h x -> linked x i w -> i <> 0 /\ i <> 1 /\ onl (heap (shared x)) 0 i /\ key (heap (shared x)) i = EVal w.
  Proof.
    intros E (ids & P & Hi & V). destruct (reach zero comp H _ _ _ E) as (ms & s & ph & past & _ & (pub & ch & Rr)). pose proof (r_heap _ _ _ _ _ _ _ _ _ Rr) as I.
    destruct (chain_ids _ H _ _ _ I) as (ids' & Ec & M1 & M0). pose proof (hi_seg _ _ _ _ I) as S. rewrite Ec in S.
    assert (ids' = ids) as -> by (eapply path_det; [by apply seg_path|exact P]).
    assert (N0 : i <> 0) by (by intros ->). assert (N1 : i <> 1) by (by intros ->). splits; try done.
    - eapply seg_onl; [apply onl_0|exact S|]. apply elem_of_app. by left.
    - unfold key. rewrite !decide_False by done. destruct (heap (shared x) !! i); [|done]. cbn in V. by injection V as ->.
  Qed.
  Lemma stored_exists n h x : exec step (sys_init zero n) h x -> exists s, stored x s.
  Proof. intros E. destruct (reach zero comp H _ _ _ E) as (ms & s & ph & past & _ & Rx). destruct (R_stored zero comp H _ _ _ _ Rx) as (ids & P & Es & _). exists s, ids. done. Qed.
  Lemma stored_linked n h x s w : exec step (sys_init zero n) h x -> stored x s -> w ∈ s -> exists i, linked x i w.
  Proof using Type.
    intros E (ids & P & ->) Hw. apply elem_of_list_omap in Hw as (i & Hi & Hv). exists i, ids. splits; try done.
    unfold unmarked_value in Hv. destruct (heap (shared x) !! i) as [nd|]; cbn in *; [|done]. destruct (nexts nd !! 0) as [l|]; cbn in Hv; [|done]. by destruct (is_marked l).
  Qed.
  (** no two elements compare equal *)
  Lemma omap_part {A : Type} (f g : A -> option T) (Rel : T -> T -> Prop) (l : list A) :
    (forall i w, g i = Some w -> f i = Some w) -> StronglySorted Rel (omap f l) ->
    StronglySorted Rel (omap g l) /\ forall w, w ∈ omap g l -> w ∈ omap f l.
  Proof using Type.
    intros G. induction l as [|i l IH]; cbn [omap list_omap]; intros S; [split; [constructor|done]|].
    destruct (g i) as [w|] eqn:Eg.
    - rewrite (G _ _ Eg) in S |- *. apply StronglySorted_inv in S as [S F]. destruct (IH S) as [I1 I2]. split.
      + constructor; [done|]. rewrite List.Forall_forall in F |- *. intros z Hz. apply F. apply elem_of_list_In, I2. by apply elem_of_list_In.
      + intros z Hz. apply elem_of_cons in Hz as [->|Hz]; [left|right; by apply I2].
    - destruct (f i) as [u|]; [|by apply IH]. apply StronglySorted_inv in S as [S F]. destruct (IH S) as [I1 I2]. split; [done|].
      intros z Hz. right. by apply I2.
  Qed.
  Lemma sorted_unique (s : list T) a b r : StronglySorted (fun a b => (comp a b < 0)%Z) s -> s ≡ₚ a :: b :: r -> comp a b <> 0%Z.
  Proof.
    intros S Hp E. set (f := fun w => bool_decide (comp w b = 0%Z)).
    assert (L : length (List.filter f s) <= 1).
    { clear Hp. induction s as [|c s IH]; [cbn; lia|]. apply StronglySorted_inv in S as [S F]. specialize (IH S). cbn [List.filter].
      destruct (f c) eqn:Ec; [|done]. assert (List.filter f s = []) as ->; [|cbn; lia].
      destruct (List.filter f s) as [|d ds] eqn:Ed; [done|]. exfalso.
      assert (Hd : List.In d (List.filter f s)) by (rewrite Ed; by left). apply List.filter_In in Hd as [Hd Fd].
      rewrite List.Forall_forall in F. specialize (F _ Hd). apply bool_decide_eq_true in Ec, Fd.
      destruct (val_eeq comp H _ _ Ec) as [A1 A2]. destruct (val_eeq comp H _ _ Fd) as [B1 B2].
      apply A1. exact (elt_le_trans comp H (EVal c) (EVal d) (EVal b) F B2). }
    assert (Lf : forall l l' : list T, l ≡ₚ l' -> length (List.filter f l) = length (List.filter f l')).
    { induction 1 as [|z l l' _ IH|z z' l|l l' l'' _ IH1 _ IH2]; cbn; [done| | |congruence]; [destruct (f z); cbn; lia|destruct (f z), (f z'); done]. }
    rewrite (Lf _ _ Hp) in L. cbn [List.filter] in L. assert (f a = true) as Fa by (by apply bool_decide_eq_true).
    assert (f b = true) as Fb by (apply bool_decide_eq_true; apply (cmp_refl comp H)). rewrite Fa, Fb in L. cbn in L. lia.
  Qed.
  Lemma stored_unique n h x s a b r : exec step (sys_init zero n) h x -> stored x s -> s ≡ₚ a :: b :: r -> comp a b <> 0%Z.
  Proof.
    intros E (ids & P & ->). destruct (reach zero comp H _ _ _ E) as (ms & s & ph & past & _ & Rx). destruct (R_stored zero comp H _ _ _ _ Rx) as (ids' & P' & _ & S).
    rewrite (path_det _ _ _ _ _ P P'). apply sorted_unique.
    eapply omap_part; [|exact S]. intros i w Hv. cbn beta. unfold unmarked_value in Hv.
    destruct (heap (shared x) !! i) as [nd|]; cbn in *; [|done]. destruct (nexts nd !! 0) as [l|]; cbn in Hv; [|done]. by destruct (is_marked l).
  Qed.

  Lemma del_keeps n h x t v y : exec step (sys_init zero n) h x -> quiet x -> exec step x [Call t (Del v); Return t (RBool true)] y ->
    quiet y /\ (forall i w, linked x i w -> (0 <= comp w v)%Z -> linked y i w) /\
    exists s s' w i, stored x s /\ stored y s' /\ w ∈ s /\ (forall z, z ∈ s' -> z ∈ s) /\ ~ present comp s' v /\
      comp w v = 0%Z /\ linked x i w /\ linked y i w.
  Proof.
    intros E Q E2. pose proof (call_in_range comp _ _ _ _ _ E2 Q) as Lt. destruct (stored_exists _ _ _ E) as [s Hs].
    destruct (quiet_call zero comp H _ _ _ _ _ _ _ _ E Q Hs E2) as (Qy & s' & Lg & Hs').
    assert (Ey : exec step (sys_init zero n) (h ++ [Call t (Del v); Return t (RBool true)]) y) by (by eapply exec_app).
    inversion Lg as [| |? ? ? w Cw Hp| | | | | | |]; subst.
    assert (Pr : present comp s v). { exists w. split; [|done]. rewrite Hp. left. }
    assert (Keep : forall i z, linked x i z -> (0 <= comp z v)%Z -> linked y i z).
    { intros i z Lz Cz.
      set (K := fun k u => linked x k u /\ (0 <= comp u v)%Z).
      destruct (solo_exec comp x t (Del v) (KI K (pcs x) t s v) Q) with (h := [Call t (Del v); Return t (RBool true)] : list (event (op T) (ret T))) (y := y) as (_ & _ & F); [| |done|].
      - split; [by eapply (quiet_seqI zero comp H)|]. intros k u [Lk Ck]. destruct (linked_onl _ _ _ _ _ E Lk) as (_ & _ & O & Kk). splits; try done. cbn. lia.
      - intros m p top m' p' A B C D. eapply KI_step; eauto.
      - destruct (F _ eq_refl) as [[_ HK] _]. destruct (HK i z (conj Lz Cz)) as (O & Kk & _). destruct (linked_onl _ _ _ _ _ E Lz) as (N0 & N1 & _ & _).
        by eapply onl_linked. }
    split; [done|]. split; [done|]. destruct (stored_linked _ _ _ _ w E Hs) as [i Li]; [rewrite Hp; left|].
    exists s, s', w, i. splits; try done.
    - rewrite Hp. left.
    - intros z Hz. rewrite Hp. by right.
    - intros (b & Hb & Cb). apply elem_of_Permutation in Hb as [r Hr].
      apply (stored_unique _ _ _ _ w b r E Hs); [by rewrite Hp, Hr|].
      destruct (val_eeq comp H _ _ Cw) as [A1 A2]. destruct (val_eeq comp H _ _ Cb) as [B1 B2].
      apply (eeq_val comp H); [exact (le_trans comp H (EVal b) (EVal v) (EVal w) B2 A1)|].
      exact (le_trans comp H (EVal w) (EVal v) (EVal b) A2 B1).
    - apply Keep; [done|lia].
  Qed.

  Lemma dels_keep n t vs : forall h x y, exec step (sys_init zero n) h x -> quiet x -> exec step x (del_calls t vs) y ->
    StronglySorted (fun a b => (0 < comp a b)%Z) vs ->
    quiet y /\ (forall i w, linked x i w -> Forall (fun v => (0 <= comp w v)%Z) vs -> linked y i w) /\
    exists s s', stored x s /\ stored y s' /\ (forall z, z ∈ s' -> z ∈ s) /\
      forall v, v ∈ vs -> ~ present comp s' v /\ exists i w, linked y i w /\ comp w v = 0%Z.
  Proof.
    induction vs as [|v vs IH]; intros h x y E Q E2 Sd.
    - assert (y = x) as ->.
      { destruct (solo_exec comp x 0 Len (fun _ _ => True) Q Logic.I (fun _ _ _ _ _ _ _ _ _ => Logic.I) _ _ E2) as (F & _). by apply F. }
      destruct (stored_exists _ _ _ E) as [s Hs]. splits; try done. exists s, s. splits; try done. intros v Hv. by apply elem_of_nil in Hv.
    - unfold del_calls in E2. cbn [fmap list_fmap concat] in E2. apply exec_app_inv in E2 as (x1 & E1 & E2).
      apply StronglySorted_inv in Sd as [Sd F].
      destruct (del_keeps _ _ _ _ _ _ E Q E1) as (Q1 & K1 & s & s1 & w & i & Hs & Hs1 & _ & Sub & NP & Cw & _ & Li).
      assert (Ex1 : exec step (sys_init zero n) (h ++ [Call t (Del v); Return t (RBool true)]) x1) by (by eapply exec_app).
      destruct (IH _ _ _ Ex1 Q1 E2 Sd) as (Qy & K2 & s1' & s' & Hs1' & Hs' & Sub' & Each).
      assert (s1' = s1) as -> by (by eapply (stored_det x1)).
      split; [done|]. split.
      + intros j u Lj Fu. apply Forall_cons in Fu as [Fu Fus]. apply K2; [by apply K1|done].
      + exists s, s'. splits; try done; [intros z Hz; by apply Sub, Sub'|]. intros u Hu. apply elem_of_cons in Hu as [->|Hu]; [|by apply Each]. split.
        * intros (z & Hz & Cz). apply NP. exists z. split; [by apply Sub'|done].
        * exists i, w. split; [|done]. apply K2; [done|]. rewrite List.Forall_forall in F. apply List.Forall_forall. intros u Hu. specialize (F u Hu).
          destruct (val_eeq comp H _ _ Cw) as [A1 A2]. pose proof (cmp_anti _ H w u). pose proof (cmp_anti _ H v u).
          assert (~ elt (EVal w) (EVal u)); [|cbn in *; lia]. intros X. apply A2. cbn [LockFree_Proofs.elt] in X |- *.
          assert (Lu : elt (EVal u) (EVal v)) by (cbn; lia). exfalso. apply A1. exact (elt_trans comp H (EVal w) (EVal u) (EVal v) X Lu).
  Qed.
End lf.
