(** Lock-free skip list: when calls do not overlap, every element is linked on
    all levels of its tower. *)
From stdpp Require Import functions.
From stdpp Require Import list relations.
From Verif Require Import Base Lin_Spec Lin_Proofs Lin_Hindsight LockFree_Model LockFree_Spec LockFree_Proofs LockFree_Proofs2 LockFree_Proofs3 LockFree_Proofs4 LockFree_Proofs5 LockFree_Proofs6 LockFree_Proofs7 LockFree_Proofs8 LockFree_Proofs9 LockFree_Proofs10.

Section lf.
  Context {T : Type} (zero : T) (comp : T -> T -> Z) (H : cmp_ok comp).
  Notation node := (node T).
  Notation heap_t := (list node).
  Notation HI := (HI comp).
  Notation elt := (elt comp).
  Notation step := (step comp).
  Notation tstep := (tstep comp).
  Notation ok := (ok zero comp).

  (** ** The nodes linked on a level *)
  Definition nxt (h : heap_t) (l i j : nat) : Prop := exists m, lk h i l = Some (Some j, m).
  Definition onl (h : heap_t) (l i : nat) : Prop := rtc (nxt h l) 0 i.
  Definition live (h : heap_t) (k : nat) : Prop := alive h k /\ onl h 0 k.
  Definition none2 (_ _ : nat) : Prop := False.
  Definition none1 (_ : nat) : Prop := False.
  (** between a node and its successor on a level there is no element whose
      tower reaches that level, except those of [ex] *)
  Record GI (h : heap_t) (ex : nat -> nat -> Prop) : Prop := {
    g_ord : forall l i j, onl h l i -> nxt h l i j -> elt (key h i) (key h j);
    g_gap : forall l i j k, onl h l i -> nxt h l i j -> live h k -> l < lvl h k -> ~ ex k l ->
      elt (key h i) (key h k) -> ~ elt (key h j) (key h k) -> k = j }.
  (** elements carry no mark on any level, except those of [ex] *)
  Definition UI (h : heap_t) (ex : nat -> Prop) : Prop := forall k l j, live h k -> ~ ex k -> lk h k l <> Some (j, true).

  Lemma onl_0 h l : onl h l 0.
  Proof. constructor. Qed.
  Lemma onl_S h l i j : onl h l i -> nxt h l i j -> onl h l j.
  Proof. intros A B. by eapply rtc_r. Qed.
  Lemma onl_ind (h : heap_t) l (P : nat -> Prop) : P 0 -> (forall i j, onl h l i -> nxt h l i j -> P i -> P j) -> forall k, onl h l k -> P k.
  Proof. intros P0 PS k Hk. eapply rtc_ind_r; [exact P0| |exact Hk]. intros y z A B C. by eapply PS. Qed.
  Lemma nxt_det (h : heap_t) l i j j' : nxt h l i j -> nxt h l i j' -> j = j'.
  Proof. intros [m E] [m' E']. congruence. Qed.
  Lemma onl_link h pub ch l i j : HI h pub ch -> pub i -> nxt h l i j -> pub j /\ j <> 0 /\ l < lvl h j /\ i <> 1.
  Proof.
    intros I P [m E]. assert (N : i <> 1) by (intros ->; by apply (hi_tailnil _ _ _ _ I) in E).
    destruct (hi_link _ _ _ _ I i l _ P N E) as (j' & [= <-] & Pj & Nj & Lj & _). done.
  Qed.
  Lemma onl_pub h pub ch l i : HI h pub ch -> onl h l i -> pub i.
  Proof. intros I. revert i. apply onl_ind; [apply I|]. intros i j _ E P. by destruct (onl_link _ _ _ _ _ _ I P E). Qed.
  Lemma onl_lvl h pub ch l i : HI h pub ch -> l < max_level -> onl h l i -> l < lvl h i.
  Proof.
    intros I L. revert i. apply onl_ind; [by rewrite (hi_head _ _ _ _ I)|]. intros i j O E _.
    by destruct (onl_link _ _ _ _ _ _ I (onl_pub _ _ _ _ _ I O) E) as (_ & _ & ? & _).
  Qed.
  Lemma seg_onl (h : heap_t) ids : forall i, onl h 0 i -> seg h i ids -> forall k, k ∈ ids -> onl h 0 k.
  Proof.
    induction ids as [|j ids IH]; intros i O S k Hk; [by apply elem_of_nil in Hk|]. destruct S as [E S].
    assert (Oj : onl h 0 j) by (eapply onl_S; [exact O|exact E]). apply elem_of_cons in Hk as [->|Hk]; [done|]. by eapply IH.
  Qed.
  Lemma pub_live h pub ch i : HI h pub ch -> pub i -> alive h i -> live h i.
  Proof.
    intros I P A. split; [done|]. pose proof (hi_live _ _ _ _ I i P A) as [->|Hi]%elem_of_cons; [apply onl_0|]. eapply seg_onl; [apply onl_0|apply I|done].
  Qed.
  Lemma live_pub h pub ch i : HI h pub ch -> live h i -> pub i.
  Proof. intros I [_ O]. by eapply onl_pub. Qed.
  Lemma GI_drop h ex ex' : GI h ex -> (forall k l, live h k -> l < lvl h k -> ~ ex' k l -> ~ ex k l) -> GI h ex'.
  Proof. intros G D. constructor; [apply G|]. intros l i j k O E Lk Ll N. apply (g_gap _ _ G l); auto. Qed.

  (** ** A level is a chain *)
  Lemma chain_le h ex l a b : GI h ex -> onl h l a -> rtc (nxt h l) a b -> a = b \/ elt (key h a) (key h b).
  Proof.
    intros G O R. revert O. induction R as [a|a c b E R IH]; intros O; [by left|]. right.
    pose proof (g_ord _ _ G _ _ _ O E) as Ea. destruct (IH (onl_S _ _ _ _ O E)) as [->|F]; [done|]. by eapply (elt_trans _ H).
  Qed.
  Lemma chain_lin (h : heap_t) l a b : onl h l a -> onl h l b -> rtc (nxt h l) a b \/ rtc (nxt h l) b a.
  Proof.
    intros Oa. revert b. apply onl_ind; [by right|]. intros i j _ E [R|R]; [left; by eapply rtc_r|].
    inversion R as [|? c ? E' R']; subst; [left; by apply rtc_once|]. rewrite (nxt_det _ _ _ _ _ E E'). by right.
  Qed.
  Lemma chain_between h ex l p s x : GI h ex -> onl h l p -> nxt h l p s -> onl h l x -> elt (key h p) (key h x) -> elt (key h x) (key h s) -> False.
  Proof.
    intros G Op E Ox Lp Ls. destruct (chain_lin _ _ _ _ Op Ox) as [R|R].
    - inversion R as [|? c ? E' R']; subst; [by apply (elt_irrefl _ H) in Lp|]. pose proof (nxt_det _ _ _ _ _ E E'). subst c.
      destruct (chain_le _ _ _ _ _ G (onl_S _ _ _ _ Op E) R') as [->|F]; [by apply (elt_irrefl _ H) in Ls|].
      apply (elt_irrefl _ H (key h x)). by eapply (elt_trans _ H).
    - destruct (chain_le _ _ _ _ _ G Ox R) as [->|F]; [by apply (elt_irrefl _ H) in Lp|]. apply (elt_irrefl _ H (key h x)). by eapply (elt_trans _ H).
  Qed.
  Lemma chain_same h ex l a b : GI h ex -> onl h l a -> onl h l b -> ~ elt (key h a) (key h b) -> ~ elt (key h b) (key h a) -> a = b.
  Proof.
    intros G Oa Ob N1 N2. destruct (chain_lin _ _ _ _ Oa Ob) as [R|R].
    - by destruct (chain_le _ _ _ _ _ G Oa R) as [->|F].
    - by destruct (chain_le _ _ _ _ _ G Ob R) as [->|F].
  Qed.

  (** ** Every element is linked on every level of its tower *)
  Lemma GI_full h pub ch ex l k : HI h pub ch -> GI h ex -> live h k -> l < lvl h k -> ~ ex k l -> onl h l k.
  Proof.
    intros I G Lk Ll Nx. pose proof (live_pub _ _ _ _ I Lk) as Pk. pose proof (hi_lvl _ _ _ _ _ I (hi_pub _ _ _ _ I _ Pk)) as Lm.
    destruct (decide (k = 0)) as [->|N0]; [apply onl_0|]. assert (Lmm : l < max_level) by lia.
    assert (W : forall d i, depth comp h i <= d -> onl h l i -> elt (key h i) (key h k) -> onl h l k).
    { induction d as [|d IH]; intros i D O Hlt; pose proof (onl_pub _ _ _ _ _ I O) as Pi;
        (assert (Ni : i <> 1) by (intros ->; unfold key in Hlt; cbn in Hlt; done));
        destruct (hi_lk _ _ _ _ i l I (onl_lvl _ _ _ _ _ I Lmm O)) as [[j m] E];
        destruct (hi_link _ _ _ _ I i l _ Pi Ni E) as (j' & Ej & Pj & Nj & Lj & Oj); cbn in Ej; subst j;
        pose proof (depth_lt comp H _ _ _ _ Oj (hi_pub _ _ _ _ I _ Pj)) as Dl; [lia|].
      assert (En : nxt h l i j') by (by exists m). destruct (elt_dec comp (key h j') (key h k)) as [Lt|Ge].
      - apply (IH j'); [lia|by eapply onl_S|done].
      - rewrite (g_gap _ _ G _ _ _ _ O En Lk Ll Nx Hlt Ge). by eapply onl_S. }
    apply (W (depth comp h 0) 0); [lia|apply onl_0|]. unfold key. rewrite (decide_True (P := 0 = 0)) by done. rewrite (decide_False (P := k = 0)) by done.
    destruct (decide (k = 1)); [done|]. by destruct (h !! k).
  Qed.

  (** ** Writes *)
  Lemma nxt_ne (h : heap_t) p l x l' i j : l' <> l -> nxt (upd h p l x) l' i j <-> nxt h l' i j.
  Proof. intros N. unfold nxt. rewrite upd_lk_ne by tauto. done. Qed.
  Lemma onl_ne (h : heap_t) p l x l' k : l' <> l -> onl (upd h p l x) l' k <-> onl h l' k.
  Proof.
    intros N. split; (revert k; apply onl_ind; [apply onl_0|]); intros i j _ E IH; (eapply onl_S; [exact IH|]).
    - by eapply nxt_ne.
    - by apply nxt_ne.
  Qed.
  Lemma nxt_other (h : heap_t) p l x i j : i <> p -> nxt (upd h p l x) l i j <-> nxt h l i j.
  Proof. intros N. unfold nxt. rewrite upd_lk_ne by tauto. done. Qed.
  Lemma alive_unm (h : heap_t) p l x y k : lk h p l = Some (x, false) -> alive (upd h p l (y, false)) k <-> alive h k.
  Proof.
    intros E. unfold alive. rewrite upd_lk. destruct (decide _) as [[-> <-]|N]; [|done]. rewrite E. cbn. split; intros _; eauto.
  Qed.
  Lemma onl_before (h : heap_t) ex p l x k : GI h ex -> onl h l k -> ~ elt (key h p) (key h k) -> onl (upd h p l x) l k.
  Proof.
    intros G O. revert k O. apply (onl_ind h l (fun k => ~ elt (key h p) (key h k) -> onl (upd h p l x) l k)); [intros _; apply onl_0|].
    intros i j O E IH N. pose proof (g_ord _ _ G _ _ _ O E) as Lt. eapply onl_S; [apply IH|].
    - intros F. apply N. by eapply (elt_trans _ H).
    - apply nxt_other; [|done]. intros ->. done.
  Qed.

  (** marking *)
  Lemma mark_nxt (h : heap_t) nd l x l' i j : lk h nd l = Some (x, false) -> nxt (upd h nd l (x, true)) l' i j <-> nxt h l' i j.
  Proof.
    intros E. unfold nxt. rewrite upd_lk. destruct (decide _) as [[-> ->]|N]; [|done]. rewrite E. cbn. split; intros [m [= ->]]; eauto.
  Qed.
  Lemma mark_onl (h : heap_t) nd l x l' k : lk h nd l = Some (x, false) -> onl (upd h nd l (x, true)) l' k <-> onl h l' k.
  Proof.
    intros E. split; (revert k; apply onl_ind; [apply onl_0|]); intros i j _ En IH; (eapply onl_S; [exact IH|]).
    - by eapply mark_nxt.
    - by apply mark_nxt.
  Qed.
  Lemma mark_live (h : heap_t) nd l x k : lk h nd l = Some (x, false) -> live (upd h nd l (x, true)) k -> live h k /\ (l = 0 -> k <> nd).
  Proof.
    intros E [[j A] O]. rewrite (mark_onl _ _ _ _ _ _ E) in O. rewrite upd_lk in A. destruct (decide _) as [[-> <-]|N].
    - rewrite E in A. done.
    - split; [split; [by exists j|done]|]. intros -> ->. by apply N.
  Qed.
  Lemma mark_GI (h : heap_t) nd l x ex : lk h nd l = Some (x, false) -> GI h ex -> GI (upd h nd l (x, true)) ex.
  Proof.
    intros E G. constructor.
    - intros l' i j O En. rewrite !upd_key. rewrite (mark_onl _ _ _ _ _ _ E) in O. rewrite (mark_nxt _ _ _ _ _ _ _ E) in En. by eapply (g_ord _ _ G).
    - intros l' i j k O En Lk. rewrite upd_lvl, !upd_key. rewrite (mark_onl _ _ _ _ _ _ E) in O. rewrite (mark_nxt _ _ _ _ _ _ _ E) in En.
      destruct (mark_live _ _ _ _ _ E Lk) as [Lk' _]. by eapply (g_gap _ _ G).
  Qed.
  Lemma mark_UI (h : heap_t) nd l x : lk h nd l = Some (x, false) -> UI h (fun k => Some k = Some nd) -> UI (upd h nd l (x, true)) (fun k => Some k = Some nd).
  Proof.
    intros E U k l' j Lk N. destruct (mark_live _ _ _ _ _ E Lk) as [Lk' _]. rewrite upd_lk_ne; [by apply U|]. left. congruence.
  Qed.
  Lemma UI_dead (h : heap_t) nd : UI h (fun k => Some k = Some nd) -> ~ alive h nd -> UI h none1.
  Proof. intros U A k l j Lk _. apply U; [done|]. intros [= ->]. by destruct Lk. Qed.

  (** unlinking a marked node *)
  Section snip.
    Context (h : heap_t) (pub : nat -> Prop) (ch : list nat) (I : HI h pub ch) (G : GI h none2) (U : UI h none1).
    Context (p l c n : nat) (Op : onl h l p) (Ep : lk h p l = Some (Some c, false)) (Ec : lk h c l = Some (Some n, true)).
    Notation h' := (upd h p l (Some n, false)).
    Lemma snip_pc : elt (key h p) (key h c) /\ p <> c.
    Proof. assert (E : nxt h l p c) by (by exists false). pose proof (g_ord _ _ G _ _ _ Op E) as L. split; [done|]. intros ->. by apply (elt_irrefl _ H) in L. Qed.
    Lemma snip_back k : onl h' l k -> onl h l k.
    Proof.
      revert k. apply onl_ind; [apply onl_0|]. intros i j _ E IH. destruct (decide (i = p)) as [->|N].
      - destruct E as [m E]. rewrite (upd_lk_same _ _ _ _ _ Ep) in E. injection E as <- <-.
        eapply onl_S; [eapply onl_S; [exact Op|by exists false]|by exists true].
      - eapply onl_S; [exact IH|]. by eapply nxt_other.
    Qed.
    Lemma snip_p : onl h' l p.
    Proof. eapply onl_before; [exact G|done|]. apply (elt_irrefl _ H). Qed.
    Lemma snip_keep k : k <> c -> onl h l k -> onl h' l k.
    Proof.
      intros N O. revert k O N. apply (onl_ind h l (fun k => k <> c -> onl h' l k)); [intros _; apply onl_0|].
      intros i j O E IH N. destruct (decide (i = c)) as [->|Nc].
      - destruct E as [m E]. rewrite Ec in E. injection E as <- <-. eapply onl_S; [apply snip_p|]. exists false. apply (upd_lk_same _ _ _ _ _ Ep).
      - destruct (decide (i = p)) as [->|Np].
        + destruct E as [m E]. rewrite Ep in E. injection E as <- _. done.
        + eapply onl_S; [by apply IH|]. by apply nxt_other.
    Qed.
    Lemma snip_live k : live h' k <-> live h k.
    Proof.
      unfold live. rewrite (alive_unm _ _ _ _ _ _ Ep). destruct (decide (l = 0)) as [E0|N0].
      - split; intros [A O]; (split; [done|]); rewrite <-E0 in *; [by apply snip_back|]. apply snip_keep; [|done]. intros ->. destruct A as [j A]. rewrite <-E0, Ec in A. done.
      - rewrite onl_ne by done. done.
    Qed.
    Lemma snip_GI : GI h' none2.
    Proof.
      destruct snip_pc as [Lpc Npc]. assert (E1 : nxt h l p c) by (by exists false). assert (E2 : nxt h l c n) by (by exists true).
      pose proof (onl_S _ _ _ _ Op E1) as Oc. pose proof (g_ord _ _ G _ _ _ Oc E2) as Lcn. constructor.
      - intros l' i j O E. rewrite !upd_key. destruct (decide (l' = l)) as [->|Nl].
        + destruct (decide (i = p)) as [->|N]; [|eapply (g_ord _ _ G); [by apply snip_back|by eapply nxt_other]].
          destruct E as [m E]. rewrite (upd_lk_same _ _ _ _ _ Ep) in E. injection E as <- <-. by eapply (elt_trans _ H).
        + eapply (g_ord _ _ G); [by eapply onl_ne|by eapply nxt_ne].
      - intros l' i j k O E Lk. rewrite snip_live in Lk. rewrite upd_lvl, !upd_key. intros Ll Nx Lt Ge. destruct (decide (l' = l)) as [->|Nl].
        + destruct (decide (i = p)) as [->|N]; [|eapply (g_gap _ _ G); [by apply snip_back|by eapply nxt_other|done..]].
          destruct E as [m E]. rewrite (upd_lk_same _ _ _ _ _ Ep) in E. injection E as <- <-.
          destruct (elt_dec comp (key h c) (key h k)) as [Lc|Gc]; [by eapply (g_gap _ _ G l c n)|].
          pose proof (g_gap _ _ G l p c k Op E1 Lk Ll Nx Lt Gc). subst k. exfalso. by apply (U c l (Some n)).
        + eapply (g_gap _ _ G); [by eapply onl_ne|by eapply nxt_ne|done..].
    Qed.
    Lemma snip_UI : UI h' none1.
    Proof.
      intros k l' j Lk Nx. rewrite snip_live in Lk. rewrite upd_lk. destruct (decide _) as [[-> ->]|N]; [rewrite Ep; done|]. by apply U.
    Qed.
  End snip.

  (** linking a node on a level *)
  Section link.
    Context (h : heap_t) (pub : nat -> Prop) (ch : list nat) (I : HI h pub ch) (ex ex' : nat -> nat -> Prop) (G : GI h ex) (U : UI h none1).
    Context (p l s new : nat) (m0 : bool) (Op : onl h l p) (Ep : lk h p l = Some (Some s, false)) (En : lk h new l = Some (Some s, m0)).
    Context (Lp : elt (key h p) (key h new)) (Ls : elt (key h new) (key h s)).
    Notation h' := (upd h p l (Some new, false)).
    Lemma link_np : new <> p.
    Proof. intros ->. by apply (elt_irrefl _ H) in Lp. Qed.
    Lemma link_ps : nxt h l p s.
    Proof. by exists false. Qed.
    Lemma link_fresh : ~ onl h l new.
    Proof. intros O. eapply chain_between; [exact G|exact Op|exact link_ps|exact O|done|done]. Qed.
    Lemma link_p : onl h' l p.
    Proof. eapply onl_before; [exact G|done|]. apply (elt_irrefl _ H). Qed.
    Lemma link_pn : nxt h' l p new.
    Proof. exists false. apply (upd_lk_same _ _ _ _ _ Ep). Qed.
    Lemma link_ns : nxt h' l new s.
    Proof. exists m0. rewrite upd_lk_ne; [done|]. left. apply link_np. Qed.
    Lemma link_new : onl h' l new.
    Proof. eapply onl_S; [apply link_p|apply link_pn]. Qed.
    Lemma link_keep k : onl h l k -> onl h' l k.
    Proof.
      revert k. apply onl_ind; [apply onl_0|]. intros i j O E IH. destruct (decide (i = p)) as [->|N].
      - rewrite (nxt_det _ _ _ _ _ E link_ps). eapply onl_S; [apply link_new|apply link_ns].
      - eapply onl_S; [exact IH|]. by apply nxt_other.
    Qed.
    Lemma link_back k : onl h' l k -> onl h l k \/ k = new.
    Proof.
      revert k. apply onl_ind; [left; apply onl_0|]. intros i j _ E IH. destruct (decide (i = p)) as [->|N].
      - right. by rewrite (nxt_det _ _ _ _ _ E link_pn).
      - left. destruct IH as [IH| ->].
        + eapply onl_S; [exact IH|]. by eapply nxt_other.
        + rewrite (nxt_det _ _ _ _ _ E link_ns). eapply onl_S; [exact Op|exact link_ps].
    Qed.
    Lemma link_live k : live h k -> live h' k.
    Proof.
      intros [A O]. split; [by rewrite (alive_unm _ _ _ _ _ _ Ep)|]. destruct (decide (0 = l)) as [E0|N]; [|by apply onl_ne].
      rewrite E0 in *. by apply link_keep.
    Qed.
    Lemma link_live_back k : live h' k -> live h k \/ (l = 0 /\ k = new).
    Proof.
      intros [A O]. rewrite (alive_unm _ _ _ _ _ _ Ep) in A. destruct (decide (0 = l)) as [E0|N]; [|left; split; [done|by eapply onl_ne]].
      rewrite E0 in O. destruct (link_back _ O) as [O'| ->]; [|by right]. left. split; [done|]. by rewrite E0.
    Qed.
    Lemma link_GI : (forall k l', live h' k -> l' < lvl h k -> ~ ex' k l' -> (k = new /\ l' = l) \/ (live h k /\ ~ ex k l')) -> GI h' ex'.
    Proof.
      intros C. constructor.
      - intros l' i j O E. rewrite !upd_key. destruct (decide (l' = l)) as [->|Nl].
        + destruct (decide (i = p)) as [->|N].
          * by rewrite (nxt_det _ _ _ _ _ E link_pn).
          * destruct (link_back _ O) as [O'| ->].
            -- eapply (g_ord _ _ G); [done|by eapply nxt_other].
            -- by rewrite (nxt_det _ _ _ _ _ E link_ns).
        + eapply (g_ord _ _ G); [by eapply onl_ne|by eapply nxt_ne].
      - intros l' i j k O E Lk. rewrite upd_lvl, !upd_key. intros Ll Nx Lt Ge. destruct (C k l' Lk Ll Nx) as [[-> ->]|[Lk' Nx']].
        + destruct (decide (i = p)) as [->|N]; [by rewrite (nxt_det _ _ _ _ _ E link_pn)|].
          exfalso. destruct (link_back _ O) as [O'| ->]; [|by apply (elt_irrefl _ H) in Lt].
          assert (E' : nxt h l i j) by (by eapply nxt_other).
          destruct (elt_dec comp (key h i) (key h p)) as [L1|G1].
          * eapply chain_between; [exact G|exact O'|exact E'|exact Op|done|]. by eapply (elt_le_trans _ H).
          * destruct (elt_dec comp (key h p) (key h i)) as [L2|G2].
            -- eapply chain_between; [exact G|exact Op|exact link_ps|exact O'|done|]. by eapply (elt_trans _ H).
            -- apply N. by eapply chain_same.
        + destruct (decide (l' = l)) as [->|Nl].
          * destruct (decide (i = p)) as [->|N].
            -- rewrite (nxt_det _ _ _ _ _ E link_pn) in Ge |- *. exfalso.
               assert (k = s) as ->.
               { eapply (g_gap _ _ G); [exact Op|exact link_ps|done|done|done|done|]. intros F. apply Ge. by eapply (elt_trans _ H). }
               done.
            -- destruct (link_back _ O) as [O'| ->]; [eapply (g_gap _ _ G); [exact O'|by eapply nxt_other|done..]|].
               rewrite (nxt_det _ _ _ _ _ E link_ns) in Ge |- *. eapply (g_gap _ _ G); [exact Op|exact link_ps|done|done|done| |done].
               by eapply (elt_trans _ H).
          * eapply (g_gap _ _ G); [by eapply onl_ne|by eapply nxt_ne|done..].
    Qed.
    Lemma link_UI : (l = 0 -> forall l' j, lk h new l' <> Some (j, true)) -> UI h' none1.
    Proof.
      intros Hn k l' j Lk Nx. rewrite upd_lk. destruct (decide _) as [[-> ->]|N]; [rewrite Ep; done|].
      destruct (link_live_back _ Lk) as [Lk'|[E0 ->]]; [by apply U|by apply Hn].
    Qed.
  End link.

  (** a new node that is not linked yet *)
  Section alloc.
    Context (h : heap_t) (pub : nat -> Prop) (ch : list nat) (I : HI h pub ch) (nd : node).
    Notation h' := (h ++ [nd]).
    Lemma alloc_at i : i < length h -> h' !! i = h !! i.
    Proof. intros L. by rewrite lookup_app_l. Qed.
    Lemma alloc_onl l k : onl h' l k <-> onl h l k.
    Proof.
      split; (revert k; apply onl_ind; [apply onl_0|]); intros i j O E IH; (eapply onl_S; [exact IH|]).
      - destruct E as [m E]. exists m. rewrite alloc_lk in E; [done|]. eapply hi_pub; [done|]. by eapply onl_pub.
      - destruct E as [m E]. exists m. rewrite alloc_lk; [done|]. eapply hi_pub; [done|]. by eapply onl_pub.
    Qed.
    Lemma alloc_live k : live h' k <-> live h k.
    Proof.
      unfold live. rewrite alloc_onl. split; intros [[j A] O]; (split; [|done]); exists j; pose proof (hi_pub _ _ _ _ I _ (onl_pub _ _ _ _ _ I O)) as L.
      - by rewrite alloc_lk in A.
      - by rewrite alloc_lk.
    Qed.
    Lemma alloc_key' i : i < length h -> key h' i = key h i.
    Proof. intros L. unfold key. by rewrite alloc_at. Qed.
    Lemma alloc_lvl' i : i < length h -> lvl h' i = lvl h i.
    Proof. intros L. unfold lvl. by rewrite alloc_at. Qed.
    Lemma alloc_nxt l i j : onl h l i -> nxt h' l i j -> nxt h l i j /\ i < length h /\ j < length h.
    Proof.
      intros O [m E]. pose proof (onl_pub _ _ _ _ _ I O) as P. pose proof (hi_pub _ _ _ _ I _ P) as L. rewrite alloc_lk in E by done.
      assert (N : nxt h l i j) by (by exists m). splits; [done|done|]. eapply hi_pub; [done|]. by destruct (onl_link _ _ _ _ _ _ I P N).
    Qed.
    Lemma alloc_GI ex : GI h ex -> GI h' ex.
    Proof.
      intros G. constructor.
      - intros l i j O E. rewrite alloc_onl in O. destruct (alloc_nxt _ _ _ O E) as (E' & Li & Lj). rewrite !alloc_key' by done. by eapply (g_ord _ _ G).
      - intros l i j k O E Lk. rewrite alloc_onl in O. rewrite alloc_live in Lk. destruct (alloc_nxt _ _ _ O E) as (E' & Li & Lj).
        pose proof (hi_pub _ _ _ _ I _ (live_pub _ _ _ _ I Lk)) as Lk'. rewrite alloc_lvl', !alloc_key' by done. by eapply (g_gap _ _ G).
    Qed.
    Lemma alloc_UI ex : UI h ex -> UI h' ex.
    Proof.
      intros U k l j Lk Nx. rewrite alloc_live in Lk. pose proof (hi_pub _ _ _ _ I _ (live_pub _ _ _ _ I Lk)) as Lk'. rewrite alloc_lk by done. by apply U.
    Qed.
  End alloc.
End lf.
