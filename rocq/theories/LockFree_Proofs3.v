(** Lock-free skip list: what a goroutine knows, and its stability under the
    steps of the others. *)
From stdpp Require Import functions.
From stdpp Require Import list.
From Verif Require Import Base Lin_Spec Lin_Proofs LockFree_Model LockFree_Spec LockFree_Proofs LockFree_Proofs2.

Section lf.
  Context {T : Type} (zero : T) (comp : T -> T -> Z) (H : cmp_ok comp).
  Notation node := (node T).
  Notation heap_t := (list node).
  Notation HI := (HI comp).
  Notation ord := (ord comp).
  Notation elt := (elt comp).
  Notation St := (list T).
  Notation phase := (@phase (op T) (ret T)).

  (** in the set [s1] there was nothing between the nodes [i] and [j], and [j]
      was in it unless it has been removed *)
  Definition gapw (h : heap_t) (s1 : St) (i j : nat) : Prop :=
    (forall w, w ∈ s1 -> ~ (elt (key h i) (EVal w) /\ elt (EVal w) (key h j))) /\
    (j = 1 \/ dead h j \/ exists w, key h j = EVal w /\ w ∈ s1).
  (** [i] is in the set, or it has been removed since the call began and its
      frozen successor was its neighbour at that time *)
  Definition was_alive (h : heap_t) (past : list St) (i : nat) : Prop :=
    alive h i \/ exists j s1, lk h i 0 = Some (Some j, true) /\ s1 ∈ past /\ gapw h s1 i j.

  Definition okprev (h : heap_t) (pub : nat -> Prop) (v : T) (l i : nat) : Prop :=
    pub i /\ i <> 1 /\ l < lvl h i /\ elt (key h i) (EVal v).
  Definition oknext (h : heap_t) (pub : nat -> Prop) (v : T) (l j : nat) : Prop :=
    pub j /\ j <> 0 /\ l < lvl h j /\ ~ elt (key h j) (EVal v).
  Definition arrays (h : heap_t) (pub : nat -> Prop) (v : T) (lo : nat) (prevs succs : list (option nat)) : Prop :=
    length prevs = max_level /\ length succs = max_level /\
    forall l, lo <= l < max_level ->
      (exists i, prevs !! l = Some (Some i) /\ okprev h pub v l i) /\
      (exists j, succs !! l = Some (Some j) /\ oknext h pub v l j).
  (** the searches whose result depends on what was there *)
  Definition needs (k : purpose) : Prop := match k with ForLink _ _ | ForRank _ => False | _ => True end.
  Definition posI (h : heap_t) (pub : nat -> Prop) (past : list St) (k : purpose) (v : T) (p : pos) : Prop :=
    match p with
    | PLoad l prev => l < max_level /\ exists i, prev = Some i /\ okprev h pub v l i /\ (needs k -> was_alive h past i)
    | PCur l prev cur => l < max_level /\ exists i c, prev = Some i /\ cur = Some c /\ okprev h pub v l i /\ (needs k -> was_alive h past i) /\
        pub c /\ c <> 0 /\ l < lvl h c /\ (l = 0 -> needs k -> exists s1, s1 ∈ past /\ gapw h s1 i c)
    | PSnip l prev cur next => l < max_level /\ exists i c, prev = Some i /\ cur = Some c /\ okprev h pub v l i /\ (needs k -> was_alive h past i) /\
        pub c /\ c <> 0 /\ c <> 1 /\ lk h c l = Some next /\ next.2 = true
    end.
  Definition pos_level (p : pos) : nat := match p with PLoad l _ | PCur l _ _ | PSnip l _ _ _ => l end.
  Definition purposeI (h : heap_t) (pub : nat -> Prop) (f : phase) (k : purpose) (v : T) : Prop :=
    match k with
    | ForAdd => f = Pending (Add v)
    | ForLink l new => f = Effected (Add v) (RBool true) /\ pub new /\ 0 < l < lvl h new /\ key h new = EVal v
    | ForDel => f = Pending (Del v)
    | ForHas => f = Pending (Has v)
    | ForGet => f = Pending (Get v)
    | ForRank _ => f = Pending (Rank v)
    end.
  Definition delI (h : heap_t) (pub : nat -> Prop) (past : list St) (v : T) (l : nat) (nd : option nat) : Prop :=
    exists r, nd = Some r /\ pub r /\ r <> 0 /\ r <> 1 /\ l < lvl h r /\ ~ elt (key h r) (EVal v) /\ ~ elt (EVal v) (key h r) /\
      (forall l', l < l' < lvl h r -> exists j, lk h r l' = Some (j, true)) /\
      (alive h r \/ exists s1, s1 ∈ past /\ ~ present comp s1 v).
  Definition TI (h : heap_t) (pub : nat -> Prop) (past : list St) (f : phase) (p : pc T) : Prop :=
    match p with
    | Quiet => f = Idle
    | Find k v prevs succs p => purposeI h pub f k v /\ arrays h pub v (S (pos_level p)) prevs succs /\ posI h pub past k v p
    | AddCas v new prevs succs =>
        f = Pending (Add v) /\ arrays h pub v 0 prevs succs /\ ~ pub new /\
        (exists top, 1 <= top <= max_level /\ h !! new = Some (make_node top v succs)) /\
        (forall l j, succs !! l = Some (Some j) -> j < new) /\
        (exists j, succs !! 0 = Some (Some j) /\ elt (EVal v) (key h j))
    | AddLink l v new prevs succs =>
        f = Effected (Add v) (RBool true) /\ arrays h pub v 0 prevs succs /\ pub new /\ 0 < l < lvl h new /\ key h new = EVal v
    | AddInc => exists v, f = Effected (Add v) (RBool true)
    | DelLoad v l nd => f = Pending (Del v) /\ delI h pub past v l nd
    | DelCas v l nd next => f = Pending (Del v) /\ delI h pub past v l nd /\ next.2 = false
    | DelDec => exists v, f = Effected (Del v) (RBool true)
    | LenLoad => f = Pending Len
    | RankLoad v => f = Pending (Rank v)
    | Ready r => exists o, f = Effected o r
    end.

  (** what the steps of others may do; [x] is the node they publish, if any *)
  Record ext (x : option nat) (h : heap_t) (pub : nat -> Prop) (past : list St) (h' : heap_t) (pub' : nat -> Prop) (past' : list St) : Prop := {
    e_pub : forall i, pub i -> pub' i;
    e_lt : forall i, pub i -> i < length h;
    e_lvl : forall i, i < length h -> lvl h' i = lvl h i;
    e_key : forall i, i < length h -> key h' i = key h i;
    e_mark : forall i l j, lk h i l = Some (j, true) -> lk h' i l = Some (j, true);
    e_past : forall s1, s1 ∈ past -> s1 ∈ past';
    e_alive : forall i, pub i -> alive h i -> alive h' i \/
      exists j s1 w, lk h' i 0 = Some (Some j, true) /\ s1 ∈ past' /\ gapw h' s1 i j /\ key h i = EVal w /\ ~ present comp s1 w;
    e_val : forall i n, h !! i = Some n -> value <$> h' !! i = Some (value n);
    e_own : forall i n, ~ pub i -> Some i <> x -> h !! i = Some n -> ~ pub' i /\ h' !! i = Some n;
  }.
  Lemma ext_refl h pub ch past : HI h pub ch -> ext None h pub past h pub past.
  Proof. intros I. constructor; try done; [apply I| |]; [intros i P A; by left|]. intros i n E. by rewrite E. Qed.

  Section stable.
    Context (x : option nat) (h : heap_t) (pub : nat -> Prop) (past : list St) (h' : heap_t) (pub' : nat -> Prop) (past' : list St).
    Context (E : ext x h pub past h' pub' past').
    Lemma dead_ext i : dead h i -> dead h' i.
    Proof. intros [j D]. exists j. by eapply e_mark. Qed.
    Lemma key_ext i : pub i -> key h' i = key h i.
    Proof. intros P. eapply e_key; [done|]. by eapply e_lt. Qed.
    Lemma lvl_ext i : pub i -> lvl h' i = lvl h i.
    Proof. intros P. eapply e_lvl; [done|]. by eapply e_lt. Qed.
    Lemma gapw_ext s1 i j : pub i -> pub j -> gapw h s1 i j -> gapw h' s1 i j.
    Proof.
      intros Pi Pj [G1 G2]. unfold gapw. rewrite !key_ext by done. split; [done|].
      destruct G2 as [G|[G|G]]; [by left|right; left; by apply dead_ext|by right; right].
    Qed.
    Lemma was_alive_ext ch i : HI h pub ch -> pub i -> i <> 1 -> was_alive h past i -> was_alive h' past' i.
    Proof.
      intros I P N [A|(j & s1 & L & Hs & G)].
      - destruct (e_alive _ _ _ _ _ _ _ E i P A) as [?|(j & s1 & w & ? & ? & ? & _)]; [by left|]. right. by exists j, s1.
      - right. exists j, s1. splits; [by eapply e_mark|by eapply e_past|]. apply gapw_ext; [done| |done].
        destruct (hi_link _ _ _ _ I i 0 _ P N L) as (? & [= <-] & ? & _). done.
    Qed.
    Lemma okprev_ext v l i : okprev h pub v l i -> okprev h' pub' v l i.
    Proof. intros (P & N & L & O). unfold okprev. rewrite lvl_ext, key_ext by done. splits; try done. by eapply e_pub. Qed.
    Lemma oknext_ext v l i : oknext h pub v l i -> oknext h' pub' v l i.
    Proof. intros (P & N & L & O). unfold oknext. rewrite lvl_ext, key_ext by done. splits; try done. by eapply e_pub. Qed.
    Lemma arrays_ext v lo prevs succs : arrays h pub v lo prevs succs -> arrays h' pub' v lo prevs succs.
    Proof.
      intros (L1 & L2 & A). unfold arrays. splits; try done. intros l Hl. destruct (A l Hl) as [(i & E1 & O1) (j & E2 & O2)].
      split; [exists i|exists j]; (split; [done|]); [by apply okprev_ext|by apply oknext_ext].
    Qed.
    Lemma posI_ext ch k v p : HI h pub ch -> posI h pub past k v p -> posI h' pub' past' k v p.
    Proof.
      intros I. destruct p as [l prev|l prev cur|l prev cur next]; cbn [posI].
      - intros (L & i & -> & O & W). split; [done|]. exists i. splits; [done|by apply okprev_ext|]. intros N. eapply was_alive_ext; [done|apply O|apply O|by apply W].
      - intros (L & i & c & -> & -> & O & W & Pc & Nc & Lc & G). split; [done|]. exists i, c. splits; try done.
        + by apply okprev_ext.
        + intros N. eapply was_alive_ext; [done|apply O|apply O|by apply W].
        + by eapply e_pub.
        + by rewrite lvl_ext.
        + intros El N. destruct (G El N) as (s1 & Hs & Gs). exists s1. split; [by eapply e_past|]. apply gapw_ext; [apply O|done|done].
      - intros (L & i & c & -> & -> & O & W & Pc & Nc & Nc1 & Lc & G). split; [done|]. exists i, c. splits; try done.
        + by apply okprev_ext.
        + intros N. eapply was_alive_ext; [done|apply O|apply O|by apply W].
        + by eapply e_pub.
        + destruct next as [j m]. cbn in G. subst m. by eapply e_mark.
    Qed.
    Lemma delI_ext ch v l nd : HI h pub ch -> delI h pub past v l nd -> delI h' pub' past' v l nd.
    Proof.
      intros I (r & -> & P & N0 & N1 & L & O1 & O2 & M & A). exists r. rewrite lvl_ext, key_ext by done. splits; try done.
      - by eapply e_pub.
      - intros l' Hl. destruct (M l' Hl) as [j F]. exists j. by eapply e_mark.
      - destruct A as [A|(s1 & Hs & Pr)].
        + destruct (e_alive _ _ _ _ _ _ _ E r P A) as [?|(j & s1 & w & ? & ? & ? & K & Pr)]; [by left|]. right. exists s1. split; [done|].
          intros (y & Hy & Ey). apply Pr. exists y. split; [done|]. rewrite K in O1, O2. pose proof (eeq_val _ H _ _ O1 O2) as Ew.
          apply (cmp_eq_trans _ H _ v); [done|]. by apply (cmp_eq_sym _ H).
        + right. exists s1. split; [by eapply e_past|done].
    Qed.
    Lemma purposeI_ext f k v : purposeI h pub f k v -> purposeI h' pub' f k v.
    Proof.
      destruct k as [|l new| | | |]; cbn; try done. intros (? & P & L & K). rewrite lvl_ext, key_ext by done. splits; try done; try lia. by eapply e_pub.
    Qed.
    Lemma TI_ext ch f p : HI h pub ch -> (forall v new prevs succs, p = AddCas v new prevs succs -> Some new <> x) ->
      TI h pub past f p -> TI h' pub' past' f p.
    Proof.
      intros I X. destruct p as [|k v prevs succs p|v new prevs succs|l v new prevs succs| |v l nd|v l nd next| | |v|r]; cbn [TI]; try done.
      - intros (Hk & Ha & Hp). splits; [by apply purposeI_ext|by apply arrays_ext|by eapply posI_ext].
      - intros (-> & Ha & Np & (top & Ht & Hn) & Hlt & (j & Ej & Oj)). splits; [done|by apply arrays_ext| | |done|].
        + by eapply (e_own _ _ _ _ _ _ _ E new _ Np (X _ _ _ _ eq_refl)).
        + exists top. split; [done|]. by eapply (e_own _ _ _ _ _ _ _ E new _ Np (X _ _ _ _ eq_refl)).
        + exists j. split; [done|]. rewrite key_ext; [done|]. destruct Ha as (_ & _ & Ha). destruct (Ha 0) as [_ (j' & Ej' & O')]; [unfold max_level; lia|].
          rewrite Ej in Ej'. injection Ej' as <-. apply O'.
      - intros (-> & Ha & P & L & K). rewrite lvl_ext, key_ext by done. splits; try done; try lia; [by apply arrays_ext|by eapply e_pub].
      - intros (-> & D). split; [done|]. by eapply delI_ext.
      - intros (-> & D & N). splits; try done. by eapply delI_ext.
    Qed.
  End stable.
End lf.
