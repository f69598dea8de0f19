(** Lock-free skip list: lock-freedom.  In any run some call returns again and
    again: the calls without a return decrease, lexicographically,
    - the number of goroutines that are not in a call;
    - the links that the Adds in progress may still have to make;
    - the number of links of published nodes that are not marked;
    - the distances to the tail over the links of published nodes;
    - the steps the goroutines can make before one of the above changes. *)
From stdpp Require Import functions.
From stdpp Require Import list.
From Verif Require Import Base Lin_Spec Lin_Proofs Lin_Hindsight LockFree_Model LockFree_Spec LockFree_Proofs LockFree_Proofs2 LockFree_Proofs3 LockFree_Proofs4 LockFree_Proofs5 LockFree_Proofs6 LockFree_Proofs7 LockFree_Proofs8 LockFree_Proofs9.

Section lf.
  Context {T : Type} (zero : T) (comp : T -> T -> Z) (H : cmp_ok comp).
  Notation node := (node T).
  Notation heap_t := (list node).
  Notation HI := (HI comp).
  Notation RI := (RI zero comp).
  Notation R := (R zero comp).
  Notation elt := (elt comp).
  Notation step := (step comp).
  Notation tstep := (tstep comp).
  Notation beats := (beats comp).
  Notation TI := (TI comp).

  (** ** Distances, counted over a list [pl] of nodes *)
  Section pl.
  Context (pl : list nat).
  Definition dep (h : heap_t) (i : nat) : nat := length (filter (beats h i) pl).
  Lemma dep_lt h l i j : ord comp h l i j -> j ∈ pl -> dep h j < dep h i.
  Proof.
    intros O Lj. unfold dep. assert (B : beats h i j) by (destruct O as [O|(_ & O1 & _ & O2)]; [by left|by right]).
    apply (filter_lt (beats h j) (beats h i)) with (x := j).
    - intros k Bk. destruct B as [B|[B1 B2]], Bk as [C|[C1 C2]].
      + left. by eapply (elt_trans _ H).
      + left. by eapply (elt_le_trans _ H).
      + left. by eapply (le_elt_trans _ H).
      + right. split; [|lia]. intros F. apply C1. by eapply (elt_le_trans _ H).
    - done.
    - done.
    - intros [F|[_ F]]; [by apply (elt_irrefl _ H) in F|lia].
  Qed.
  Lemma dep_le (h : heap_t) i : dep h i <= length pl.
  Proof. apply filter_length. Qed.
  Lemma dep_upd (h : heap_t) i l x k : dep (upd h i l x) k = dep h k.
  Proof. unfold dep. f_equal. apply list_filter_iff. intros j. unfold LockFree_Proofs7.beats. by rewrite !upd_key. Qed.
  Lemma dep_alloc (h : heap_t) nd k : (forall i, i ∈ pl -> i < length h) -> k < length h -> dep (h ++ [nd]) k = dep h k.
  Proof.
    intros L Lk. unfold dep. revert L. induction pl as [|a l IH]; intros L; [done|]. rewrite !filter_cons.
    assert (La : a < length h) by (apply L; left). specialize (IH (fun i Hi => L i (elem_of_list_further _ _ _ Hi))).
    assert (beats (h ++ [nd]) k a <-> beats h k a) as E by (unfold LockFree_Proofs7.beats; by rewrite !alloc_key).
    destruct (decide (beats (h ++ [nd]) k a)), (decide (beats h k a)); try tauto; cbn; lia.
  Qed.

  (** ** Sums over the links of the nodes of [pl] *)
  Definition sumw (g : option link -> nat) (h : heap_t) : nat :=
    sum_list_with (fun i => sum_list_with (fun l => g (lk h i l)) (seq 0 max_level)) pl.
  Lemma sum_mono {A : Type} (f g : A -> nat) (l : list A) : (forall x, x ∈ l -> f x <= g x) -> sum_list_with f l <= sum_list_with g l.
  Proof.
    induction l as [|a l IH]; intros F; [done|]. cbn. pose proof (F a ltac:(left)). assert (sum_list_with f l <= sum_list_with g l); [|lia].
    apply IH. intros x Hx. apply F. by right.
  Qed.
  Lemma sum_lt {A : Type} (f g : A -> nat) (l : list A) x : (forall x, x ∈ l -> f x <= g x) -> x ∈ l -> f x < g x -> sum_list_with f l < sum_list_with g l.
  Proof.
    induction l as [|a l IH]; intros F Hx L; [by apply elem_of_nil in Hx|]. cbn. pose proof (F a ltac:(left)).
    assert (F' : forall x, x ∈ l -> f x <= g x) by (intros y Hy; apply F; by right). pose proof (sum_mono f g l F').
    apply elem_of_cons in Hx as [->|Hx]; [lia|]. specialize (IH F' Hx L). lia.
  Qed.
  Lemma sumw_upd_le g h i l x y : lk h i l = Some y -> g (Some x) <= g (Some y) -> sumw g (upd h i l x) <= sumw g h.
  Proof.
    intros E L. apply sum_mono. intros k _. apply sum_mono. intros l' _. rewrite upd_lk. destruct (decide _) as [[-> ->]|_]; [|done]. rewrite E. done.
  Qed.
  Lemma sumw_upd_lt g h i l x y : i ∈ pl -> l < max_level -> lk h i l = Some y -> g (Some x) < g (Some y) -> sumw g (upd h i l x) < sumw g h.
  Proof.
    intros Hi Hl E L.
    assert (G : forall k l', g (lk (upd h i l x) k l') <= g (lk h k l')).
    { intros k l'. rewrite upd_lk. destruct (decide _) as [[-> ->]|_]; [|done]. rewrite E. cbn. lia. }
    apply (sum_lt _ _ _ i); [|done|]. { intros k _. apply sum_mono. intros l' _. apply G. }
    apply (sum_lt _ _ _ l); [|apply elem_of_seq; lia|]. { intros l' _. apply G. }
    rewrite (upd_lk_same _ _ _ _ _ E), E. done.
  Qed.
  Lemma sumw_alloc g h nd : (forall i, i ∈ pl -> i < length h) -> sumw g (h ++ [nd]) <= sumw g h.
  Proof. intros L. apply sum_mono. intros k Hk. apply sum_mono. intros l _. by rewrite alloc_lk by auto. Qed.
  Lemma sumw_ext f g h : (forall x, f x <= g x) -> sumw f h <= sumw g h.
  Proof. intros L. apply sum_mono. intros k _. by apply sum_mono. Qed.
  Definition unm : heap_t -> nat := sumw (fun x => match x with Some (_, false) => 1 | _ => 0 end).
  Definition pot (h : heap_t) : nat := sumw (fun x => match x with Some (Some j, _) => if decide (j ∈ pl) then dep h j else 0 | _ => 0 end) h.
  Lemma unm_alloc h nd : (forall i, i ∈ pl -> i < length h) -> unm (h ++ [nd]) <= unm h.
  Proof. apply sumw_alloc. Qed.
  Lemma pot_alloc h nd : (forall i, i ∈ pl -> i < length h) -> pot (h ++ [nd]) <= pot h.
  Proof.
    intros L. unfold pot. apply sum_mono. intros k Hk. apply sum_mono. intros l _. rewrite alloc_lk by auto.
    destruct (lk h k l) as [[[j|] b]|] eqn:E; try done. destruct (decide (j ∈ pl)); [|done]. rewrite dep_alloc; auto.
  Qed.

  (** ** The steps of one goroutine *)
  Definition bigp : nat := 4 * length pl + 8.
  Definition full : nat := max_level * bigp.
  Definition mup (h : heap_t) (p : pos) : nat :=
    match p with
    | PLoad l prev => l * bigp + 4 * default 0 (i ← prev; x ← lk h i l; dep h <$> x.1) + 3
    | PCur l prev cur => l * bigp + 4 * default 0 (dep h <$> cur) + 2
    | PSnip l prev cur next => l * bigp + 4 * default 0 (dep h <$> cur) + 1
    end.
  Lemma mup_down h l (p : option nat) : mup h (PLoad l p) < S l * bigp.
  Proof.
    unfold mup. assert (default 0 (i ← p; x ← lk h i l; dep h <$> x.1) <= length pl); [|unfold bigp; lia].
    destruct p as [i|]; cbn; [|lia]. destruct (lk h i l) as [[[j|] b]|]; cbn; try lia. apply dep_le.
  Qed.
  Lemma mup_start h (p : option nat) : mup h (PLoad (max_level - 1) p) < full.
  Proof. apply mup_down. Qed.

  Definition matches (h : heap_t) (l : nat) (prevs succs : list (option nat)) : Prop :=
    exists i j, prevs !! l = Some (Some i) /\ succs !! l = Some j /\ lk h i l = Some (j, false).
  Definition bud (h : heap_t) (p : pc T) (n : nat) : Prop :=
    match p with
    | Quiet | Ready _ => True
    | Find k v prevs succs q => (cleanp h q /\ fresh h (S (pos_level q)) prevs succs /\ mup h q + 30 <= n) \/ mup h q + full + 40 <= n
    | AddCas v new prevs succs => (matches h 0 prevs succs /\ 1 <= n) \/ full + 31 <= n
    | AddLink l v new prevs succs => (matches h l prevs succs /\ 1 <= n) \/ full + 31 <= n
    | AddInc | DelDec | LenLoad => 1 <= n
    | DelLoad v l nd => l + 2 <= n
    | DelCas v l nd next => ((exists i, nd = Some i /\ lk h i l = Some next) /\ 1 <= n) \/ l + 3 <= n
    | RankLoad v => full + 31 <= n
    end.
  Lemma bud_total h p : exists n, bud h p n.
  Proof.
    destruct p as [|k v prevs succs q|v new prevs succs|l v new prevs succs| |v l nd|v l nd next| | |v|r]; cbn [bud]; try (by exists 1); try (by exists 0).
    - eexists. right. done.
    - eexists. right. done.
    - eexists. right. done.
    - by eexists.
    - eexists. right. done.
    - by eexists.
  Qed.
  Lemma lk_alloc (h : heap_t) nd i l x : lk h i l = Some x -> lk (h ++ [nd]) i l = Some x.
  Proof. intros E. rewrite alloc_lk; [done|]. apply lk_node in E as (n & En & _). by eapply lookup_lt_Some. Qed.
  Lemma bud_alloc h pub ch past f p n nd : HI h pub ch -> TI h pub past f p -> (forall i, i ∈ pl -> i < length h) -> bud h p n -> bud (h ++ [nd]) p n.
  Proof.
    intros I Tp L. destruct p as [|k v prevs succs q|v new prevs succs|l v new prevs succs| |v l r|v l r next| | |v|r]; cbn [bud]; try done.
    - destruct Tp as (_ & _ & Hq). assert (mup (h ++ [nd]) q = mup h q) as ->.
      { destruct q as [l prev|l prev cur|l prev cur next]; cbn [posI] in Hq; unfold mup.
        - destruct Hq as (_ & i & -> & (Pi & Ni & Li & _) & _). cbn [mbind option_bind]. rewrite alloc_lk by (by apply I).
          destruct (hi_lk _ _ _ _ i l I Li) as [x E]. destruct (hi_link _ _ _ _ I i l x Pi Ni E) as (c & Ec & Pc & _). rewrite E. cbn [mbind option_bind]. rewrite Ec.
          cbn [fmap option_fmap option_map default from_option id]. by rewrite dep_alloc by (auto; by apply I).
        - destruct Hq as (_ & i & c & -> & -> & _ & _ & Pc & _). cbn [fmap option_fmap option_map default from_option id]. by rewrite dep_alloc by (auto; by apply I).
        - destruct Hq as (_ & i & c & -> & -> & _ & _ & Pc & _). cbn [fmap option_fmap option_map default from_option id]. by rewrite dep_alloc by (auto; by apply I). }
      intros [(C & F & Ln)|Ln]; [left|by right]. splits; [| |done].
      + destruct q as [l prev|l prev cur|l prev cur next]; cbn [cleanp] in *.
        * destruct C as (i & j & -> & E). exists i, j. split; [done|]. by apply lk_alloc.
        * destruct C as (i & -> & E). exists i. split; [done|]. by apply lk_alloc.
        * destruct C as (i & -> & E). exists i. split; [done|]. by apply lk_alloc.
      + intros l Hl. destruct (F l Hl) as (a & b & Ea & Eb & E). exists a, b. splits; try done. by apply lk_alloc.
    - intros [[(i & j & Ei & Ej & E) Ln]|Ln]; [left|by right]. split; [|done]. exists i, j. splits; try done. by apply lk_alloc.
    - intros [[(i & j & Ei & Ej & E) Ln]|Ln]; [left|by right]. split; [|done]. exists i, j. splits; try done. by apply lk_alloc.
    - intros [[(i & -> & E) Ln]|Ln]; [left|by right]. split; [|done]. exists i. splits; try done. by apply lk_alloc.
  Qed.
  Lemma bud_start h pub ch k v prevs succs n : HI h pub ch -> full + 30 <= n -> bud h (find_start k v prevs succs) n.
  Proof.
    intros I L. cbn [bud find_start]. left. splits.
    - by eapply start_clean.
    - intros l Hl. cbn [pos_level] in Hl. unfold max_level in Hl. lia.
    - pose proof (mup_start h (Some head)). lia.
  Qed.

  (** a step makes a link, marks, snips, or uses up the goroutine's budget *)
  Definition worked (pub : nat -> Prop) (h : heap_t) (p : pc T) (h' : heap_t) (p' : pc T) : Prop :=
    rem p' < rem p \/
    (exists i l y, h' = upd h i l (y, true) /\ lk h i l = Some (y, false) /\ pub i) \/
    (exists i l c n, h' = upd h i l (Some n, false) /\ lk h i l = Some (Some c, false) /\ pub i /\ pub c /\ pub n /\ dep h n < dep h c) \/
    ((h' = h \/ exists nd, h' = h ++ [nd]) /\ forall n, bud h p n -> exists n', n' < n /\ bud h' p' n').
  Lemma worked_same pub h p p' : (forall n, bud h p n -> exists n', n' < n /\ bud h p' n') -> worked pub h p h p'.
  Proof. intros F. right; right; right. split; [by left|done]. Qed.
  Lemma rem_hop k v prevs succs q prevs' succs' q' : rem (T := T) (Find (hop k) v prevs' succs' q') = rem (Find k v prevs succs q).
  Proof. by destruct k. Qed.

  Lemma work_found m k v prevs succs i c top m' p' pub ch past f :
    HI (heap m) pub ch -> TI (heap m) pub past f (Find k v prevs succs (PCur 0 (Some i) (Some c))) -> random_level top ->
    found comp m k v (<[0 := Some i]> prevs) (<[0 := Some c]> succs) (Some c) top = Ok (m', p') ->
    rem p' <= rem (Find k v prevs succs (PCur 0 (Some i) (Some c))) /\
    worked pub (heap m) (Find k v prevs succs (PCur 0 (Some i) (Some c))) (heap m') p'.
  Proof.
    intros I (Hk & (L1 & L2 & Ha) & (_ & i' & c' & [= <-] & [= <-] & O & _ & Pc & Nc & Lc & _)) Ht E.
    assert (M0 : forall n, bud (heap m) (Find k v prevs succs (PCur 0 (Some i) (Some c))) n ->
      (fresh (heap m) 0 (<[0 := Some i]> prevs) (<[0 := Some c]> succs) /\ 30 < n) \/ full + 40 < n).
    { intros n [(C & F & Ln)|Ln]; unfold mup in Ln; [left|right; lia]. split; [|lia]. destruct C as (i' & [= <-] & E').
      intros l' Hl'. destruct (decide (l' = 0)) as [->|N].
      - exists i, (Some c). rewrite !list_lookup_insert by lia. done.
      - rewrite !list_lookup_insert_ne by done. apply F. cbn [pos_level]. lia. }
    assert (D : forall r, worked pub (heap m) (Find k v prevs succs (PCur 0 (Some i) (Some c))) (heap m) (Ready r)).
    { intros r. apply worked_same. intros n B. apply M0 in B. exists 0. split; [|done]. destruct B as [[_ B]|B]; lia. }
    destruct k as [|l new| | | |r]; cbn [found] in E.
    - destruct (equals comp (heap m) (Some c) v) as [[|]| |]; cbn [rbind] in E; try done; injection E as <- <-; [split; [cbn; lia|done]|]. split; [cbn; lia|].
      right; right; right. split; [right; by eexists|]. intros n B. apply M0 in B. cbn [bud heap]. destruct B as [[F B]|B].
      + exists 1. split; [lia|]. left. split; [|done]. destruct (F 0) as (a & b & Ea & Eb & Ek); [unfold max_level; lia|]. exists a, b. splits; try done. by apply lk_alloc.
      + exists (full + 31). split; [lia|]. by right.
    - injection E as <- <-. split; [cbn; lia|]. apply worked_same. intros n B. apply M0 in B. cbn [bud]. destruct B as [[F B]|B].
      + exists 1. split; [lia|]. left. split; [|done]. destruct Hk as (_ & Pn & Ln & _). pose proof (hi_lvl _ _ _ _ _ I (hi_pub _ _ _ _ I _ Pn)). apply F. lia.
      + exists (full + 31). split; [lia|]. by right.
    - destruct (equals comp (heap m) (Some c) v) as [[|]| |]; cbn [rbind] in E; try done; [|injection E as <- <-; split; [cbn; lia|done]].
      cbn [deref rbind] in E. destruct (heap m !! c) as [nd|] eqn:En; cbn [deref rbind] in E; [|done]. injection E as <- <-. split; [cbn; lia|].
      apply worked_same. intros n B. apply M0 in B. exists (level nd - 1 + 2). split; [|by cbn]. pose proof (hi_len _ _ _ _ I c nd En) as [_ L]. unfold max_level in L. destruct B as [[F B]|B]; lia.
    - destruct (equals comp (heap m) (Some c) v) as [b| |]; cbn [rbind] in E; try done; injection E as <- <-. split; [cbn; lia|done].
    - cbn [deref rbind] in E. destruct (heap m !! c) as [n|]; cbn [deref rbind] in E; [|done]. injection E as <- <-. split; [cbn; lia|done].
    - injection E as <- <-. split; [cbn; lia|done].
  Qed.

  Lemma work m p top m' p' pub ch past f :
    HI (heap m) pub ch -> TI (heap m) pub past f p -> running p = true -> random_level top -> (forall k, pub k -> k ∈ pl) ->
    tstep m p top = Ok (m', p') -> rem p' <= rem p /\ worked pub (heap m) p (heap m') p'.
  Proof.
    intros I Tp Hr Ht PL Es. destruct p as [|k v prevs succs q|v new prevs succs|l v new prevs succs| |v l nd|v l nd next| | |v|r]; try done.
    - destruct q as [l prev|l prev cur|l prev cur next].
      + destruct Tp as (Hp & Ha & (Ll & i & -> & (Pi & Ni & Li & Oi) & _)). destruct (hi_lk _ _ _ _ i l I Li) as [x E]. cbn [LockFree_Model.tstep] in Es.
        rewrite (load_next_ok _ _ _ _ E) in Es. cbn [rbind] in Es. injection Es as <- <-. split; [by destruct k|]. apply worked_same. intros n B.
        assert (L : mup (heap m) (PCur l (Some i) (get_unmarked x)) < mup (heap m) (PLoad l (Some i))).
        { unfold mup. cbn [mbind option_bind]. rewrite E. cbn [mbind option_bind]. unfold get_unmarked. lia. }
        destruct B as [(C & F & Ln)|Ln]; cbn [bud].
        * exists (mup (heap m) (PCur l (Some i) (get_unmarked x)) + 30). split; [lia|]. left. splits; [|done|done].
          destruct C as (i' & j & [= <-] & E'). rewrite E in E'. injection E' as ->. by exists i.
        * eexists. split; [|right; reflexivity]. lia.
      + pose proof Tp as (Hp & Ha & (Ll & i & c & -> & -> & (Pi & Ni & Li & Oi) & _ & Pc & Nc & Lc & _)).
        destruct (hi_lk _ _ _ _ c l I Lc) as [[n b] E]. cbn [LockFree_Model.tstep] in Es.
        rewrite (load_next_ok _ _ _ _ E) in Es. cbn [rbind is_marked snd] in Es. destruct b.
        * injection Es as <- <-. split; [by destruct k|]. apply worked_same. intros n0 B. destruct B as [(C & F & Ln)|Ln]; cbn [bud].
          -- exists (mup (heap m) (PSnip l (Some i) (Some c) (n, true)) + 30). split; [unfold mup in *; lia|]. left. splits; done.
          -- eexists. split; [|right; reflexivity]. unfold mup in *; lia.
        * destruct (less_ok comp (heap m) c v (hi_pub _ _ _ _ I _ Pc)) as (b & Eb & Hb). rewrite Eb in Es. cbn [rbind fst] in Es. destruct b.
          -- injection Es as <- <-. assert (Nc1 : c <> 1) by (intros ->; by destruct Hb as [Hb _]; specialize (Hb eq_refl)).
             destruct (hi_link _ _ _ _ I c l _ Pc Nc1 E) as (n' & [= ->] & Pn & Nn & Ln & On). split; [by rewrite (rem_hop k v prevs succs (PCur l (Some i) (Some c)))|]. apply worked_same. intros n0 B.
             assert (L : mup (heap m) (PCur l (Some c) (Some n')) < mup (heap m) (PCur l (Some i) (Some c))).
             { unfold mup. cbn [fmap option_fmap option_map default from_option id]. pose proof (dep_lt _ _ _ _ On (PL _ Pn)). lia. }
             destruct B as [(C & F & Lb)|Lb]; cbn [bud].
             ++ exists (mup (heap m) (PCur l (Some c) (Some n')) + 30). split; [lia|]. left. splits; [by exists c|done|done].
             ++ eexists. split; [|right; reflexivity]. lia.
          -- destruct l as [|l].
             ++ by eapply work_found.
             ++ injection Es as <- <-. split; [by destruct k|]. apply worked_same. intros n0 B.
                assert (L : mup (heap m) (PLoad l (Some i)) < mup (heap m) (PCur (S l) (Some i) (Some c))).
                { pose proof (mup_down (heap m) l (Some i)). unfold mup in *. lia. }
                destruct B as [(C & F & Lb)|Lb]; cbn [bud].
                ** exists (mup (heap m) (PLoad l (Some i)) + 30). split; [lia|]. left. destruct C as (i' & [= <-] & E'). splits; [| |done].
                   --- destruct (down_unmarked _ _ _ _ _ _ _ I Pi E') as [j' Ej]. exists i, j'. done.
                   --- intros l' Hl'. destruct Ha as (L1 & L2 & _). cbn [pos_level] in *. destruct (decide (l' = S l)) as [->|N].
                       +++ exists i, (Some c). rewrite !list_lookup_insert by lia. done.
                       +++ rewrite !list_lookup_insert_ne by done. apply F. lia.
                ** eexists. split; [|right; reflexivity]. lia.
      + destruct Tp as (Hp & Ha & (Ll & i & c & -> & -> & (Pi & Ni & Li & Oi) & _ & Pc & Nc & Nc1 & Ec & Mn)). cbn [LockFree_Model.tstep] in Es.
        destruct (cas_next (heap m) (Some i) l (Some c, false) (get_unmarked next, false)) as [[b h']| |] eqn:E; cbn [rbind] in Es; try done.
        apply cas_next_inv in E as [(-> & E & ->)|(-> & -> & y & E & Ny)]; injection Es as <- <-; (split; [by destruct k|]).
        * destruct (hi_link _ _ _ _ I c l _ Pc Nc1 Ec) as (n' & En & Pn & Nn & Ln & On). right; right; left. exists i, l, c, n'. unfold get_unmarked. rewrite En. splits; try done.
          by eapply dep_lt; [|apply PL].
        * apply worked_same. intros n B. destruct B as [(C & F & Lb)|Lb].
          -- destruct C as (i' & [= <-] & E'). rewrite E in E'. injection E' as ->. done.
          -- exists (full + 30). split; [lia|]. by eapply bud_start.
    - destruct Tp as (_ & Ha & _). destruct Ha as (L1 & L2 & Ha). destruct (Ha 0) as [(i & Ei & _) (j & Ej & _)]; [unfold max_level; lia|].
      cbn [LockFree_Model.tstep] in Es. rewrite Ei, Ej in Es. cbn [deref rbind] in Es.
      destruct (cas_next (heap m) (Some i) 0 (Some j, false) (Some new, false)) as [[b h']| |] eqn:E; cbn [rbind] in Es; try done.
      apply cas_next_inv in E as [(-> & E & ->)|(-> & -> & y & E & Ny)].
      + destruct (upd (heap m) i 0 (Some new, false) !! new) as [nd|] eqn:En; cbn [deref rbind] in Es; [|done]. injection Es as <- <-.
        assert (L : rem (add_next 1 (level nd) v new prevs succs) < rem (AddCas v new prevs succs)) by (unfold add_next; destruct (decide _); cbn [rem]; unfold max_level; lia).
        split; [lia|by left].
      + injection Es as <- <-. split; [done|]. apply worked_same. intros n B. destruct B as [[(i' & j' & Ei' & Ej' & E') Lb]|Lb].
        * rewrite Ei in Ei'. injection Ei' as <-. rewrite Ej in Ej'. injection Ej' as <-. rewrite E in E'. by injection E' as ->.
        * exists (full + 30). split; [lia|]. by eapply bud_start.
    - destruct Tp as (_ & Ha & Pn & L & _). pose proof (hi_lvl _ _ _ _ _ I (hi_pub _ _ _ _ I _ Pn)) as Lm. destruct Ha as (L1 & L2 & Ha). destruct (Ha l) as [(i & Ei & _) (j & Ej & _)]; [lia|].
      cbn [LockFree_Model.tstep] in Es. rewrite Ei, Ej in Es. cbn [deref rbind] in Es.
      destruct (cas_next (heap m) (Some i) l (Some j, false) (Some new, false)) as [[b h']| |] eqn:E; cbn [rbind] in Es; try done.
      apply cas_next_inv in E as [(-> & E & ->)|(-> & -> & y & E & Ny)].
      + destruct (upd (heap m) i l (Some new, false) !! new) as [nd|] eqn:En; cbn [deref rbind] in Es; [|done]. injection Es as <- <-.
        assert (L' : rem (add_next (l + 1) (level nd) v new prevs succs) < rem (AddLink l v new prevs succs)) by (unfold add_next; destruct (decide _); cbn [rem]; unfold max_level in *; lia).
        split; [lia|by left].
      + injection Es as <- <-. split; [done|]. apply worked_same. intros n B. destruct B as [[(i' & j' & Ei' & Ej' & E') Lb]|Lb].
        * rewrite Ei in Ei'. injection Ei' as <-. rewrite Ej in Ej'. injection Ej' as <-. rewrite E in E'. by injection E' as ->.
        * exists (full + 30). split; [lia|]. by eapply bud_start.
    - injection Es as <- <-. split; [done|]. apply worked_same. intros n B. cbn [bud] in B. exists 0. split; [lia|done].
    - destruct Tp as (_ & (r & -> & P & N0 & N1 & L & _)). destruct (hi_lk _ _ _ _ r l I L) as [y E].
      cbn [LockFree_Model.tstep] in Es. rewrite (load_next_ok _ _ _ _ E) in Es. cbn [rbind] in Es. destruct (is_marked y) eqn:M.
      + destruct l as [|l]; injection Es as <- <-; (split; [done|]); apply worked_same; intros n B; cbn [bud] in *; [exists 0; split; [lia|done]|]. exists (l + 2). split; [lia|done].
      + injection Es as <- <-. split; [done|]. apply worked_same; intros n B; cbn [bud] in *. exists 1. split; [lia|]. left. split; [by exists r|done].
    - destruct Tp as (_ & (r & -> & P & N0 & N1 & L & _) & Nm). destruct next as [n b]. cbn in Nm. subst b. cbn [LockFree_Model.tstep] in Es.
      destruct (cas_next (heap m) (Some r) l (n, false) (get_marked (n, false))) as [[b h']| |] eqn:E; cbn [rbind] in Es; try done.
      apply cas_next_inv in E as [(-> & E & ->)|(-> & -> & y & E & Ny)].
      + destruct l as [|l]; injection Es as <- <-; (split; [done|]); right; left; eauto 6.
      + destruct l as [|l]; injection Es as <- <-; (split; [done|]); cbn [heap]; apply worked_same; intros n0 B; cbn [bud] in *.
        * exists 2. split; [|lia]. destruct B as [[(i' & [= <-] & E') _]|B]; [|lia]. rewrite E in E'. by injection E' as ->.
        * exists (S l + 2). split; [|lia]. destruct B as [[(i' & [= <-] & E') _]|B]; [|lia]. rewrite E in E'. by injection E' as ->.
    - injection Es as <- <-. split; [done|]. apply worked_same. intros n B. cbn [bud] in B. exists 0. split; [lia|done].
    - injection Es as <- <-. split; [done|]. apply worked_same. intros n B. cbn [bud] in B. exists 0. split; [lia|done].
    - cbn [LockFree_Model.tstep] in Es. cbv zeta in Es. destruct (decide _); injection Es as <- <-; (split; [cbn; lia|]); apply worked_same; intros n0 B; cbn [bud] in B.
      + exists 0. split; [lia|done].
      + exists (full + 30). split; [lia|]. by eapply bud_start.
  Qed.
  End pl.

  (** ** The whole system *)
  Definition quiets (ps : list (pc T)) : nat := sum_list_with (fun p => match p with Quiet => 1 | _ => 0 end) ps.
  Definition rems (ps : list (pc T)) : nat := sum_list_with rem ps.
  Lemma sum_insert (f : pc T -> nat) ps t p p' : ps !! t = Some p -> sum_list_with f (<[t := p']> ps) + f p = sum_list_with f ps + f p'.
  Proof.
    revert t. induction ps as [|q ps IH]; intros t E; [done|]. destruct t as [|t].
    - injection E as ->. change (<[0 := p']> (p :: ps)) with (p' :: ps). cbn [sum_list_with]. lia.
    - change (<[S t := p']> (q :: ps)) with (q :: <[t := p']> ps). cbn [sum_list_with]. specialize (IH t E). lia.
  Qed.
  Lemma buds_total pl h ps : exists ns, Forall2 (bud pl h) ps ns.
  Proof.
    induction ps as [|p ps [ns IH]]; [by exists []|]. destruct (bud_total pl h p) as [n B]. exists (n :: ns). by constructor.
  Qed.
  Lemma buds_insert pl h h' ps ns t p p' : Forall2 (bud pl h) ps ns -> ps !! t = Some p ->
    (forall u q n, u <> t -> ps !! u = Some q -> bud pl h q n -> bud pl h' q n) ->
    (forall n, bud pl h p n -> exists n', n' < n /\ bud pl h' p' n') ->
    exists ns', Forall2 (bud pl h') (<[t := p']> ps) ns' /\ sum_list ns' < sum_list ns.
  Proof.
    intros F. revert t. induction F as [|q n ps ns B F IH]; intros t Et S W; [done|]. destruct t as [|t].
    - injection Et as ->. destruct (W n B) as (n' & L & B'). exists (n' :: ns). change (<[0 := p']> (p :: ps)) with (p' :: ps). split; [|cbn; lia].
      constructor; [done|]. clear - F S. apply Forall2_same_length_lookup_2; [by eapply Forall2_length|]. intros i q n Eq En. eapply (S (Datatypes.S i)); [done|done|].
      by eapply Forall2_lookup_lr.
    - destruct (IH t Et) as (ns' & F' & L); [intros u q' n' N; apply (S (Datatypes.S u)); lia|done|]. exists (n :: ns'). change (<[Datatypes.S t := p']> (q :: ps)) with (q :: <[t := p']> ps).
      split; [|cbn; lia]. constructor; [|done]. by apply (S 0).
  Qed.

  (** a step that is not a return *)
  Definition moves (y x : sys T) : Prop := exists e, step x e y /\ forall t r, e <> Some (Return t r).
  Definition good (x : sys T) : Prop := exists s ph past, R x s ph past.
  Lemma good_step x e y : good x -> step x e y -> good y.
  Proof. intros (s & ph & past & Rx) St. destruct (sim_step zero comp H _ _ _ _ _ _ Rx St) as (s' & ph' & past' & _ & Ry). by exists s', ph', past'. Qed.
  Lemma acc_all a : forall b c d e x s ph past pub ch pl ns, RI (shared x) (pcs x) s ph past pub ch ->
    (forall k, pub k -> k ∈ pl) -> (forall i, i ∈ pl -> i < length (heap (shared x))) -> Forall2 (bud pl (heap (shared x))) (pcs x) ns ->
    quiets (pcs x) <= a -> rems (pcs x) <= b -> unm pl (heap (shared x)) <= c -> pot pl (heap (shared x)) <= d -> sum_list ns <= e -> Acc moves x.
  Proof.
    induction a as [a IHa] using lt_wf_ind. intros b. induction b as [b IHb] using lt_wf_ind. intros c. induction c as [c IHc] using lt_wf_ind.
    intros d. induction d as [d IHd] using lt_wf_ind. intros e. induction e as [e IHe] using lt_wf_ind.
    intros x s ph past pub ch pl ns Rr PL LL Bs La Lb Lc Ld Le. constructor. intros y (ev & St & Nr).
    assert (Rx : R x s ph past) by (by exists pub, ch).
    inversion St as [m ps t o Ep|m ps t p top m' p' Ep Hr Ht Es|m ps t r Ep]; subst; cbn [shared pcs] in *.
    - destruct (sim_step zero comp H _ _ _ _ _ _ Rx St) as (s' & ph' & past' & _ & (pub' & ch' & Rr')). cbn [shared pcs] in Rr'.
      pose proof (sum_insert (fun p => match p with Quiet => 1 | _ => 0 end) ps t Quiet (start o) Ep) as Q. cbv beta iota in Q.
      replace (match start o with Quiet => 1 | _ => 0 end) with 0 in Q by (by destruct o).
      destruct (buds_total (seq 0 (length (heap m))) (heap m) (<[t := start o]> ps)) as [ns' Bs'].
      eapply (IHa (quiets (<[t := start o]> ps))); [unfold quiets in *; lia|exact Rr'| | |exact Bs'|done|done|done|done|done]; cbn [shared].
      + intros k Pk. apply elem_of_seq. split; [lia|]. by apply (r_heap _ _ _ _ _ _ _ _ _ Rr').
      + intros i Hi. apply elem_of_seq in Hi. lia.
    - pose proof (r_heap _ _ _ _ _ _ _ _ _ Rr) as I.
      destruct (tstep_ok_pub zero comp H _ _ _ _ _ _ _ t p top Rr Ep Hr Ht) as (m1 & p1 & s' & ph' & past' & pub' & ch' & E & _ & Rr' & _ & G). rewrite Es in E. injection E as <- <-.
      destruct (work pl m p top m' p' pub ch (past t) (ph t) I (r_pcs _ _ _ _ _ _ _ _ _ Rr _ _ Ep) Hr Ht PL Es) as [Lr W].
      pose proof (sum_insert (fun p => match p with Quiet => 1 | _ => 0 end) ps t p p' Ep) as Q. cbv beta in Q.
      assert (Qe : quiets (<[t := p']> ps) = quiets ps).
      { unfold quiets in *. pose proof (tstep_not_quiet comp _ _ _ _ _ Es Hr). destruct p, p'; try done; lia. } clear Q.
      pose proof (sum_insert rem ps t p p' Ep) as Re. change (rems (<[t := p']> ps) + rem p = rems ps + rem p') in Re.
      (* a link is made *)
      assert (C1 : rem p' < rem p -> Acc moves (Sys m' (<[t := p']> ps))).
      { intros L. destruct (buds_total (seq 0 (length (heap m'))) (heap m') (<[t := p']> ps)) as [ns' Bs'].
        eapply (IHb (rems (<[t := p']> ps))); [lia|exact Rr'| | |exact Bs'|cbn [pcs]; lia|done|done|done|done]; cbn [shared].
        - intros k Pk. apply elem_of_seq. split; [lia|]. by apply (r_heap _ _ _ _ _ _ _ _ _ Rr').
        - intros i Hi. apply elem_of_seq in Hi. lia. }
      destruct G as [G|G]; [|by apply C1]. assert (PL' : forall k, pub' k -> k ∈ pl) by auto.
      destruct W as [W|[(i & l & y & Eh & El & Pi)|[(i & l & c0 & n & Eh & El & Pi & Pc & Pn & D)|[Eh W]]]].
      + by apply C1.
      + destruct (buds_total pl (heap m') (<[t := p']> ps)) as [ns' Bs'].
        assert (Lu : unm pl (heap m') < unm pl (heap m)).
        { rewrite Eh. eapply sumw_upd_lt; [by apply PL| |exact El|cbn; lia]. pose proof (hi_lklvl _ _ _ _ _ _ _ I El). pose proof (hi_lvl _ _ _ _ _ I (hi_pub _ _ _ _ I _ Pi)). lia. }
        eapply (IHc (unm pl (heap m'))); [lia|exact Rr'|exact PL'| |exact Bs'|cbn [pcs]; lia|cbn [pcs]; lia|done|done|done]; cbn [shared]. rewrite Eh, upd_length. done.
      + destruct (buds_total pl (heap m') (<[t := p']> ps)) as [ns' Bs'].
        assert (Lu : unm pl (heap m') <= unm pl (heap m)) by (rewrite Eh; eapply sumw_upd_le; [exact El|done]).
        assert (Lp : pot pl (heap m') < pot pl (heap m)).
        { rewrite Eh. unfold pot. eapply Nat.le_lt_trans; [|eapply (sumw_upd_lt pl _ (heap m) i l (Some n, false)); [by apply PL| |exact El|]].
          - apply sumw_ext. intros [[[j|] b0]|]; try done. destruct (decide _); [|done]. rewrite dep_upd. reflexivity.
          - pose proof (hi_lklvl _ _ _ _ _ _ _ I El). pose proof (hi_lvl _ _ _ _ _ I (hi_pub _ _ _ _ I _ Pi)). lia.
          - rewrite !decide_True by auto. done. }
        eapply (IHd (pot pl (heap m'))); [lia|exact Rr'|exact PL'| |exact Bs'|cbn [pcs]; lia|cbn [pcs]; lia|cbn [shared]; lia|done|done]; cbn [shared]. rewrite Eh, upd_length. done.
      + assert (B' : exists ns', Forall2 (bud pl (heap m')) (<[t := p']> ps) ns' /\ sum_list ns' < sum_list ns).
        { eapply buds_insert; [exact Bs|exact Ep| |exact W]. intros u q n _ Eq B. destruct Eh as [->|[nd ->]]; [done|].
          eapply bud_alloc; [exact I|by apply (r_pcs _ _ _ _ _ _ _ _ _ Rr _ _ Eq)|done|done]. }
        destruct B' as (ns' & Bs' & L).
        eapply (IHe (sum_list ns')); [lia|exact Rr'|exact PL'| |exact Bs'|cbn [pcs]; lia|cbn [pcs]; lia| | |done]; cbn [shared].
        * intros i Hi. destruct Eh as [->|[nd ->]]; [auto|]. rewrite app_length. specialize (LL i Hi). lia.
        * destruct Eh as [->|[nd ->]]; [done|]. pose proof (unm_alloc pl (heap m) nd LL). lia.
        * destruct Eh as [->|[nd ->]]; [done|]. pose proof (pot_alloc pl (heap m) nd LL). lia.
    - by destruct (Nr t r).
  Qed.
  Lemma good_acc x : good x -> Acc moves x.
  Proof.
    intros (s & ph & past & (pub & ch & Rr)). destruct (buds_total (seq 0 (length (heap (shared x)))) (heap (shared x)) (pcs x)) as [ns Bs].
    eapply acc_all; [exact Rr| | |exact Bs|done|done|done|done|done].
    - intros k Pk. apply elem_of_seq. split; [lia|]. by apply (r_heap _ _ _ _ _ _ _ _ _ Rr).
    - intros i Hi. apply elem_of_seq in Hi. lia.
  Qed.

  (** ** Infinite runs *)
  Lemma lock_free n (run : nat -> sys T) (ev : nat -> option (event (op T) (ret T))) :
    run 0 = sys_init zero n -> (forall i, step (run i) (ev i) (run (S i))) ->
    forall i, exists j, i <= j /\ exists t r, ev j = Some (Return t r).
  Proof.
    intros R0 St. assert (G : forall i, good (run i)).
    { induction i as [|i IH]; [rewrite R0; eexists _, _, _; apply init_R; done|]. by eapply good_step. }
    intros i. specialize (good_acc _ (G i)) as A. remember (run i) as x eqn:Ex. revert i Ex. induction A as [x _ IH]. intros i ->.
    destruct (ev i) as [[t o|t r]|] eqn:Ei.
    - destruct (IH (run (S i))) with (i := S i) as (j & L & Hj); [|done|exists j; split; [lia|done]]. exists (ev i). split; [done|]. by rewrite Ei.
    - exists i. split; [done|]. eauto.
    - destruct (IH (run (S i))) with (i := S i) as (j & L & Hj); [|done|exists j; split; [lia|done]]. exists (ev i). split; [done|]. by rewrite Ei.
  Qed.

  (** ** A bound on the silent steps *)
  Lemma finite_acc {A : Type} (Rl : A -> A -> Prop) (Fin : forall x, exists l : list A, forall y, Rl y x <-> y ∈ l) x :
    Acc Rl x -> exists N, forall k y, nsteps (fun a b => Rl b a) k x y -> k <= N.
  Proof.
    intros Ac. induction Ac as [x _ IH]. destruct (Fin x) as [l Hl].
    assert (B : forall l' : list A, (forall y, y ∈ l' -> y ∈ l) -> exists N, forall y, y ∈ l' -> forall k z, nsteps (fun a b => Rl b a) k y z -> k <= N).
    { induction l' as [|y l' IHl]; intros S; [exists 0; intros y Hy; by apply elem_of_nil in Hy|].
      destruct IHl as [N HN]; [intros z Hz; apply S; by right|]. destruct (IH y) as [M HM]; [apply Hl, S; left|].
      exists (N `max` M). intros z Hz k w Hw. apply elem_of_cons in Hz as [->|Hz]; [specialize (HM _ _ Hw)|specialize (HN _ Hz _ _ Hw)]; lia. }
    destruct (B l ltac:(done)) as [N HN]. exists (S N). intros k z Hz. inversion Hz as [|k' ? y ? S1 S2]; subst; [lia|].
    specialize (HN y (proj1 (Hl y) S1) _ _ S2). lia.
  Qed.
  Definition succs_of (x : sys T) : list (sys T) :=
    omap (fun a : nat * nat =>
      p ← pcs x !! a.1;
      if running p then match tstep (shared x) p a.2 with Ok (m', p') => Some (Sys m' (<[a.1 := p']> (pcs x))) | _ => None end else None)
    (t ← seq 0 (length (pcs x)); top ← seq 1 max_level; [(t, top)]).
  Lemma succs_spec x y : step x None y <-> y ∈ succs_of x.
  Proof.
    unfold succs_of. rewrite elem_of_list_omap. split.
    - intros St. inversion St as [|m ps t p top m' p' Ep Hr Ht Es|]; subst. exists (t, top). cbn [pcs shared fst snd]. split.
      + apply elem_of_list_bind. exists t. split; [|apply elem_of_seq; split; [lia|]; by eapply lookup_lt_Some]. apply elem_of_list_bind. exists top. split; [by left|].
        apply elem_of_seq. unfold random_level in Ht. lia.
      + rewrite Ep. cbn [mbind option_bind]. rewrite Hr, Es. done.
    - intros ([t top] & Hin & E). apply elem_of_list_bind in Hin as (t' & Hin & Ht'). apply elem_of_list_bind in Hin as (top' & Hin & Htop).
      apply elem_of_list_singleton in Hin as [= -> ->]. apply elem_of_seq in Htop. cbn [fst snd] in E. destruct x as [m ps]. cbn [pcs shared] in *.
      destruct (ps !! t') as [p|] eqn:Ep; cbn [mbind option_bind] in E; [|done]. destruct (running p) eqn:Hr; [|done].
      destruct (tstep m p top') as [[m' p']| |] eqn:Es; try done. injection E as <-. eapply s_silent; [done|done| |done]. unfold random_level. lia.
  Qed.
  Lemma silent_bound n h x : exec step (sys_init zero n) h x -> exists N, forall k y, nsteps (fun a b => step a None b) k x y -> k <= N.
  Proof.
    intros E. destruct (reach zero comp H _ _ _ E) as (ms & s & ph & past & _ & Rx).
    apply (finite_acc (fun b a => step a None b)); [intros z; exists (succs_of z); intros y; apply succs_spec|].
    assert (G : good x) by (by exists s, ph, past). apply good_acc in G. clear - G. induction G as [x _ IH]. constructor. intros y Hy. apply IH. by exists None.
  Qed.
  Lemma never_stuck n h x t p : exec step (sys_init zero n) h x -> pcs x !! t = Some p -> p <> Quiet ->
    exists y, alone comp t 1 x y \/ exists r, step x (Some (Return t r)) y.
  Proof.
    intros E Ep Nq. destruct (reach zero comp H _ _ _ E) as (ms & s & ph & past & _ & (pub & ch & Rr)). destruct x as [m ps]. cbn [shared pcs] in *.
    destruct (running p) eqn:Hr.
    - assert (Ht : random_level 1) by (unfold random_level, max_level; lia).
      destruct (tstep_ok zero comp H _ _ _ _ _ _ _ t p 1 Rr Ep Hr Ht) as (m1 & p1 & s' & ph' & past' & E' & _). eexists. left. eapply alone_S; [apply alone_0|by exists p|done].
    - destruct p; try done. eexists. right. eexists. by apply s_return.
  Qed.
End lf.
