(** Proofs for C81, lock-free skip list. *)
From Verif Require Import Base Lin_Spec LockFree_Model LockFree_Spec LockFree_Proofs15 LFPanic_Model LFPanic_Spec NilLF_Model NilLF_Spec.

Section lf.
  Context {T : Type} (zero : T) (dummy : T -> T -> Z).
  Notation nstep := (nstep dummy).

  (** nothing inserted / goroutine t inserts node w and has linked l levels /
      t has counted it and is about to return / it has returned *)
  Inductive phase := PEmpty | PLinking (t w l : nat) | PCounted (t w : nat) | PDone (w : nat).
  Definition owner (ph : phase) : option nat := match ph with PLinking t _ _ | PCounted t _ => Some t | _ => None end.
  Definition inserted (ph : phase) : option nat := match ph with PEmpty => None | PLinking _ w _ | PCounted _ w | PDone w => Some w end.

  Definition plain_node (top : nat) (v : T) : node T := Node top (replicate top (Some tail, false)) v.
  Definition is_plain (h : list (node T)) (c l : nat) : Prop := 2 <= c /\ exists top v, h !! c = Some (plain_node top v) /\ l < top <= max_level.

  Definition heap_ok (ph : phase) (h : list (node T)) : Prop :=
    h !! tail = Some (Node max_level (replicate max_level (None, false)) zero) /\
    exists hl, h !! head = Some (Node max_level hl zero) /\ length hl = max_level /\
      match ph with
      | PEmpty => forall i, i < max_level -> hl !! i = Some (Some tail, false)
      | PLinking _ w l => exists top v, 2 <= w /\ h !! w = Some (plain_node top v) /\ 1 <= l <= top /\ top <= max_level /\
          forall i, i < max_level -> hl !! i = Some (if decide (i < l) then Some w else Some tail, false)
      | PCounted _ w | PDone w => exists top v, 2 <= w /\ h !! w = Some (plain_node top v) /\ 1 <= top <= max_level /\
          forall i, i < max_level -> hl !! i = Some (if decide (i < top) then Some w else Some tail, false)
      end.
  Definition count (ph : phase) : Z := match ph with PEmpty | PLinking _ _ _ => 0%Z | _ => 1%Z end.

  Definition arr_ok (l : nat) (prevs succs : list (option nat)) : Prop :=
    length prevs = max_level /\ length succs = max_level /\
    forall i, l <= i < max_level -> prevs !! i = Some (Some head) /\ succs !! i = Some (Some tail).
  Definition purpose_ok (k : purpose) (v : T) (o : op T) : Prop :=
    match k with ForAdd => o = Add v | ForDel => o = Del v | ForHas => o = Has v | ForGet => o = Get v | _ => False end.
  Definition pc_ok (ph : phase) (h : list (node T)) (t : nat) (p : pc T) (o : op T) : Prop :=
    match p with
    | Quiet => True
    | Find k v prevs succs (PLoad l (Some prev)) => purpose_ok k v o /\ l < max_level /\ prev = head /\ arr_ok (S l) prevs succs
    | Find k v prevs succs (PCur l (Some prev) (Some c)) => purpose_ok k v o /\ l < max_level /\ prev = head /\ arr_ok (S l) prevs succs /\
        (c = tail \/ is_plain h c l)
    | AddCas v new prevs succs => o = Add v /\ arr_ok 0 prevs succs /\ is_plain h new 0
    | AddLink l v new prevs succs => o = Add v /\ ph = PLinking t new l /\ arr_ok 0 prevs succs /\ is_plain h new l
    | AddInc => (exists v, o = Add v) /\ exists w top v, ph = PLinking t w top /\ h !! w = Some (plain_node top v)
    | LenLoad => o = Len
    | RankLoad v => o = Rank v
    | Ready r => nil_answer zero o r /\ (r = RBool true -> exists w, ph = PCounted t w) /\ (r = RInt 1 -> ph <> PEmpty)
    | _ => False
    end.

  Definition is_true (e : pevent T) : bool := match e with Did (Return _ (RBool true)) => true | _ => false end.
  Definition cur_call (t : nat) (h : list (pevent T)) : option (op T) :=
    foldl (fun c e => match e with Did (Call u o) => if decide (u = t) then Some o else c | _ => c end) None h.
  Record INV (ph : phase) (h : list (pevent T)) (x : sys T) : Prop := {
    v_heap : heap_ok ph (heap (shared x));
    v_size : size (shared x) = count ph;
    v_pcs : forall t p, pcs x !! t = Some p -> p = Quiet \/ exists o, cur_call t h = Some o /\ pc_ok ph (heap (shared x)) t p o;
    v_owner : match ph with
              | PLinking t w l => (exists v a b, pcs x !! t = Some (AddLink l v w a b)) \/ pcs x !! t = Some AddInc
              | PCounted t _ => pcs x !! t = Some (Ready (RBool true))
              | _ => True end;
    v_true : length (filter is_true h) = match ph with PDone _ => 1 | _ => 0 end;
    v_one : forall t r, Did (Return t (RInt r)) ∈ h -> r = 1%Z -> ph <> PEmpty }.

  Definition keeps (h h' : list (node T)) : Prop := forall i n, 2 <= i -> h !! i = Some n -> h' !! i = Some n.
  Lemma is_plain_keeps h h' c l : keeps h h' -> is_plain h c l -> is_plain h' c l.
  Proof. intros K (A & top & v & B & C). split; [done|]. exists top, v. split; [by apply K|done]. Qed.
  Lemma pc_ok_other ph ph' h h' u p o : pc_ok ph h u p o -> keeps h h' -> owner ph <> Some u -> (ph <> PEmpty -> ph' <> PEmpty) -> pc_ok ph' h' u p o.
  Proof.
    intros H K O E. destruct p as [|k v prevs succs pp|v new prevs succs|l v new prevs succs| | | | | | |r]; cbn in *; try done.
    - destruct pp as [l [prev|]|l [prev|] [c|]|]; try done. destruct H as (A & B & C & D & F). splits; try done.
      destruct F as [F|F]; [by left|right]. by eapply is_plain_keeps.
    - destruct H as (A & B & C). splits; try done. by eapply is_plain_keeps.
    - destruct H as (_ & -> & _). by destruct O.
    - destruct H as (_ & w & top & v & -> & _). by destruct O.
    - destruct H as (A & B & C). splits; [done| |auto]. intros Hr. destruct (B Hr) as (w & ->). by destruct O.
  Qed.

  Lemma inv_init n : INV PEmpty [] (sys_init zero n).
  Proof.
    split; try done.
    - split; [done|]. exists (replicate max_level (Some tail, false)). split; [done|]. split; [done|]. intros i L. by rewrite lookup_replicate_2.
    - cbn. intros t p E. left. by apply lookup_replicate in E as [-> _].
    - intros t r F. by apply elem_of_nil in F.
  Qed.

  Lemma cur_call_snoc t h e : cur_call t (h ++ [e]) = match e with Did (Call u o) => if decide (u = t) then Some o else cur_call t h | _ => cur_call t h end.
  Proof. unfold cur_call. by rewrite foldl_app. Qed.
  Lemma arr_ok_none : arr_ok max_level no_nodes no_nodes.
  Proof. unfold arr_ok, no_nodes. split; [apply replicate_length|]. split; [apply replicate_length|]. intros i Hi. lia. Qed.
  Lemma arr_ok_restart l a b : arr_ok l a b -> arr_ok max_level a b.
  Proof. intros (A & B & _). split; [done|]. split; [done|]. intros i Hi. lia. Qed.
  Lemma find_start_ok ph h t k v a b o l : purpose_ok k v o -> arr_ok l a b -> pc_ok ph h t (find_start k v a b) o.
  Proof. intros H A. cbn. splits; [done|vm_compute; lia|done|]. by apply arr_ok_restart in A. Qed.
  Lemma start_ok ph h t o : pc_ok ph h t (start o) o.
  Proof.
    destruct o; cbn [start]; try (by eapply find_start_ok; [|apply arr_ok_none]); done.
  Qed.

  Lemma inv_local ph h m ps t p m' p' : INV ph h (Sys m ps) -> ps !! t = Some p -> owner ph <> Some t ->
    (p' = Quiet \/ exists o, cur_call t h = Some o /\ pc_ok ph (heap m') t p' o) -> keeps (heap m) (heap m') -> heap_ok ph (heap m') -> size m' = size m ->
    INV ph h (Sys m' (<[t := p']> ps)).
  Proof.
    intros I Ep O Hp K H S. destruct I as [V1 V2 V3 V4 V5 V6]. cbn in *. split; cbn; try done.
    - by rewrite S.
    - intros u q E. apply list_lookup_insert_Some in E as [(<- & <- & _)|(N & E)]; [done|].
      destruct (V3 u q E) as [->|(o & A & B)]; [by left|right]. exists o. split; [done|].
      destruct (decide (owner ph = Some u)) as [Ou|Ou]; [|by eapply pc_ok_other].
      destruct q as [|k v a b pp|v new a b|l v new a b| | | | | | |r]; cbn in *; try done.
      + destruct pp as [l [prev|]|l [prev|] [c|]|]; try done. destruct B as (A1 & A2 & A3 & A4 & A5). splits; try done.
        destruct A5 as [A5|A5]; [by left|right]. by eapply is_plain_keeps.
      + destruct B as (A1 & A2 & A3). splits; try done. by eapply is_plain_keeps.
      + destruct B as (A1 & -> & A2 & A3). splits; try done. by eapply is_plain_keeps.
      + destruct B as (A1 & w & top & v & A2 & A3). split; [done|]. exists w, top, v. split; [done|]. apply K; [|done].
        subst ph. destruct V1 as (_ & hl & _ & _ & top' & v' & L2 & _). done.
    - destruct ph as [|u w l|u w|w]; try done; cbn in O.
      + rewrite !list_lookup_insert_ne by congruence. done.
      + rewrite list_lookup_insert_ne by congruence. done.
  Qed.

  (** the step of the goroutine that owns the phase, or becomes its owner *)
  Lemma inv_move ph ph' h m ps t p m' p' : INV ph h (Sys m ps) -> ps !! t = Some p -> (owner ph = None \/ owner ph = Some t) ->
    (ph = PEmpty \/ inserted ph = inserted ph') -> ph' <> PEmpty -> owner ph' = Some t -> (forall w, ph <> PDone w) ->
    (exists o, cur_call t h = Some o /\ pc_ok ph' (heap m') t p' o) -> keeps (heap m) (heap m') -> heap_ok ph' (heap m') -> size m' = count ph' ->
    match ph' with
    | PLinking t w l => (exists v a b, p' = AddLink l v w a b) \/ p' = AddInc
    | PCounted t w => p' = Ready (RBool true)
    | _ => True end ->
    INV ph' h (Sys m' (<[t := p']> ps)).
  Proof.
    intros I Ep O HI N0 O' ND Hp K H S Ho. destruct I as [V1 V2 V3 V4 V5 V6]. cbn in *. pose proof (lookup_lt_Some _ _ _ Ep) as Lt.
    split; cbn; try done.
    - intros u q E. apply list_lookup_insert_Some in E as [(<- & <- & _)|(N & E)]; [by right|].
      destruct (V3 u q E) as [->|(o & A & B)]; [by left|right]. exists o. split; [done|].
      eapply pc_ok_other; [exact B|done| |done]. destruct O as [-> | ->]; congruence.
    - destruct ph' as [|u w l|u w|w]; try done; cbn in O'; injection O' as ->; rewrite list_lookup_insert by done.
      + destruct Ho as [(v & a & b & ->)| ->]; [left; by exists v, a, b|by right].
      + by subst.
    - rewrite V5. destruct ph as [| | |w]; [..|by destruct (ND w)]; by destruct ph'.
  Qed.

  Lemma owner_pc ph h x t p : INV ph h x -> pcs x !! t = Some p -> owner ph = Some t ->
    (exists l v w a b, p = AddLink l v w a b) \/ p = AddInc \/ p = Ready (RBool true).
  Proof.
    intros I E O. pose proof (v_owner _ _ _ I) as V. destruct ph as [|u w l|u w|w]; cbn in O; try done; injection O as ->.
    - destruct V as [(v & a & b & V)|V]; rewrite E in V; injection V as ->; [left; by exists l, v, w, a, b|auto].
    - rewrite E in V. injection V as ->. auto.
  Qed.

  Lemma load_eq (h : list (node T)) i n l : h !! i = Some n -> load_next h (Some i) l = deref (nexts n !! l).
  Proof. intros E. unfold load_next, deref, rbind. by rewrite E. Qed.
  (** the head's links *)
  Lemma head_link ph hp l : heap_ok ph hp -> l < max_level -> exists c, load_next hp (Some head) l = Ok (Some c, false) /\
    (c = tail \/ is_plain hp c l) /\ (c = tail -> ph = PEmpty \/ 0 < l).
  Proof.
    intros (Ht & hl & Hh & Hl & M) L. rewrite (load_eq _ _ _ l Hh). cbn [nexts]. unfold link in *.
    destruct ph as [|t w j|t w|w].
    - rewrite (M l L). exists tail. splits; auto.
    - destruct M as (top & v & A & B & C & C' & M). rewrite (M l L). destruct (decide (l < j)).
      + exists w. splits; [done| |intros ->; unfold tail in A; lia]. right. split; [done|]. exists top, v. split; [done|]. lia.
      + exists tail. splits; auto. right. lia.
    - destruct M as (top & v & A & B & C & M). rewrite (M l L). destruct (decide (l < top)).
      + exists w. splits; [done| |intros ->; unfold tail in A; lia]. right. split; [done|]. exists top, v. split; [done|]. lia.
      + exists tail. splits; auto. right. lia.
    - destruct M as (top & v & A & B & C & M). rewrite (M l L). destruct (decide (l < top)).
      + exists w. splits; [done| |intros ->; unfold tail in A; lia]. right. split; [done|]. exists top, v. split; [done|]. lia.
      + exists tail. splits; auto. right. lia.
  Qed.
  Lemma tail_link ph hp l : heap_ok ph hp -> l < max_level -> load_next hp (Some tail) l = Ok (None, false).
  Proof. intros (Ht & _) L. rewrite (load_eq _ _ _ l Ht). cbn [nexts]. by rewrite lookup_replicate_2. Qed.
  (** arriving at a node other than head and tail *)
  Lemma at_node hp k v a b l c : is_plain hp c l -> load_next hp (Some c) l = Ok (Some tail, false) /\
    forall m, heap m = hp -> compares m (Find k v a b (PCur l (Some head) (Some c)) : pc T).
  Proof.
    intros (L & top & u & E & Lt). split.
    - rewrite (load_eq _ _ _ l E). cbn [plain_node nexts]. rewrite lookup_replicate_2; [done|lia].
    - intros m <-. exists k, v, a, b, l, (Some head), c, (plain_node top u), (Some tail). unfold head, tail. splits; try done; [lia..|].
      cbn [plain_node nexts]. rewrite lookup_replicate_2; [done|lia].
  Qed.

  Lemma cas_eq (h : list (node T)) i n l y d : h !! i = Some n -> nexts n !! l = Some y -> forall x,
    cas_next h (Some i) l x d = if decide (y = x) then Ok (true, <[i := Node (level n) (<[l := d]> (nexts n)) (value n)]> h) else Ok (false, h).
  Proof. intros E F x. unfold cas_next, deref, rbind. rewrite E. cbn. by rewrite F. Qed.
  Lemma keeps_head (h : list (node T)) n : keeps h (<[head := n]> h).
  Proof. intros i m L E. unfold head. rewrite list_lookup_insert_ne; [done|lia]. Qed.
  Lemma keeps_app (h : list (node T)) k : keeps h (h ++ k).
  Proof. intros i m L E. by apply lookup_app_l_Some. Qed.
  Lemma heap_ok_app ph h k : heap_ok ph h -> heap_ok ph (h ++ k).
  Proof.
    intros (Ht & hl & Hh & Hl & M). split; [by apply lookup_app_l_Some|]. exists hl. split; [by apply lookup_app_l_Some|]. split; [done|].
    destruct ph as [|t w j|t w|w]; [done|..]; destruct M as (top & v & A & B & R); exists top, v; (split; [done|]); (split; [by apply lookup_app_l_Some|done]).
  Qed.
  Lemma running_not_owner ph h x t p : INV ph h x -> pcs x !! t = Some p ->
    (forall l v w a b, p <> AddLink l v w a b) -> p <> AddInc -> (forall r, p <> Ready r) -> owner ph <> Some t.
  Proof. intros I E A B C O. destruct (owner_pc _ _ _ _ _ I E O) as [(l & v & w & a & b & ->)|[->| ->]]; [by eapply A|done|by eapply C]. Qed.
  Lemma arr_ok_put l a b : l < max_level -> arr_ok (S l) a b -> arr_ok l (<[l := Some head]> a) (<[l := Some tail]> b).
  Proof.
    intros L (A & B & C). split; [by rewrite insert_length|]. split; [by rewrite insert_length|]. intros i Hi.
    destruct (decide (i = l)) as [->|N].
    - split; apply list_lookup_insert; lia.
    - rewrite !list_lookup_insert_ne by done. apply C. lia.
  Qed.
  Lemma arr_succs a b : arr_ok 0 a b -> b = replicate max_level (Some tail).
  Proof.
    intros (A & B & C). apply list_eq_same_length with max_level; [by rewrite replicate_length|done|].
    intros i x y Hi Hx Hy. destruct (C i) as [_ C2]; [lia|]. rewrite lookup_replicate_2 in Hy by done. congruence.
  Qed.
  Lemma linking_ok t w l h hl top v : h !! tail = Some (Node max_level (replicate max_level (None, false)) zero) ->
    h !! head = Some (Node max_level hl zero) -> length hl = max_level -> 2 <= w -> h !! w = Some (plain_node top v) ->
    l < top -> top <= max_level -> (forall i, i < max_level -> hl !! i = Some (if decide (i < l) then Some w else Some tail, false)) ->
    heap_ok (PLinking t w (S l)) (<[head := Node max_level (<[l := (Some w, false)]> hl) zero]> h).
  Proof.
    intros Ht Hh Hl Lw Ew L1 L2 M. unfold link in *. pose proof (lookup_lt_Some _ _ _ Hh) as Lh. unfold head, tail in *. split.
    - rewrite list_lookup_insert_ne by done. done.
    - eexists. split; [by apply list_lookup_insert|]. split; [by rewrite insert_length|]. exists top, v.
      split; [done|]. split; [rewrite list_lookup_insert_ne by lia; done|]. split; [lia|]. split; [done|]. intros i Hi.
      destruct (decide (i = l)) as [->|N].
      + rewrite list_lookup_insert by lia. by rewrite decide_True by lia.
      + rewrite list_lookup_insert_ne by done. rewrite M by done. repeat case_decide; first [done|lia].
  Qed.

  Lemma silent_step ph h m ps t p top m' p' : INV ph h (Sys m ps) -> ps !! t = Some p -> running p = true -> random_level top ->
    ~ compares m p -> tstep dummy m p top = Ok (m', p') ->
    exists ph', INV ph' h (Sys m' (<[t := p']> ps)) /\ (ph <> PEmpty -> ph' <> PEmpty).
  Proof.
    intros I Ep Hr Hl Nc St. pose proof (v_heap _ _ _ I) as VH. pose proof (v_size _ _ _ I) as VS. cbn in VH, VS.
    assert (Loc : owner ph <> Some t -> forall o, cur_call t h = Some o -> m' = m -> pc_ok ph (heap m) t p' o ->
      exists ph', INV ph' h (Sys m' (<[t := p']> ps)) /\ (ph <> PEmpty -> ph' <> PEmpty)).
    { intros O o Co -> K. exists ph. split; [|done]. eapply inv_local; [exact I|exact Ep|done| |by intros ???|done|done]. right. by exists o. }
    destruct (v_pcs _ _ _ I t p Ep) as [->|(o & Co & K)]; [done|].
    destruct p as [|k v a b pp|v new a b|l v new a b| | | | | | |r]; try done.
    - (* find *)
      assert (O : owner ph <> Some t) by (eapply running_not_owner; [exact I|exact Ep|done..]).
      destruct pp as [l [prev|]|l [prev|] [c|]|]; try done; cbn in K.
      + destruct K as (K1 & K2 & -> & K3). destruct (head_link _ _ l VH K2) as (c & E1 & E2 & E3).
        cbn [tstep] in St. rewrite E1 in St. cbn in St. injection St as <- <-. apply (Loc O o Co eq_refl). cbn. done.
      + destruct K as (K1 & K2 & -> & K3 & [->|K4]).
        2:{ destruct (at_node _ k v a b _ _ K4) as [_ F]. by destruct (Nc (F m eq_refl)). }
        cbn [tstep] in St. rewrite (tail_link _ _ l VH K2) in St. cbn [rbind is_marked snd] in St.
        unfold less in St. rewrite decide_False in St by done. rewrite decide_True in St by done. cbn [rbind] in St.
        pose proof (arr_ok_put _ _ _ K2 K3) as K4.
        destruct l as [|l].
        * destruct k; cbn in K1; try done; subst o; cbn [found] in St; unfold equals in St; rewrite ?decide_True in St by auto; cbn [rbind] in St; cbv zeta in St.
          -- injection St as <- <-. exists ph. split; [|done].
             pose proof Hl as [Hl1 Hl2]. 
             assert (Ln : 2 <= length (heap m)). { destruct VH as (Ht & _). pose proof (lookup_lt_Some _ _ _ Ht). unfold tail in *. lia. }
             eapply inv_local; [exact I|exact Ep|done| |apply keeps_app|by apply heap_ok_app|done]. right. exists (Add v). split; [done|]. cbn.
             split; [done|]. split; [done|]. split; [done|]. exists top, v. split; [|lia]. rewrite lookup_app_r by lia. rewrite Nat.sub_diag. cbn. f_equal.
             unfold make_node, plain_node. f_equal. rewrite (arr_succs _ _ K4), take_replicate, fmap_replicate. f_equal. lia.
          -- injection St as <- <-. apply (Loc O (Del v) Co eq_refl). cbn. done.
          -- injection St as <- <-. apply (Loc O (Has v) Co eq_refl). cbn. done.
          -- destruct VH as (Ht & _). cbn [deref rbind] in St. rewrite Ht in St. cbn in St. injection St as <- <-. apply (Loc O (Get v) Co eq_refl). cbn. done.
        * injection St as <- <-. apply (Loc O o Co eq_refl). cbn. splits; try done. lia.
    - (* the bottom link *)
      destruct K as (-> & K1 & K2). assert (O : owner ph <> Some t) by (eapply running_not_owner; [exact I|exact Ep|done..]).
      destruct K1 as (A & B & C). destruct (C 0) as [C1 C2]; [vm_compute; lia|]. cbn [tstep] in St. rewrite C1, C2 in St. cbn [deref rbind] in St.
      destruct VH as (Ht & hl & Hh & Hll & M). destruct (lookup_lt_is_Some_2 hl 0) as [y Ey]; [rewrite Hll; vm_compute; lia|].
      rewrite (cas_eq _ _ _ 0 y _ Hh Ey) in St. cbn [level nexts value] in St.
      assert (D : ph = PEmpty \/ ph <> PEmpty) by (destruct ph; auto). destruct D as [->|NE].
      + assert (Ey' : Some y = Some (Some tail, false)) by (rewrite <- Ey; apply M; vm_compute; lia). injection Ey' as ->. rewrite decide_True in St by done. cbn [rbind] in St.
        destruct K2 as (Ln & tp & u & En & Ltp). cbn [shared] in En. rewrite list_lookup_insert_ne in St by (unfold head; lia). rewrite En in St. cbn in St. injection St as <- <-.
        exists (PLinking t new 1). split; [|done]. eapply inv_move; [exact I|exact Ep|by left|by left|done|done|done| |apply keeps_head| |done|].
        * exists (Add v). split; [done|]. unfold add_next. case_decide; cbn.
          -- split; [done|]. split; [done|]. split; [done|]. split; [lia|]. exists tp, u. split; [|lia]. unfold head. by rewrite list_lookup_insert_ne by lia.
          -- split; [by exists v|]. assert (tp = 1) as -> by lia. exists new, 1, u. split; [done|]. unfold head. by rewrite list_lookup_insert_ne by lia.
        * eapply linking_ok; try done; try lia. all: intros i Hi; rewrite decide_False by lia; by apply M.
        * unfold add_next. case_decide; [left; by eexists _, _, _|by right].
      + assert (y <> (Some tail, false)).
        { destruct ph as [|t' w j|t' w|w]; [done|..]; destruct M as (tp & u & A1 & A2 & M);
            [destruct M as (M1 & M2 & M)|destruct M as (M1 & M)..]; assert (L0 : 0 < max_level) by (vm_compute; lia);
            pose proof (M 0 L0) as M0; rewrite decide_True in M0 by lia; assert (Ey' : Some y = Some (Some w, false)) by (rewrite <- Ey; exact M0);
            injection Ey' as ->; intros [= ->]; unfold tail in A1; lia. }
        rewrite decide_False in St by done. cbn [rbind] in St. injection St as <- <-. apply (Loc O (Add v) Co eq_refl).
        eapply find_start_ok; [done|]. by apply (conj A (conj B C)).
    - (* another link *)
      destruct K as (-> & -> & K1 & K2). destruct VH as (Ht & hl & Hh & Hll & tp & u & A1 & A2 & A3 & A4 & M).
      destruct K2 as (Ln & tp' & u' & En & Ltp). cbn [shared] in En. rewrite A2 in En. injection En as Eu Er. 
      assert (tp' = tp) as -> by congruence. subst u'. clear Er.
      destruct K1 as (A & B & C). destruct (C l) as [C1 C2]; [lia|]. cbn [tstep] in St. rewrite C1, C2 in St. cbn [deref rbind] in St.
      assert (Ey : hl !! l = Some (Some tail, false)). { pose proof (M l ltac:(lia)) as Ml. by rewrite decide_False in Ml by lia. }
      rewrite (cas_eq _ _ _ l _ _ Hh Ey) in St. cbn [level nexts value] in St. rewrite decide_True in St by done. cbn [rbind] in St.
      rewrite list_lookup_insert_ne in St by (unfold head; lia). rewrite A2 in St. cbn in St. injection St as <- <-.
      exists (PLinking t new (S l)). split; [|done]. eapply inv_move; [exact I|exact Ep|by right|by right|done|done|done| |apply keeps_head| |done|].
      + exists (Add v). split; [done|]. unfold add_next. rewrite Nat.add_1_r. case_decide; cbn.
        * split; [done|]. split; [done|]. split; [done|]. split; [lia|]. exists tp, u. split; [|lia]. unfold head. by rewrite list_lookup_insert_ne by lia.
        * split; [by exists v|]. assert (tp = S l) as -> by lia. exists new, (S l), u. split; [done|]. unfold head. by rewrite list_lookup_insert_ne by lia.
      + eapply linking_ok; try done; try lia.
      + unfold add_next. rewrite Nat.add_1_r. case_decide; [left; by eexists _, _, _|by right].
    - (* counting *)
      destruct K as ((v & ->) & w & tp & u & -> & Ew). cbn in St. injection St as <- <-. cbn in VS. rewrite VS.
      exists (PCounted t w). split; [|done]. eapply inv_move; [exact I|exact Ep|by right|by right|done|done|done| |by intros ???| |done|done].
      + exists (Add v). split; [done|]. cbn. split; [done|]. split; [intros _; by exists w|done].
      + cbn. destruct VH as (Ht & hl & Hh & Hll & tp' & u' & A1 & A2 & A3 & A4 & M). split; [done|]. exists hl. split; [done|]. split; [done|].
        cbn [shared] in Ew. rewrite A2 in Ew. injection Ew as Eu _ Ev. subst tp' u'. exists tp, u. splits; try done; lia.
    - (* Len *)
      assert (O : owner ph <> Some t) by (eapply running_not_owner; [exact I|exact Ep|done..]).
      cbn in St. injection St as <- <-. cbn in K. subst o. apply (Loc O Len Co eq_refl). cbn. rewrite VS. destruct ph; cbn; splits; auto; done.
    - (* Rank *)
      assert (O : owner ph <> Some t) by (eapply running_not_owner; [exact I|exact Ep|done..]).
      cbn in K. subst o. cbn [tstep] in St. cbv zeta in St. rewrite decide_True in St by (rewrite VS; destruct ph; cbn; lia).
      injection St as <- <-. apply (Loc O (Rank v) Co eq_refl). cbn. rewrite VS. destruct ph; cbn; splits; auto; done.
  Qed.

  Lemma trues_snoc (h : list (pevent T)) e : length (filter is_true (h ++ [e])) = length (filter is_true h) + if is_true e then 1 else 0.
  Proof.
    rewrite filter_app, app_length. f_equal. destruct (is_true e) eqn:F.
    - rewrite filter_cons_True by (by rewrite F). done.
    - rewrite filter_cons_False by (rewrite F; by intros []). done.
  Qed.
  Lemma inv_snoc ph h x e : INV ph h x -> (forall u o, e <> Did (Call u o)) -> is_true e = false -> (forall t, e = Did (Return t (RInt 1)) -> ph <> PEmpty) -> INV ph (h ++ [e]) x.
  Proof.
    intros I N F F1. destruct I as [V1 V2 V3 V4 V5 V6]. split; try done.
    - intros t p E. destruct (V3 t p E) as [->|(o & A & B)]; [by left|right]. exists o. rewrite cur_call_snoc. split; [|done].
      destruct e as [[u o'|u r]|u]; [by destruct (N u o')|done..].
    - rewrite trues_snoc, V5, F. by rewrite Nat.add_0_r.
    - intros t r [E|E]%elem_of_app Hr; [by eapply V6|]. apply elem_of_list_singleton in E. subst r. by eapply F1.
  Qed.
  Lemma quiet_not_owner ph h x t : INV ph h x -> pcs x !! t = Some Quiet -> owner ph <> Some t.
  Proof. intros I E O. by destruct (owner_pc _ _ _ _ _ I E O) as [(? & ? & ? & ? & ? & ?)|[?|?]]. Qed.
  Lemma call_step ph h m ps t o : INV ph h (Sys m ps) -> ps !! t = Some Quiet -> INV ph (h ++ [Did (Call t o)]) (Sys m (<[t := start o]> ps)).
  Proof.
    intros I Ep. pose proof (quiet_not_owner _ _ _ _ I Ep) as O. destruct I as [V1 V2 V3 V4 V5 V6]. cbn in *. split; try done; cbn.
    - intros u q E. apply list_lookup_insert_Some in E as [(<- & <- & _)|(N & E)].
      + right. exists o. rewrite cur_call_snoc, decide_True by done. split; [done|]. apply start_ok.
      + destruct (V3 u q E) as [->|(o' & A & B)]; [by left|right]. exists o'. rewrite cur_call_snoc, decide_False by done. done.
    - destruct ph as [|u w l|u w|w]; try done; cbn in O; rewrite !list_lookup_insert_ne by congruence; done.
    - rewrite trues_snoc, V5. by rewrite Nat.add_0_r.
    - intros u r [E|E]%elem_of_app Hr; [by eapply V6|]. apply elem_of_list_singleton in E. done.
  Qed.
  Lemma return_step ph h m ps t r : INV ph h (Sys m ps) -> ps !! t = Some (Ready r) ->
    exists ph', INV ph' (h ++ [Did (Return t r)]) (Sys m (<[t := Quiet]> ps)) /\ (ph <> PEmpty -> ph' <> PEmpty).
  Proof.
    intros I Ep. destruct (v_pcs _ _ _ I t _ Ep) as [?|(o & Co & K1 & K2 & K3)]; [done|].
    assert (D : r = RBool true \/ r <> RBool true) by (destruct r as [[]| |]; auto; right; done). destruct D as [->|D].
    - destruct (K2 eq_refl) as (w & ->). exists (PDone w). split; [|done]. destruct I as [V1 V2 V3 V4 V5 V6]. cbn in *. split; try done; cbn.
      + intros u q E. apply list_lookup_insert_Some in E as [(<- & <- & _)|(N & E)]; [by left|].
        destruct (V3 u q E) as [->|(o' & A & B)]; [by left|right]. exists o'. rewrite cur_call_snoc. split; [done|].
        eapply pc_ok_other; [exact B|by intros ???|cbn; congruence|done].
      + rewrite trues_snoc, V5. done.
    - assert (O : owner ph <> Some t).
      { intros O. destruct (owner_pc _ _ _ _ _ I Ep O) as [(? & ? & ? & ? & ? & ?)|[?|?]]; [done..|congruence]. }
      exists ph. split; [|done]. apply inv_snoc; [|done| |].
      + eapply inv_local; [exact I|exact Ep|done|by left|by intros ???|apply I|done].
      + destruct r as [[]| |]; done.
      + intros u [= -> ->]. by apply K3.
  Qed.
  Lemma inv_step ph h x e y : INV ph h x -> nstep x e y ->
    exists ph', INV ph' (h ++ option_list e) y /\ (ph <> PEmpty -> ph' <> PEmpty).
  Proof.
    intros I St. destruct St as [x e y St|m ps t p top m' p' Ep Hr Hl Nc St|m ps t p Ep Cp].
    - inversion St; subst; cbn.
      + exists ph. split; [|done]. by apply call_step.
      + by apply return_step.
    - cbn. rewrite app_nil_r. by eapply silent_step.
    - exists ph. split; [|done]. cbn. apply inv_snoc; [|done..].
      eapply inv_local; [exact I|exact Ep| |by left|by intros ???|apply I|done].
      destruct Cp as (? & ? & ? & ? & ? & ? & ? & ? & ? & -> & _). eapply running_not_owner; [exact I|exact Ep|done..].
  Qed.
  Lemma inv_exec x0 h0 ph0 h x : exec nstep x0 h x -> INV ph0 h0 x0 -> exists ph, INV ph (h0 ++ h) x /\ (ph0 <> PEmpty -> ph <> PEmpty).
  Proof.
    intros E I0. induction E as [|c c1 h c2 E IH St|c c1 h e c2 E IH St].
    - exists ph0. by rewrite app_nil_r.
    - destruct (IH I0) as (ph & I & K). destruct (inv_step _ _ _ _ _ I St) as (ph' & I' & K'). exists ph'. cbn in I'. rewrite app_nil_r in I'. auto.
    - destruct (IH I0) as (ph & I & K). destruct (inv_step _ _ _ _ _ I St) as (ph' & I' & K'). exists ph'. cbn in I'. rewrite <- app_assoc in I'. auto.
  Qed.
  Lemma inv_reach n h x : exec nstep (sys_init zero n) h x -> exists ph, INV ph h x.
  Proof. intros E. destruct (inv_exec _ [] PEmpty _ _ E (inv_init n)) as (ph & I & _). by exists ph. Qed.

  (** what is stored *)
  Lemma inv_stored ph h x : INV ph h x -> exists s, stored x s /\ length s = match inserted ph with None => 0 | Some _ => 1 end.
  Proof.
    intros I. destruct (v_heap _ _ _ I) as (Ht & hl & Hh & Hll & M). assert (L0 : 0 < max_level) by (vm_compute; lia).
    destruct ph as [|t w l|t w|w]; cbn.
    1:{ exists []. split; [|done]. exists []. split; [|done]. eapply path_end; [exact Hh|]. by apply M. }
    all: destruct M as (top & v & A1 & A2 & M); first [destruct M as (M1 & M2 & M)|destruct M as (M1 & M)];
      pose proof (M 0 L0) as M0; rewrite decide_True in M0 by lia; exists [v]; (split; [|done]);
      exists [w]; (split; [eapply path_hop; [exact Hh|exact M0|unfold tail; lia|eapply path_end; [exact A2|cbn [plain_node nexts]; rewrite lookup_replicate_2; [done|lia]]]|]);
      cbn; unfold unmarked_value; rewrite A2; cbn [plain_node nexts mbind option_bind]; rewrite lookup_replicate_2 by lia; done.
  Qed.
  Lemma inv_answered ph h t o r h1 h2 n x : exec nstep (sys_init zero n) h x -> INV ph h x ->
    forall h3, h = h1 ++ Did (Call t o) :: h2 ++ Did (Return t r) :: h3 -> Forall (fun e => doer e <> t) h2 -> nil_answer zero o r.
  Proof.
    intros E _ h3 -> F. change (Did (Return t r) :: h3) with ([Did (Return t r)] ++ h3) in E.
    rewrite (app_assoc h2), app_comm_cons, (app_assoc h1) in E. apply exec_app_inv in E as (x1 & E & _).
    rewrite app_comm_cons, app_assoc in E. apply exec_app_inv in E as (x0 & E0 & E).
    destruct (inv_reach _ _ _ E0) as (ph0 & I0). clear ph.
    assert (G : forall x0 g x1, exec nstep x0 g x1 -> g = [Did (Return t r)] -> forall ph, INV ph (h1 ++ Did (Call t o) :: h2) x0 ->
      exists m ps ph, INV ph (h1 ++ Did (Call t o) :: h2) (Sys m ps) /\ ps !! t = Some (Ready r)).
    { clear. intros x0 g x1 E. induction E as [|c c1 h c2 E IH St|c c1 h e c2 E IH St]; intros Hg ph I; [done|by eapply IH|].
      destruct h as [|? [|? ?]]; cbn in Hg; [|done..]. injection Hg as ->.
      destruct (inv_exec _ _ _ _ _ E I) as (ph1 & I1 & _). rewrite app_nil_r in I1.
      inversion St as [? ? ? St'| |]; subst. inversion St'; subst. by eexists _, _, ph1. }
    destruct (G _ _ _ E eq_refl _ I0) as (m & ps & ph & I & Ep).
    destruct (v_pcs _ _ _ I t _ Ep) as [?|(o' & Co & K & _)]; [done|].
    assert (cur_call t (h1 ++ Did (Call t o) :: h2) = Some o) as Co'.
    { clear -F. change (Did (Call t o) :: h2) with ([Did (Call t o)] ++ h2). rewrite app_assoc. induction h2 as [|e h2 IH] using rev_ind.
      - rewrite app_nil_r, cur_call_snoc. by rewrite decide_True.
      - apply Forall_app in F as [F1 F2]. rewrite app_assoc, cur_call_snoc. apply Forall_inv in F2.
        specialize (IH F1). destruct e as [[u o'|u r']|u]; cbn in F2; [by rewrite decide_False|exact IH|exact IH]. }
    congruence.
  Qed.

  (** ** Calls made while the element is there *)
  Definition doomed (p : pc T) : Prop :=
    match p with
    | Find k v a b (PLoad l (Some 0)) => True
    | Find k v a b (PCur l (Some 0) (Some c)) => 0 < l \/ c <> tail
    | _ => False
    end.
  Lemma doomed_step ph h x e y t p : INV ph h x -> ph <> PEmpty -> nstep x e y -> pcs x !! t = Some p -> doomed p ->
    (exists q, pcs y !! t = Some q /\ doomed q) \/ e = Some (Abandoned t).
  Proof.
    intros I N St Ep D. destruct St as [x e y St|m ps u q top m' p' Eq Hr Hl Nc St|m ps u q Eq Cp].
    - left. exists p. split; [|done]. inversion St; subst; cbn in *; rewrite list_lookup_insert_ne; try done; intros ->; rewrite Ep in *; simplify_eq; done.
    - left. cbn in *. destruct (decide (u = t)) as [->|Ne]; [|exists p; by rewrite list_lookup_insert_ne].
      rewrite Ep in Eq. injection Eq as <-. exists p'. split; [apply list_lookup_insert; by apply lookup_lt_Some in Ep|].
      destruct (v_pcs _ _ _ I t p Ep) as [->|(o & Co & K)]; [done|]. pose proof (v_heap _ _ _ I) as VH. cbn in VH.
      destruct p as [|k v a b pp|v new a b|l v new a b| | | | | | |r]; try done. destruct pp as [l [prev|]|l [prev|] [c|]|]; try done; cbn in K.
      + destruct K as (K1 & K2 & -> & K3). destruct (head_link _ _ l VH K2) as (c & E1 & E2 & E3). cbn [tstep] in St. rewrite E1 in St. cbn in St. injection St as <- <-.
        cbn. destruct (decide (c = tail)) as [->|]; [|by right]. destruct (E3 eq_refl); [done|by left].
      + destruct K as (K1 & K2 & -> & K3 & [->|K4]).
        2:{ destruct (at_node _ k v a b _ _ K4) as [_ F]. by destruct (Nc (F m eq_refl)). }
        cbn [tstep] in St. rewrite (tail_link _ _ l VH K2) in St. cbn [rbind is_marked snd] in St.
        unfold less in St. rewrite decide_False in St by done. rewrite decide_True in St by done. cbn [rbind] in St.
        destruct l as [|l]; [cbn in D; destruct D; [lia|done]|]. injection St as <- <-. done.
    - cbn in *. destruct (decide (u = t)) as [->|Ne]; [by right|left]. exists p. by rewrite list_lookup_insert_ne.
  Qed.
  Lemma doomed_exec x h y ph h0 t p : exec nstep x h y -> INV ph h0 x -> ph <> PEmpty -> pcs x !! t = Some p -> doomed p ->
    Forall (fun e => doer e <> t) h -> exists q, pcs y !! t = Some q /\ doomed q.
  Proof.
    intros E I N Ep D. induction E as [|c c1 h c2 E IH St|c c1 h e c2 E IH St]; intros F.
    - by exists p.
    - destruct (IH I Ep F) as (q & Eq & Dq). destruct (inv_exec _ _ _ _ _ E I) as (ph1 & I1 & K).
      destruct (doomed_step _ _ _ _ _ _ _ I1 (K N) St Eq Dq) as [?|?]; [done|congruence].
    - apply Forall_app in F as [F1 F2]. apply Forall_inv in F2.
      destruct (IH I Ep F1) as (q & Eq & Dq). destruct (inv_exec _ _ _ _ _ E I) as (ph1 & I1 & K).
      destruct (doomed_step _ _ _ _ _ _ _ I1 (K N) St Eq Dq) as [?|[= ->]]; [done|by destruct F2].
  Qed.
  Lemma doomed_start o : searches o -> doomed (start o).
  Proof. by destruct o. Qed.

  (** alone: down the levels *)
  Lemma silent_go m ps t p m' p' : ps !! t = Some p -> running p = true -> ~ compares m p -> tstep dummy m p 1 = Ok (m', p') ->
    nstep (Sys m ps) None (Sys m' (<[t := p']> ps)).
  Proof. intros A B C D. eapply n_silent; [exact A|exact B| |exact C|exact D]. split; vm_compute; lia. Qed.
  Lemma no_compare_load m k v a b l prev : ~ compares m (Find k v a b (PLoad l prev) : pc T).
  Proof. intros (? & ? & ? & ? & ? & ? & ? & ? & ? & ? & _). congruence. Qed.
  Lemma no_compare_tail m k v a b l prev : ~ compares m (Find k v a b (PCur l prev (Some tail)) : pc T).
  Proof. intros (? & ? & ? & ? & ? & ? & ? & ? & ? & E & _ & F & _). injection E. intros. by subst. Qed.
  Lemma exec_cons_silent x y h z : nstep x None y -> exec nstep y h z -> exec nstep x h z.
  Proof.
    intros S E. induction E as [|c c1 h c2 E IH St|c c1 h e c2 E IH St]; [eapply exec_silent; [apply exec_nil|done]|eapply exec_silent; eauto|eapply exec_event; eauto].
  Qed.
  Lemma alone_panics ph m t k v : heap_ok ph (heap m) -> ph <> PEmpty -> forall l ps a b, l < max_level ->
    ps !! t = Some (Find k v a b (PLoad l (Some head))) ->
    exists ps', exec nstep (Sys m ps) [Abandoned t] (Sys m ps') /\ ps' = <[t := Quiet]> ps.
  Proof.
    intros VH N l. induction l as [|l IH]; intros ps a b L Ep; pose proof (lookup_lt_Some _ _ _ Ep) as Lt;
      destruct (head_link _ _ _ VH L) as (c & E1 & [->|E2] & E3).
    - destruct (E3 eq_refl); [done|lia].
    - eexists. split; [|done]. eapply exec_cons_silent.
      + eapply silent_go; [exact Ep|done|apply no_compare_load|]. cbn [tstep]. rewrite E1. reflexivity.
      + apply (exec_event _ _ _ [] _ _ (exec_nil _ _)). rewrite <- (list_insert_insert ps t Quiet (Find k v a b (PCur 0 (Some head) (Some c)))).
        eapply n_panic; [by apply list_lookup_insert|]. by apply (at_node (heap m)).
    - set (ps1 := <[t := Find k v a b (PCur (S l) (Some head) (Some tail)) : pc T]> ps).
      set (ps2 := <[t := Find k v (<[S l := Some head]> a) (<[S l := Some tail]> b) (PLoad l (Some head)) : pc T]> ps1).
      destruct (IH ps2 (<[S l := Some head]> a) (<[S l := Some tail]> b)) as (ps' & E & ->); [lia|apply list_lookup_insert; unfold ps1; by rewrite insert_length|].
      eexists. split; [|done]. eapply exec_cons_silent; [|eapply exec_cons_silent].
      + eapply silent_go; [exact Ep|done|apply no_compare_load|]. cbn [tstep]. rewrite E1. reflexivity.
      + eapply (silent_go _ ps1 t (Find k v a b (PCur (S l) (Some head) (Some tail)))); [apply list_lookup_insert; exact Lt|done|apply no_compare_tail|]. cbn [tstep].
        rewrite (tail_link _ _ _ VH L). cbn [rbind is_marked snd]. unfold less. rewrite decide_False by done. rewrite decide_True by done. reflexivity.
      + fold ps1. fold ps2. replace (<[t := Quiet]> ps) with (<[t := Quiet]> ps2); [exact E|]. unfold ps2, ps1. by rewrite !list_insert_insert.
    - eexists. split; [|done]. eapply exec_cons_silent.
      + eapply silent_go; [exact Ep|done|apply no_compare_load|]. cbn [tstep]. rewrite E1. reflexivity.
      + apply (exec_event _ _ _ [] _ _ (exec_nil _ _)). rewrite <- (list_insert_insert ps t Quiet (Find k v a b (PCur (S l) (Some head) (Some c)))).
        eapply n_panic; [by apply list_lookup_insert|]. by apply (at_node (heap m)).
  Qed.

  (** ** Nobody is stuck *)
  Lemma can_move ph h m ps t p : INV ph h (Sys m ps) -> ps !! t = Some p -> p <> Quiet ->
    exists e m' p', nstep (Sys m ps) e (Sys m' (<[t := p']> ps)).
  Proof.
    intros I Ep N. pose proof (v_heap _ _ _ I) as VH. cbn in VH.
    assert (Go : running p = true -> ~ compares m p -> (exists m' p', tstep dummy m p 1 = Ok (m', p')) ->
      exists e m' p', nstep (Sys m ps) e (Sys m' (<[t := p']> ps))).
    { intros A B (m' & p' & E). exists None, m', p'. by eapply silent_go. }
    destruct (v_pcs _ _ _ I t p Ep) as [->|(o & Co & K)]; [done|].
    destruct p as [|k v a b pp|v new a b|l v new a b| | | | | | |r]; try done.
    - destruct pp as [l [prev|]|l [prev|] [c|]|]; try done; cbn in K.
      + destruct K as (K1 & K2 & -> & K3). apply Go; [done|apply no_compare_load|]. destruct (head_link _ _ l VH K2) as (c & E1 & _).
        cbn [tstep]. rewrite E1. by eexists _, _.
      + destruct K as (K1 & K2 & -> & K3 & [->|K4]).
        2:{ exists (Some (Abandoned t)), m, Quiet. eapply n_panic; [exact Ep|]. by apply (at_node (heap m)). }
        apply Go; [done|apply no_compare_tail|]. cbn [tstep]. rewrite (tail_link _ _ l VH K2). cbn [rbind is_marked snd].
        unfold less. rewrite decide_False by done. rewrite decide_True by done. cbn [rbind].
        destruct l as [|l]; [|by eexists _, _].
        destruct k; cbn in K1; try done; cbn [found]; unfold equals; rewrite ?decide_True by auto; cbn [rbind]; cbv zeta; try by eexists _, _.
        destruct VH as (Ht & _). cbn [deref rbind]. rewrite Ht. by eexists _, _.
    - destruct K as (-> & (A & B & C) & Ln & tp & u & En & Ltp). apply Go; [done|by intros (? & ? & ? & ? & ? & ? & ? & ? & ? & ? & _)|].
      destruct (C 0) as [C1 C2]; [vm_compute; lia|]. cbn [tstep]. rewrite C1, C2. cbn [deref rbind]. cbn [shared] in En.
      destruct VH as (Ht & hl & Hh & Hll & M). destruct (lookup_lt_is_Some_2 hl 0) as [y Ey]; [rewrite Hll; vm_compute; lia|].
      rewrite (cas_eq _ _ _ 0 y _ Hh Ey). case_decide; cbn [rbind]; [|by eexists _, _].
      rewrite list_lookup_insert_ne by (unfold head; lia). rewrite En. by eexists _, _.
    - destruct K as (-> & -> & (A & B & C) & Ln & tp & u & En & Ltp). apply Go; [done|by intros (? & ? & ? & ? & ? & ? & ? & ? & ? & ? & _)|].
      destruct (C l) as [C1 C2]; [lia|]. cbn [tstep]. rewrite C1, C2. cbn [deref rbind]. cbn [shared] in En.
      destruct VH as (Ht & hl & Hh & Hll & M). destruct (lookup_lt_is_Some_2 hl l) as [y Ey]; [rewrite Hll; lia|].
      rewrite (cas_eq _ _ _ l y _ Hh Ey). case_decide; cbn [rbind]; [|by eexists _, _].
      rewrite list_lookup_insert_ne by (unfold head; lia). rewrite En. by eexists _, _.
    - apply Go; [done|by intros (? & ? & ? & ? & ? & ? & ? & ? & ? & ? & _)|by eexists _, _].
    - apply Go; [done|by intros (? & ? & ? & ? & ? & ? & ? & ? & ? & ? & _)|by eexists _, _].
    - apply Go; [done|by intros (? & ? & ? & ? & ? & ? & ? & ? & ? & ? & _)|]. cbn [tstep]. cbv zeta. case_decide; by eexists _, _.
    - exists (Some (Did (Return t r))), m, Quiet. apply n_call_return. by apply s_return.
  Qed.

  (** ** Calls on the empty list *)
  Lemma alone_descends m t k v : heap_ok PEmpty (heap m) -> forall l ps a b, l < max_level -> arr_ok (S l) a b ->
    ps !! t = Some (Find k v a b (PLoad l (Some head))) ->
    exists a' b', arr_ok 1 a' b' /\ exec nstep (Sys m ps) [] (Sys m (<[t := Find k v a' b' (PCur 0 (Some head) (Some tail))]> ps)).
  Proof.
    intros VH l. assert (HL : forall l, l < max_level -> load_next (heap m) (Some head) l = Ok (Some tail, false)).
    { intros l' L'. destruct VH as (_ & hl & Hh & _ & M). rewrite (load_eq _ _ _ l' Hh). cbn [nexts]. pose proof (M l' L') as M'. unfold link in *. by rewrite M'. }
    induction l as [|l IH]; intros ps a b L A Ep; pose proof (lookup_lt_Some _ _ _ Ep) as Lt.
    - exists a, b. split; [done|]. eapply exec_cons_silent; [|apply exec_nil].
      eapply silent_go; [exact Ep|done|apply no_compare_load|]. cbn [tstep]. rewrite HL by done. reflexivity.
    - set (ps1 := <[t := Find k v a b (PCur (S l) (Some head) (Some tail)) : pc T]> ps).
      set (ps2 := <[t := Find k v (<[S l := Some head]> a) (<[S l := Some tail]> b) (PLoad l (Some head)) : pc T]> ps1).
      destruct (IH ps2 (<[S l := Some head]> a) (<[S l := Some tail]> b)) as (a' & b' & A' & E); [lia|by apply arr_ok_put|apply list_lookup_insert; unfold ps1; by rewrite insert_length|].
      exists a', b'. split; [done|]. eapply exec_cons_silent; [|eapply exec_cons_silent].
      + eapply silent_go; [exact Ep|done|apply no_compare_load|]. cbn [tstep]. rewrite HL by done. reflexivity.
      + eapply (silent_go _ ps1 t (Find k v a b (PCur (S l) (Some head) (Some tail)))); [apply list_lookup_insert; exact Lt|done|apply no_compare_tail|]. cbn [tstep].
        rewrite (tail_link _ _ _ VH L). cbn [rbind is_marked snd]. unfold less. rewrite decide_False by done. rewrite decide_True by done. reflexivity.
      + fold ps1. fold ps2. unfold ps2, ps1 in E |- *. rewrite !list_insert_insert in E. rewrite !list_insert_insert. exact E.
  Qed.
  Lemma no_compare_other m (p : pc T) : (forall k v a b pp, p <> Find k v a b pp) -> ~ compares m p.
  Proof. intros N (k & v & a & b & l & prev & c & nd & next & -> & _). by eapply N. Qed.
  (** the last step of a call and its return *)
  Lemma finish m ps t p r m' : ps !! t = Some p -> running p = true -> ~ compares m p -> tstep dummy m p 1 = Ok (m', Ready r) ->
    exec nstep (Sys m ps) [Did (Return t r)] (Sys m' (<[t := Quiet]> ps)).
  Proof.
    intros A B C D. eapply exec_cons_silent; [by eapply silent_go|]. apply (exec_event _ _ _ [] _ _ (exec_nil _ _)).
    rewrite <- (list_insert_insert ps t Quiet (Ready r)). apply n_call_return, s_return. apply list_lookup_insert. by apply lookup_lt_Some in A.
  Qed.
  Lemma silent_app x y h z : exec nstep x [] y -> exec nstep y h z -> exec nstep x h z.
  Proof.
    intros E F. induction F as [|c c1 h c2 F IH St|c c1 h e c2 F IH St]; [done|eapply exec_silent; eauto|eapply exec_event; eauto].
  Qed.
  Lemma empty_call m ps t o : heap_ok PEmpty (heap m) -> size m = 0%Z -> ps !! t = Some Quiet ->
    exists r m', exec nstep (Sys m (<[t := start o]> ps)) [Did (Return t r)] (Sys m' (<[t := Quiet]> ps)).
  Proof.
    intros VH VS Ep. pose proof (lookup_lt_Some _ _ _ Ep) as Lt. assert (L : max_level - 1 < max_level) by (vm_compute; lia).
    assert (Des : forall k v, exists a b, arr_ok 1 a b /\
      exec nstep (Sys m (<[t := find_start k v no_nodes no_nodes]> ps)) [] (Sys m (<[t := Find k v a b (PCur 0 (Some head) (Some tail))]> ps))).
    { intros k v. destruct (alone_descends m t k v VH (max_level - 1) (<[t := find_start k v no_nodes no_nodes]> ps) no_nodes no_nodes L) as (a & b & A & E).
      - apply arr_ok_none.
      - by apply list_lookup_insert.
      - exists a, b. split; [done|]. by rewrite list_insert_insert in E. }
    assert (Dn : forall k v a b, tstep dummy m (Find k v a b (PCur 0 (Some head) (Some tail))) 1 =
      found dummy m k v (<[0 := Some head]> a) (<[0 := Some tail]> b) (Some tail) 1).
    { intros k v a b. cbn [tstep]. rewrite (tail_link _ _ 0 VH) by (vm_compute; lia). cbn [rbind is_marked snd].
      unfold less. rewrite decide_False by done. rewrite decide_True by done. reflexivity. }
    assert (Fin : forall k v r a b, found dummy m k v (<[0 := Some head]> a) (<[0 := Some tail]> b) (Some tail) 1 = Ok (m, Ready r) ->
      exec nstep (Sys m (<[t := Find k v a b (PCur 0 (Some head) (Some tail))]> ps)) [Did (Return t r)] (Sys m (<[t := Quiet]> ps))).
    { intros k v r a b F. rewrite <- (list_insert_insert ps t Quiet (Find k v a b (PCur 0 (Some head) (Some tail)))).
      eapply finish; [by apply list_lookup_insert|done|apply no_compare_tail|]. by rewrite Dn. }
    assert (Eq : forall v, equals dummy (heap m) (Some tail) v = Ok false). { intros v. unfold equals. by rewrite decide_True by auto. }
    destruct o as [v|v|v|v|v|]; cbn [start].
    - destruct (Des ForAdd v) as (a & b & A & E). set (p1 := Find ForAdd v a b (PCur 0 (Some head) (Some tail)) : pc T) in *.
      set (a1 := <[0 := Some head]> a) in *. set (b1 := <[0 := Some tail]> b). pose proof (arr_ok_put 0 a b ltac:(vm_compute; lia) A) as A1. fold a1 b1 in A1.
      pose proof VH as (Ht & hl & Hh & Hl & M).
      set (w := length (heap m)). set (h1 := heap m ++ [make_node 1 v b1]).
      assert (Hw : h1 !! w = Some (make_node 1 v b1)). { unfold h1, w. rewrite lookup_app_r by lia. by rewrite Nat.sub_diag. }
      assert (Hh1 : h1 !! head = Some (Node max_level hl zero)) by (by apply lookup_app_l_Some).
      assert (Lw : 0 < w). { apply lookup_lt_Some in Hh. unfold w. lia. }
      set (h2 := <[head := Node max_level (<[0 := (Some w, false)]> hl) zero]> h1).
      exists (RBool true), (Mem h2 (to_int32 (size m + 1))).
      eapply silent_app; [exact E|].
      eapply exec_cons_silent; [|eapply exec_cons_silent].
      + eapply (silent_go m _ t p1 (Mem h1 (size m)) (AddCas v w a1 b1)); [by apply list_lookup_insert|done|apply no_compare_tail|]. unfold p1. rewrite Dn.
        cbn [found]. by rewrite Eq.
      + eapply (silent_go _ _ t (AddCas v w a1 b1) (Mem h2 (size m)) AddInc); [apply list_lookup_insert; by rewrite insert_length|done|by apply no_compare_other|].
        destruct A1 as (_ & _ & C). destruct (C 0) as [C1 C2]; [vm_compute; lia|]. cbn [tstep]. rewrite C1, C2. cbn [deref rbind heap].
        rewrite (cas_eq _ _ _ 0 (Some tail, false) _ Hh1) by (apply M; vm_compute; lia). rewrite decide_True by done. cbn [rbind level nexts value]. fold h2.
        assert (Hw2 : h2 !! w = Some (make_node 1 v b1)) by (unfold h2, head; by rewrite list_lookup_insert_ne by lia). match goal with |- rbind (deref ?X) _ = _ => replace X with (Some (make_node 1 v b1)) by (symmetry; exact Hw2) end. done.
      + rewrite !list_insert_insert. rewrite <- (list_insert_insert ps t Quiet AddInc).
        eapply (finish _ _ t AddInc); [by apply list_lookup_insert|done|by apply no_compare_other|done].
    - destruct (Des ForDel v) as (a & b & A & E). exists (RBool false), m. eapply silent_app; [exact E|]. apply Fin. cbn [found]. by rewrite Eq.
    - destruct (Des ForHas v) as (a & b & A & E). exists (RBool false), m. eapply silent_app; [exact E|]. apply Fin. cbn [found]. by rewrite Eq.
    - destruct (Des ForGet v) as (a & b & A & E). exists (RVal zero), m. eapply silent_app; [exact E|]. apply Fin. cbn [found deref rbind].
      destruct VH as (Ht & _). by rewrite Ht.
    - exists (RInt 0), m. rewrite <- (list_insert_insert ps t Quiet (RankLoad v)).
      eapply finish; [by apply list_lookup_insert|done|by apply no_compare_other|]. cbn [tstep]. cbv zeta. rewrite VS. by rewrite decide_True.
    - exists (RInt 0), m. rewrite <- (list_insert_insert ps t Quiet LenLoad).
      eapply finish; [by apply list_lookup_insert|done|by apply no_compare_other|]. cbn [tstep]. by rewrite VS.
  Qed.
End lf.
