(** Skip list: insert and deleteNode on the representation. *)
From Verif Require Import Base Iter_Model Iter_Spec SkipList_Model SkipList_Spec SkipList_Proofs SkipList_Proofs2.

(** ** the level law *)
Lemma level_loop_spec k m : forall f j, (0 <= k)%Z -> m < f ->
  exists m', m' <= m /\ level_loop f (2 ^ Z.of_nat m - 1) (2 ^ Z.of_nat m) k j = j + (m - m') /\
    (2 ^ Z.of_nat m' - 1 <= k)%Z /\ (m' < m -> (k < 2 ^ Z.of_nat (S m') - 1)%Z).
Proof.
  induction m as [|m IH]; intros f j Hk Hf; (destruct f as [|f]; [lia|]); cbn [level_loop].
  - exists 0. rewrite decide_False by (cbn; lia). splits; [lia|lia|cbn; lia|lia].
  - destruct (decide (2 ^ Z.of_nat (S m) - 1 > k)%Z) as [Hd|Hd].
    + assert (E2 : (2 ^ Z.of_nat (S m) = 2 * 2 ^ Z.of_nat m)%Z).
      { rewrite Nat2Z.inj_succ, Z.pow_succ_r by lia. done. }
      assert (E1 : Z.shiftr (2 ^ Z.of_nat (S m)) 1 = (2 ^ Z.of_nat m)%Z).
      { rewrite Z.shiftr_div_pow2 by lia. rewrite E2. rewrite Z.mul_comm. apply Z.div_mul. lia. }
      cbv zeta. rewrite E1. replace (2 ^ Z.of_nat (S m) - 1 - 2 ^ Z.of_nat m)%Z with (2 ^ Z.of_nat m - 1)%Z by lia.
      destruct (IH f (j + 1) Hk ltac:(lia)) as (m' & Hm & E & H1 & H2).
      exists m'. splits; [lia|rewrite E; lia|done|].
      intros Hlt. destruct (decide (m' = m)) as [->|]; [lia|]. apply H2. lia.
    + exists (S m). splits; [lia|lia|lia|lia].
Qed.
Lemma random_level_spec u : exists m, m <= 31 /\ random_level u = 32 - m /\
  (2 ^ Z.of_nat m - 1 <= u mod (2 ^ 32 - 1))%Z /\ (m < 31 -> (u mod (2 ^ 32 - 1) < 2 ^ Z.of_nat (S m) - 1)%Z).
Proof.
  unfold random_level. cbv zeta.
  assert (0 <= u mod (2 ^ 32 - 1))%Z as Hk by (apply Z.mod_pos_bound; lia).
  destruct (level_loop_spec (u mod (2 ^ 32 - 1)) 31 64 1 Hk) as (m & Hm & E & H1 & H2); [lia|].
  exists m. splits; [lia| |done|done].
  change (2 ^ 32 - 1 - 2 ^ 31)%Z with (2 ^ Z.of_nat 31 - 1)%Z. change (2 ^ 31)%Z with (2 ^ Z.of_nat 31)%Z.
  rewrite E. lia.
Qed.
Lemma random_level_range u : 1 <= random_level u <= max_level.
Proof. destruct (random_level_spec u) as (m & Hm & -> & _). unfold max_level. lia. Qed.

Section ins.
  Context {K V : Type} (comp : K -> K -> Z).
  Implicit Types (h : heap K V) (s : slist K V) (ns : list nat).
  Notation hts h := (fun l => ht (h l)).
  Notation arrays := ((nat -> option nat) * (nat -> Z))%type.

  Lemma linked_ok_ext h h' n hd ns :
    (forall l, l ∈ hd :: ns -> ht (h' l) = ht (h l) /\ forall i, i < n -> lnk h' l i = lnk h l i) ->
    linked_ok h n hd ns -> linked_ok h' n hd ns.
  Proof.
    intros E HL C x R EX i Hi Hn.
    assert (Hx : x ∈ hd :: ns) by (rewrite EX; apply elem_of_app; right; left).
    change (lnk h' x i = nx (hts h') i R). destruct (E x Hx) as [E1 E2]. rewrite E2 by done.
    rewrite (nx_ext (hts h') (hts h)).
    - apply (HL C x R EX); [by rewrite <- E1|done].
    - intros l Hl. apply E. rewrite EX. apply elem_of_app. right. by right.
  Qed.

  (** lines 294-302 *)
  Lemma raise_loop s lv a : ht (hp s (hdr s)) = max_level -> lv <= max_level ->
    exists h1 a1, for_up (lv - level s) (level s) (raise_body s) (hp s, a) = Ok (h1, a1) /\
      same_but_links (hp s) h1 /\
      (forall y j, lnk h1 y j = if decide (level s <= j < lv /\ y = hdr s) then ((lnk (hp s) y j).1, size s) else lnk (hp s) y j) /\
      (forall j, a1.1 j = if decide (level s <= j < lv) then Some (hdr s) else a.1 j) /\
      (forall j, a1.2 j = if decide (level s <= j < lv) then 0%Z else a.2 j).
  Proof.
    intros Hh Hlv. destruct (for_up_inv (fun k (st : heap K V * arrays) => let '(h1, a1) := st in
      same_but_links (hp s) h1 /\
      (forall y j, lnk h1 y j = if decide (level s <= j < k /\ y = hdr s) then ((lnk (hp s) y j).1, size s) else lnk (hp s) y j) /\
      (forall j, a1.1 j = if decide (level s <= j < k) then Some (hdr s) else a.1 j) /\
      (forall j, a1.2 j = if decide (level s <= j < k) then 0%Z else a.2 j))
      (raise_body s) (lv - level s) (level s) (hp s, a)) as ([h1 a1] & E & HJ).
    - intros k [h b] Hk (HS & HL & H1 & H2). unfold raise_body.
      destruct (wr_span_ok h (hdr s) k (size s)) as (h' & -> & S' & L'); [destruct (HS (hdr s)) as (_ & _ & _ & ->); rewrite Hh; lia|].
      cbn [rbind]. eexists. split; [done|]. cbn [fst snd]. splits.
      + eapply same_trans; eassumption.
      + intros y j. rewrite L'. change (fwd (h y) j) with (lnk h y j).1. rewrite HL.
        repeat case_decide; try done; exfalso; naive_solver lia.
      + intros j. destruct (decide (j = k)) as [->|Hj].
        * rewrite fn_lookup_insert, decide_True by lia. done.
        * rewrite fn_lookup_insert_ne by done. rewrite H1. repeat case_decide; try done; lia.
      + intros j. destruct (decide (j = k)) as [->|Hj].
        * rewrite fn_lookup_insert, decide_True by lia. done.
        * rewrite fn_lookup_insert_ne by done. rewrite H2. repeat case_decide; try done; lia.
    - splits; [apply same_refl| | |]; intros; rewrite decide_False by lia; done.
    - exists h1, a1. split; [done|]. destruct HJ as (HS & HL & H1 & H2).
      destruct (decide (level s <= lv)) as [Hle|Hgt].
      + replace (level s + (lv - level s)) with lv in * by lia. done.
      + replace (lv - level s) with 0 in * by lia. splits; [done| | |].
        * intros y j. rewrite HL. rewrite !decide_False by lia. done.
        * intros j. rewrite H1. rewrite !decide_False by lia. done.
        * intros j. rewrite H2. rewrite !decide_False by lia. done.
  Qed.

  Lemma last_cons_snoc {A} (x : A) L E y : x :: L = E ++ [y] -> y = default x (last L).
  Proof.
    destruct L as [|l L _] using rev_ind.
    - destruct E as [|e E]; [by intros [= ->]|]. cbn. intros [= _ E2]. by destruct E.
    - rewrite last_snoc. cbn. change (x :: L ++ [l]) with ((x :: L) ++ [l]). intros E2%app_inj_2; [|done].
      by destruct E2 as [_ [= ->]].
  Qed.

  Lemma insert_ok s ns k v unique draw fuel : repr s ns -> length ns < fuel ->
    exists s' A B, insert comp fuel s k v unique draw = Ok (true, s') /\ ns = A ++ B /\
      repr s' (A ++ brk s :: B) /\ hdr s' = hdr s /\
      key (hp s' (brk s)) = k /\ val (hp s' (brk s)) = v /\
      (forall l, l <> brk s -> key (hp s' l) = key (hp s l) /\ val (hp s' l) = val (hp s l)) /\
      match last A with Some z => comp (key (hp s z)) k = 0%Z | None => True end /\
      match head B with Some z => comp (key (hp s z)) k <> 0%Z | None => True end.
  Proof.
    intros HR Hf. destruct (descend_full s ns HR (fun k' => bool_decide (comp k' k = 0%Z)) fuel Hf)
      as (A & B & x0 & a & E & ED & EN & EE & HA & HB & HArr & _).
    unfold insert. rewrite ED. cbn [rbind].
    pose proof (r_lv _ _ HR) as HLv. pose proof (r_hdr _ _ HR) as HH. pose proof (r_ht _ _ HR) as Hht.
    pose proof (r_nodup _ _ HR) as ND. pose proof (r_brk _ _ HR) as Hbrk.
    assert (HA1 : Forall (fun l => 1 <= ht (hp s l)) A).
    { rewrite EN in Hht. apply Forall_app in Hht as [F _]. eapply Forall_impl; [exact F|]. cbn. lia. }
    assert (Eu0 : a.1 0 = Some x0).
    { destruct (HArr 0 ltac:(lia)) as (C & u & D & E1 & E2 & _ & _ & L0). rewrite E2. f_equal.
      destruct D as [|d D].
      - rewrite EE in E1. apply app_inj_2 in E1; [|done]. by destruct E1 as [_ [= ->]].
      - apply Forall_cons in L0 as [L0 _]. assert (d ∈ A) as Hd.
        { destruct C as [|c C]; cbn in E1; injection E1 as _ E1; rewrite E1; [left|apply elem_of_app; right; right; left]. }
        rewrite Forall_forall in HA1. apply HA1 in Hd. lia. }
    rewrite Eu0. cbn [deref rbind].
    destruct (fwd0_of s ns HR A B x0 E EN EE) as [Ef0 Hx0]. rewrite Ef0. cbn [rbind].
    assert (Hdup : match head B with Some y => bool_decide (comp (key (hp s y)) k = 0%Z) | None => false end = false)
      by (destruct B as [|z B]; [done|]; exact HB).
    rewrite Hdup, andb_false_r. cbv zeta. set (lv := random_level draw). pose proof (random_level_range draw) as Hrl. fold lv in Hrl.
    destruct (raise_loop s lv a HH) as (h1 & a1 & -> & S1 & L1 & A1 & R1); [lia|]. cbn [rbind].
    set (n := level s `max` lv). set (x := brk s).
    assert (Hxn : x ∉ hdr s :: ns).
    { intros Hx. rewrite Forall_forall in Hbrk. apply Hbrk in Hx. unfold x in Hx. lia. }
    assert (Hlow_all : forall i L, level s <= i -> (forall l, l ∈ L -> l ∈ ns) -> low (hts (hp s)) i L).
    { intros i L Hi HL. apply Forall_forall. intros l Hl%HL. rewrite Forall_forall in Hht. apply Hht in Hl. lia. }
    assert (HArr1 : forall i, i < n -> arr_at (hp s) a1 (hdr s :: A) i).
    { intros i Hi. destruct (decide (i < level s)) as [Hil|Hil].
      - destruct (HArr i Hil) as (C & u & D & ? & ? & ? & ? & ?). exists C, u, D. rewrite A1, R1. rewrite !decide_False by lia. done.
      - exists [], (hdr s), A. rewrite A1, R1. rewrite !decide_True by lia. splits; try done; [rewrite HH; lia|].
        apply Hlow_all; [lia|]. intros l Hl. rewrite EN. apply elem_of_app. by left. }
    (* the heap with the fresh node *)
    set (h2 := <[x := new_node lv k v]> h1).
    assert (H2o : forall l, l <> x -> h2 l = h1 l) by (intros l Hl; unfold h2; by rewrite fn_lookup_insert_ne).
    assert (H2x : h2 x = new_node lv k v) by (unfold h2; by rewrite fn_lookup_insert).
    assert (Hhts : forall l, l <> x -> ht (h2 l) = ht (hp s l)).
    { intros l Hl. rewrite H2o by done. by destruct (S1 l) as (_ & _ & _ & ->). }
    assert (Hinx : forall l, l ∈ hdr s :: ns -> l <> x) by (intros l Hl ->; done).
    assert (HAin : forall l, l ∈ hdr s :: A -> l ∈ hdr s :: ns).
    { intros l [->|Hl]%elem_of_cons; [left|right]. rewrite EN. apply elem_of_app. by left. }
    assert (HL2 : linked_ok h2 n (hdr s) ns).
    { intros C y R EX i Hi Hn.
      assert (Hy : y ∈ hdr s :: ns) by (rewrite EX; apply elem_of_app; right; left).
      change (lnk h2 y i = nx (hts h2) i R).
      rewrite (nx_ext (hts h2) (hts (hp s))).
      2: { intros l Hl. apply Hhts, Hinx. rewrite EX. apply elem_of_app. right. by right. }
      rewrite Hhts in Hi by auto. unfold lnk at 1. rewrite H2o by auto. fold (lnk h1 y i). rewrite L1.
      destruct (decide (i < level s)) as [Hil|Hil].
      - rewrite decide_False by lia. apply (r_links _ _ HR C y R EX); done.
      - assert (y = hdr s) as ->.
        { apply elem_of_cons in Hy as [->|Hy]; [done|]. rewrite Forall_forall in Hht. apply Hht in Hy. lia. }
        rewrite decide_True by (split; [lia|done]). destruct (split_unique (hdr s) [] ns C R) as [<- <-]; [exact ND|exact EX|].
        rewrite nx_low by (apply Hlow_all; [lia|done]). cbn. rewrite (r_top _ _ HR i) by lia. rewrite (r_size _ _ HR). done. }
    set (u := fun j => default 0 (a1.1 j)).
    assert (Hu : forall j, j < n -> a1.1 j = Some (u j)).
    { intros j Hj. unfold u. destruct (HArr1 j Hj) as (C & u' & D & _ & -> & _). done. }
    assert (HuA : forall j, j < n -> u j ∈ hdr s :: A).
    { intros j Hj. destruct (HArr1 j Hj) as (C & u' & D & E1 & E2 & _). rewrite Hu in E2 by done. injection E2 as ->.
      rewrite E1. apply elem_of_app. right. left. }
    assert (Hux : forall j, j < n -> u j <> x) by (intros j Hj; auto).
    assert (Hh2u : forall j, j < n -> j < ht (h2 (u j))).
    { intros j Hj. rewrite Hhts by auto. destruct (HArr1 j Hj) as (C & u' & D & _ & E2 & _ & E3 & _).
      rewrite Hu in E2 by done. injection E2 as ->. done. }
    destruct (link_loop a1 u n h2 Hu Hh2u x lv) as (h3 & -> & S3 & L3); [lia|by rewrite H2x|done|]. cbn [rbind].
    destruct (bump_loop a1 u n h3 Hu) with (lv := lv) as (h4 & -> & S4 & L4); [|lia|].
    { intros j Hj. destruct (S3 (u j)) as (_ & _ & _ & ->). auto. }
    cbn [rbind].
    assert (Eu0' : a1.1 0 = Some x0) by (rewrite A1, decide_False by lia; done).
    rewrite Eu0'. cbn [deref rbind].
    pose proof (same_trans _ _ _ S3 S4) as S24.
    assert (Hd : forall j, j < n -> exists C D, hdr s :: A = C ++ u j :: D /\ j < ht (h2 (u j)) /\ low (hts h2) j D /\
                   (a1.2 0%nat - a1.2 j)%Z = Z.of_nat (length D)).
    { intros j Hj. destruct (arr_pos (hp s) a1 (hdr s) A j HA1 (HArr1 0 ltac:(lia)) (HArr1 j Hj) (u j) (Hu j Hj)) as (C & D & E1 & E2 & E3 & E4).
      exists C, D. splits; try done; [by auto|]. eapply low_ext; [|exact E3]. intros l Hl. symmetry. apply Hhts, Hinx, HAin.
      rewrite E1. apply elem_of_app. right. by right. }
    assert (HL4 : linked_ok h4 n (hdr s) (A ++ x :: B)).
    { rewrite EN in HL2. apply (insert_links h2 h4 u (fun j => Z.to_nat (a1.2 0%nat - a1.2 j)) n lv); try done.
      - lia.
      - by rewrite <- EN.
      - by rewrite <- EN.
      - intros y. destruct (S24 y) as (_ & _ & _ & ->). destruct (decide (y = x)) as [Hy|Hy]; [by rewrite Hy, H2x|done].
      - intros j Hj. destruct (Hd j Hj) as (C & D & E1 & E2 & E3 & E4). exists C, D. splits; try done. rewrite E4. lia.
      - intros y j Hj Hy. rewrite L4, L3. destruct (Hd j Hj) as (C & D & _ & _ & _ & E4).
        destruct (decide (y = u j)) as [->|Hyu].
        + destruct (decide (j < lv)) as [Hjl|Hjl].
          * rewrite (decide_False (P := lv <= j < n /\ _)) by lia. rewrite (decide_False (P := u j = x)) by auto.
            f_equal. lia.
          * rewrite (decide_True (P := lv <= j < n /\ _)) by (split; [lia|done]). done.
        + rewrite (decide_False (P := lv <= j < n /\ _)) by naive_solver. rewrite (decide_False (P := y = x)) by done.
          destruct (decide (j < lv)); done.
      - intros j Hj. rewrite L4. rewrite decide_False by lia. rewrite L3. rewrite decide_True by done. rewrite decide_True by done.
        f_equal. destruct (Hd j ltac:(lia)) as (C & D & _ & _ & _ & E4). lia. }
    assert (Hx4 : ht (h4 x) = lv) by (destruct (S24 x) as (_ & _ & _ & ->); by rewrite H2x).
    set (h5 := wr x (set_back (if decide (x0 = hdr s) then None else Some x0)) h4).
    assert (H5 : forall l, key (h5 l) = key (h4 l) /\ val (h5 l) = val (h4 l) /\ ht (h5 l) = ht (h4 l) /\
                   fwd (h5 l) = fwd (h4 l) /\ span (h5 l) = span (h4 l) /\
                   back (h5 l) = if decide (l = x) then (if decide (x0 = hdr s) then None else Some x0) else back (h4 l)).
    { intros l. unfold h5, wr. destruct (decide (l = x)) as [->|Hl]; [by rewrite fn_lookup_insert|by rewrite fn_lookup_insert_ne]. }
    rewrite rd_fwd_ok by (destruct (H5 x) as (_ & _ & -> & _); lia). cbn [rbind].
    assert (Ehd : (lnk h5 x 0).1 = head B).
    { unfold lnk. cbn [fst]. destruct (H5 x) as (_ & _ & _ & -> & _).
      pose proof (HL4 (hdr s :: A) x B eq_refl 0 ltac:(lia) ltac:(lia)) as L.
      destruct B as [|z B]; cbn in L; [by injection L|]. rewrite decide_True in L; [by injection L|].
      destruct (S24 z) as (_ & _ & _ & ->). rewrite Hhts by (apply Hinx; rewrite EN; right; apply elem_of_app; right; left).
      rewrite EN in Hht. apply Forall_app in Hht as [_ F]. apply Forall_cons in F as [F _]. lia. }
    rewrite Ehd.
    set (hf := match head B with Some y => wr y (set_back (Some x)) h5 | None => h5 end).
    set (tf := match head B with Some y => tail s | None => Some x end).
    assert (Hfin : (let '(h, t) := match head B with Some y => (wr y (set_back (Some x)) h5, tail s) | None => (h5, Some x) end in
                    Ok (true, SList h (x + 1) (hdr s) t (size s + 1) n)) = Ok (true, SList hf (x + 1) (hdr s) tf (size s + 1) n)).
    { unfold hf, tf. by destruct (head B). }
    rewrite Hfin.
    assert (HF : forall l, key (hf l) = key (h4 l) /\ val (hf l) = val (h4 l) /\ ht (hf l) = ht (h4 l) /\
                   fwd (hf l) = fwd (h4 l) /\ span (hf l) = span (h4 l) /\
                   back (hf l) = if decide (Some l = head B) then Some x else back (h5 l)).
    { intros l. unfold hf. destruct (H5 l) as (<- & <- & <- & <- & <- & _). destruct (head B) as [z|]; [|done].
      unfold wr. destruct (decide (l = z)) as [->|Hl].
      - rewrite fn_lookup_insert. rewrite decide_True by done. done.
      - rewrite fn_lookup_insert_ne by done. rewrite decide_False by naive_solver. done. }
    assert (HFo : forall l, l <> x -> key (hf l) = key (hp s l) /\ val (hf l) = val (hp s l) /\ ht (hf l) = ht (hp s l) /\
                    (Some l <> head B -> back (hf l) = back (hp s l))).
    { intros l Hl. destruct (HF l) as (-> & -> & -> & _ & _ & ->). destruct (H5 l) as (_ & _ & _ & _ & _ & ->).
      destruct (S24 l) as (-> & -> & E1 & E2). rewrite E2, H2o by done. destruct (S1 l) as (-> & -> & E3 & ->). splits; try done.
      intros Hh. rewrite decide_False by done. rewrite decide_False by done. by rewrite E1, H2o, E3. }
    assert (HFx : key (hf x) = k /\ val (hf x) = v /\ ht (hf x) = lv).
    { destruct (HF x) as (-> & -> & -> & _). destruct (S24 x) as (-> & -> & _ & ->). by rewrite H2x. }
    eexists _, A, B. split; [reflexivity|]. split; [done|]. cbn [hp hdr]. fold x. splits; try done; try apply HFx; cycle 1.
    { intros l Hl. destruct (HFo l Hl) as (-> & -> & _). done. }
    { destruct HA as [->|HA]; [done|]. apply last_cons_snoc in EE. destruct (last A) as [z|] eqn:El; [|done]. cbn in EE. subst z.
      by apply bool_decide_eq_true in HA. }
    { destruct B as [|z B]; [done|]. cbn. by apply bool_decide_eq_false in HB. }
    assert (HhB : forall z, head B = Some z -> z ∈ ns).
    { intros z Hz. destruct B as [|b B]; [done|]. injection Hz as ->. rewrite EN. apply elem_of_app. right. left. }
    split; cbn [hp brk hdr tail size level].
    - change (hdr s :: A ++ x :: B) with ((hdr s :: A) ++ x :: B). rewrite <- Permutation_middle.
      change ((hdr s :: A) ++ B) with (hdr s :: A ++ B). rewrite <- EN. by constructor.
    - rewrite Forall_forall in Hbrk |- *. intros l Hl.
      assert (l = x \/ l ∈ hdr s :: ns) as [->|Hl2].
      { rewrite EN. rewrite elem_of_cons, elem_of_app, elem_of_cons in Hl. rewrite elem_of_cons, elem_of_app. tauto. }
      + unfold x. lia.
      + apply Hbrk in Hl2. unfold x. lia.
    - destruct (HFo (hdr s)) as (_ & _ & -> & _); [apply Hinx; left|done].
    - lia.
    - rewrite EN in Hht. apply Forall_app in Hht as [F1 F2]. apply Forall_app. split; [|constructor].
      + rewrite Forall_forall in F1 |- *. intros l Hl2. pose proof (F1 l Hl2) as Hl1. destruct (HFo l) as (_ & _ & -> & _); [apply Hinx, HAin; by right|lia].
      + destruct HFx as (_ & _ & ->). lia.
      + rewrite Forall_forall in F2 |- *. intros l Hl2. pose proof (F2 l Hl2) as Hl1. destruct (HFo l) as (_ & _ & -> & _); [apply Hinx; rewrite EN; right; apply elem_of_app; by right|lia].
    - intros i Hi. destruct (HF (hdr s)) as (_ & _ & _ & -> & _). change (fwd (h4 (hdr s)) i) with (lnk h4 (hdr s) i).1.
      rewrite L4, decide_False by lia. rewrite L3, decide_False by lia. unfold lnk. rewrite H2o by (apply Hinx; left).
      fold (lnk h1 (hdr s) i). rewrite L1, decide_False by lia. cbn. apply (r_top _ _ HR). lia.
    - eapply linked_ok_ext; [|exact HL4]. intros l _. destruct (HF l) as (_ & _ & -> & Ef & Es & _). split; [done|].
      intros i _. unfold lnk. by rewrite Ef, Es.
    - (* back pointers *)
      intros C y R EX. destruct (split_cases _ _ _ _ _ _ EX) as [(<- & <- & <-)|[(M & -> & EB)|(M & EA2 & ->)]].
      + destruct (HF x) as (_ & _ & _ & _ & _ & ->). rewrite decide_False by (intros Ex; symmetry in Ex; apply HhB in Ex; apply Hxn; by right).
        destruct (H5 x) as (_ & _ & _ & _ & _ & ->). rewrite decide_True by done. apply last_cons_snoc in EE.
        destruct (last A) as [z|] eqn:El; cbn in EE; subst x0; [|by rewrite decide_True].
        rewrite decide_False; [done|]. intros ->. apply last_Some in El as [A' ->].
        apply NoDup_cons in ND as [N _]. apply N. rewrite EN. apply elem_of_app. left. apply elem_of_app. right. left.
      + assert (Hyn : y ∈ ns) by (rewrite EN, EB; apply elem_of_app; right; apply elem_of_app; right; left).
        destruct M as [|m M].
        * destruct (HF y) as (_ & _ & _ & _ & _ & ->). rewrite EB. cbn. rewrite decide_True by done. by rewrite last_snoc.
        * destruct (HFo y) as (_ & _ & _ & ->); [apply Hinx; by right| |]; cycle 1.
          { intros Hh. rewrite EB in Hh. cbn in Hh. injection Hh as <-. rewrite EN, EB in ND. apply NoDup_cons in ND as [_ ND].
            apply NoDup_app in ND as (_ & _ & ND). cbn in ND. apply NoDup_cons in ND as [N _]. apply N. apply elem_of_app. right. left. }
          rewrite (r_back _ _ HR (A ++ m :: M) y R).
          { rewrite !last_app, last_cons_cons. destruct (last (m :: M)) eqn:El; [done|]. by apply last_None in El. }
          { rewrite EN, EB. by rewrite <- app_assoc. }
      + assert (Hyn : y ∈ ns) by (rewrite EN, EA2; apply elem_of_app; left; apply elem_of_app; right; left).
        destruct (HFo y) as (_ & _ & _ & ->); [apply Hinx; by right| |]; cycle 1.
        { intros Hh. destruct B as [|b B]; [done|]. injection Hh as <-. rewrite EN, EA2 in ND. apply NoDup_cons in ND as [_ ND].
          rewrite <- app_assoc in ND. apply NoDup_app in ND as (_ & _ & ND). cbn in ND. apply NoDup_cons in ND as [N _]. apply N. apply elem_of_app. right. left. }
        apply (r_back _ _ HR C y (M ++ B)). rewrite EN, EA2. by rewrite <- app_assoc.
    - unfold tf. destruct B as [|b B]; cbn [head].
      + by rewrite last_snoc.
      + rewrite (r_tail _ _ HR), EN. rewrite !last_app, last_cons_cons. destruct (last (b :: B)) eqn:El; [done|]. by apply last_None in El.
    - rewrite (r_size _ _ HR), EN, !app_length. cbn. lia.
    - destruct (HFo (hdr s)) as (_ & _ & _ & ->); [apply Hinx; left|apply (r_hback _ _ HR)|].
      intros Eh. symmetry in Eh. apply HhB in Eh. apply NoDup_cons in ND as [N _]. by apply N.
  Qed.
End ins.
