(** Lock-free skip list: the simulation relation and the steps that leave the
    set unchanged. *)
From stdpp Require Import functions.
From stdpp Require Import list.
From Verif Require Import Base Lin_Spec Lin_Proofs Lin_Hindsight LockFree_Model LockFree_Spec LockFree_Proofs LockFree_Proofs2 LockFree_Proofs3.

Section lf.
  Context {T : Type} (zero : T) (comp : T -> T -> Z) (H : cmp_ok comp).
  Notation node := (node T).
  Notation heap_t := (list node).
  Notation HI := (HI comp).
  Notation ord := (ord comp).
  Notation elt := (elt comp).
  Notation St := (list T).
  Notation phase := (@phase (op T) (ret T)).
  Notation ext := (ext comp).
  Notation TI := (TI comp).
  Notation gapw := (gapw comp).
  Notation was_alive := (was_alive comp).

  (** ** How writes look to the others *)
  Lemma ext_write h pub ch past i l y z x (pub' : nat -> Prop) (past' : list St) : HI h pub ch -> pub i -> lk h i l = Some (y, false) ->
    (forall k, pub k -> pub' k) -> (forall k, pub' k -> pub k \/ Some k = x) -> (forall s1, s1 ∈ past -> s1 ∈ past') ->
    ext x h pub past (upd h i l (z, false)) pub' past'.
  Proof.
    intros I Pi E S1 S2 S3. constructor; try done.
    - apply I.
    - intros k _. apply upd_lvl.
    - intros k _. apply upd_key.
    - intros k l' j F. rewrite upd_lk_ne; [done|]. destruct (decide (k = i)) as [->|]; [|by left]. right. intros ->. by rewrite E in F.
    - intros k _ [j A]. left. unfold alive. rewrite upd_lk. destruct (decide _) as [[-> <-]|_]; [|by exists j]. rewrite E. by exists z.
    - intros k n E'. rewrite upd_value. by rewrite E'.
    - intros k n Np Nx F. split; [intros P; by destruct (S2 k P)|]. rewrite upd_lookup, decide_False; [done|]. by intros ->.
  Qed.
  Lemma ext_mark_up h pub ch past i l y : HI h pub ch -> pub i -> 0 < l -> lk h i l = Some (y, false) ->
    ext None h pub past (upd h i l (y, true)) pub past.
  Proof.
    intros I Pi L E. constructor; try done.
    - apply I.
    - intros k _. apply upd_lvl.
    - intros k _. apply upd_key.
    - intros k l' j F. rewrite upd_lk_ne; [done|]. destruct (decide (k = i)) as [->|]; [|by left]. right. intros ->. by rewrite E in F.
    - intros k _ A. left. by rewrite upd_alive.
    - intros k n E'. rewrite upd_value. by rewrite E'.
    - intros k n Np Nx F. split; [done|]. rewrite upd_lookup, decide_False; [done|]. by intros ->.
  Qed.
  Lemma ext_alloc h pub ch past n : HI h pub ch -> ext None h pub past (h ++ [n]) pub past.
  Proof.
    intros I. constructor; try done.
    - apply I.
    - intros k L. by apply alloc_lvl.
    - intros k L. by apply alloc_key.
    - intros k l' j F. rewrite alloc_lk; [done|]. unfold lk in F. destruct (h !! k) eqn:E; [|done]. by eapply lookup_lt_Some.
    - intros k P A. left. unfold alive. rewrite alloc_lk; [done|]. by apply I.
    - intros k n' E'. rewrite lookup_app_l by (by eapply lookup_lt_Some). by rewrite E'.
    - intros k n' Np Nx F. split; [done|]. rewrite lookup_app_l; [done|]. by eapply lookup_lt_Some.
  Qed.
  (** the neighbours in the chain are neighbours in the set *)
  Lemma gap_now h pub ch i j m : HI h pub ch -> i ∈ 0 :: ch -> lk h i 0 = Some (Some j, m) -> gapw h (absv h ch) i j.
  Proof.
    intros I Hi E. assert (N1 : i <> 1). { intros ->. by apply (hi_tailnil _ _ _ _ I) in E. }
    destruct (hi_link _ _ _ _ I i 0 _ (chain_pub _ _ _ _ _ I Hi) N1 E) as (? & [= <-] & Pj & Nj0 & _ & _). split.
    - intros w Hw [G1 G2]. apply (elem_absv _ H _ _ _ _ I) in Hw as (k & Hk & _ & _ & K). rewrite <-K in G1, G2.
      destruct (chain_gap _ H _ _ _ _ _ _ k I Hi E ltac:(by right)) as [->|[G|[->|G]]].
      + by apply (elt_irrefl _ H) in G1.
      + eapply (elt_irrefl _ H), (elt_trans _ H); done.
      + by apply (elt_irrefl _ H) in G2.
      + eapply (elt_irrefl _ H), (elt_trans _ H); done.
    - destruct (decide (j = 1)) as [->|Nj]; [by left|right]. destruct (alive_or_dead _ _ _ _ _ I (hi_pub _ _ _ _ I _ Pj)) as [A|D]; [right|by left].
      eapply alive_in_abs; done.
  Qed.
  Lemma gap_now_alive h pub ch i j : HI h pub ch -> pub i -> lk h i 0 = Some (Some j, false) -> gapw h (absv h ch) i j.
  Proof. intros I P E. eapply gap_now; [done| |done]. apply (hi_live _ _ _ _ I); [done|by eexists]. Qed.
  Lemma ext_mark0 h pub ch past i y (past' : list St) : HI h pub ch -> pub i -> i <> 0 -> i <> 1 -> lk h i 0 = Some (y, false) ->
    (forall l' z, 0 < l' -> lk h i l' = Some z -> z.2 = true) ->
    (forall s1, s1 ∈ past -> s1 ∈ past') -> absv (upd h i 0 (y, true)) ch ∈ past' ->
    ext None h pub past (upd h i 0 (y, true)) pub past'.
  Proof.
    intros I Pi N0 N1 E U S Hin. assert (I' := HI_mark0 comp _ _ _ _ _ I Pi N0 N1 E U). constructor; try done.
    - apply I.
    - intros k _. apply upd_lvl.
    - intros k _. apply upd_key.
    - intros k l' j F. rewrite upd_lk_ne; [done|]. destruct (decide (k = i)) as [->|]; [|by left]. right. intros ->. by rewrite E in F.
    - intros k Pk A. destruct (decide (k = i)) as [->|N]; [|left; by apply (mark0_alive _ _ _ _ E)]. right.
      destruct (hi_link _ _ _ _ I i 0 _ Pi N1 E) as (j & Ej & Pj & _). cbn in Ej. subst y.
      destruct (key_val h i N0 N1 (hi_pub _ _ _ _ I _ Pi)) as [w K].
      exists j, (absv (upd h i 0 (Some j, true)) ch), w. splits.
      + by apply (upd_lk_same _ _ _ _ _ E).
      + done.
      + eapply (gap_now _ _ _ _ _ true); [done| |by apply (upd_lk_same _ _ _ _ _ E)]. by apply (hi_live _ _ _ _ I).
      + done.
      + intros (w' & Hw & Ew). apply (elem_absv _ H _ _ _ _ I') in Hw as (k & Hk & Nk & Ak & Kk). apply (mark0_alive _ _ _ _ E) in Ak as [Ak Nki].
        rewrite upd_key in Kk. apply Nki. destruct (val_eeq _ H _ _ Ew) as [E1 E2]. rewrite <-Kk, <-K in E1, E2.
        eapply (chain_inj _ H _ _ _ _ _ I); [by right|by apply (hi_live _ _ _ _ I)|done|done].
    - intros k n E'. rewrite upd_value. by rewrite E'.
    - intros k n Np Nx F. split; [done|]. rewrite upd_lookup, decide_False; [done|]. by intros ->.
  Qed.

  (** ** The relation *)
  (** calls that have taken effect and not yet updated size *)
  Definition owed (p : pc T) : Z :=
    match p with
    | Find (ForLink _ _) _ _ _ _ | AddLink _ _ _ _ _ | AddInc => 1
    | DelDec => -1
    | _ => 0
    end%Z.
  Definition total (ps : list (pc T)) : Z := foldr (fun p z => (owed p + z)%Z) 0%Z ps.
  Lemma total_insert ps t p p' : ps !! t = Some p -> total (<[t := p']> ps) = (total ps - owed p + owed p')%Z.
  Proof. 
    revert t. induction ps as [|q ps IH]; intros t E; [done|]. destruct t as [|t].
    - injection E as ->. change (<[0 := p']> (p :: ps)) with (p' :: ps). cbn [total foldr]. lia.
    - change (<[S t := p']> (q :: ps)) with (q :: <[t := p']> ps). unfold total in *. cbn [foldr]. rewrite IH by exact E. lia.
  Qed.
  Lemma to_int32_add a b : to_int32 (to_int32 a + b) = to_int32 (a + b).
  Proof. unfold to_int32. f_equal. replace ((a + 2 ^ 31) mod 2 ^ 32 - 2 ^ 31 + b + 2 ^ 31)%Z with ((a + 2 ^ 31) mod 2 ^ 32 + b)%Z by lia. rewrite Zplus_mod_idemp_l. f_equal. lia. Qed.

  Record RI (m : mem T) (ps : list (pc T)) (s : St) (ph : nat -> phase) (past : nat -> list St) (pub : nat -> Prop) (ch : list nat) : Prop := {
    r_heap : HI (heap m) pub ch;
    r_set : s = absv (heap m) ch;
    r_pcs : forall t p, ps !! t = Some p -> TI (heap m) pub (past t) (ph t) p;
    r_idle : forall t, ps !! t = None -> ph t = Idle;
    r_own : forall t1 t2 v1 v2 n a1 b1 a2 b2, ps !! t1 = Some (AddCas v1 n a1 b1) -> ps !! t2 = Some (AddCas v2 n a2 b2) -> t1 = t2;
    r_size : size m = to_int32 (Z.of_nat (length s) - total ps);
    r_past : forall t o, ph t = Pending o -> s ∈ past t;
    r_zero : value <$> heap m !! 1 = Some zero;
  }.
  Definition R (x : sys T) (s : St) (ph : nat -> phase) (past : nat -> list St) : Prop :=
    exists pub ch, RI (shared x) (pcs x) s ph past pub ch.

  Lemma R_step m ps s ph past pub ch t p x m' p' s' ph' past' pub' ch' :
    RI m ps s ph past pub ch -> ps !! t = Some p ->
    HI (heap m') pub' ch' -> s' = absv (heap m') ch' ->
    (forall u, u <> t -> ext x (heap m) pub (past u) (heap m') pub' (past' u)) ->
    (forall u, u <> t -> ph' u = ph u) ->
    TI (heap m') pub' (past' t) (ph' t) p' ->
    (forall new, x = Some new -> exists v a b, p = AddCas v new a b) ->
    (forall v n a b, p' = AddCas v n a b -> forall u v' a' b', u <> t -> ps !! u <> Some (AddCas v' n a' b')) ->
    size m' = to_int32 (Z.of_nat (length s') - (total ps - owed p + owed p')) ->
    (forall u o, ph' u = Pending o -> s' ∈ past' u) ->
    RI m' (<[t := p']> ps) s' ph' past' pub' ch'.
  Proof.
    intros Rr Ep I' Es Ex Hph Tp Hx Hown Hsz Hpast. constructor; try done.
    - intros u q Eq. destruct (decide (u = t)) as [->|N].
      + rewrite list_lookup_insert in Eq by (by eapply lookup_lt_Some). by injection Eq as <-.
      + rewrite list_lookup_insert_ne in Eq by done. rewrite Hph by done.
        eapply (TI_ext _ H); [by apply Ex|apply Rr| |by apply Rr].
        intros v new a b -> <-. destruct (Hx new eq_refl) as (v' & a' & b' & ->). apply N. by eapply (r_own _ _ _ _ _ _ _ Rr).
    - intros u Eu. apply lookup_ge_None in Eu. rewrite insert_length in Eu. destruct (decide (u = t)) as [->|N].
      + apply lookup_lt_Some in Ep. lia.
      + rewrite Hph by done. apply (r_idle _ _ _ _ _ _ _ Rr). by apply lookup_ge_None.
    - intros t1 t2 v1 v2 n a1 b1 a2 b2 E1 E2. assert (Lt : t < length ps) by (by eapply lookup_lt_Some).
      destruct (decide (t1 = t)) as [->|N1], (decide (t2 = t)) as [->|N2]; [done| | |].
      + rewrite list_lookup_insert in E1 by done. rewrite list_lookup_insert_ne in E2 by done. injection E1 as ->. exfalso. by eapply Hown.
      + rewrite list_lookup_insert in E2 by done. rewrite list_lookup_insert_ne in E1 by done. injection E2 as ->. exfalso. by eapply Hown.
      + rewrite list_lookup_insert_ne in E1, E2 by done. by eapply (r_own _ _ _ _ _ _ _ Rr).
    - rewrite (total_insert _ _ _ _ Ep). done.
    - pose proof (r_zero _ _ _ _ _ _ _ Rr) as Z. destruct (heap m !! 1) as [n|] eqn:En; [|done]. injection Z as <-.
      eapply (e_val _ _ _ _ _ _ _ _ (Ex (S t) ltac:(lia))). done.
  Qed.

  Notation legal := (set_legal zero comp).
  (** the outcome of a step of goroutine [t] *)
  Definition stepped (ps : list (pc T)) (t : nat) (s : St) (ph : nat -> phase) (past : nat -> list St) (r : res (mem T * pc T)) : Prop :=
    exists m' p' s' ph' past', r = Ok (m', p') /\ haction legal s ph past None s' ph' past' /\ R (Sys m' (<[t := p']> ps)) s' ph' past' /\
      (forall u, u <> t -> ph' u = ph u).
  (** how many links an Add may still have to make *)
  Definition rem (p : pc T) : nat :=
    match p with
    | Find ForAdd _ _ _ _ | AddCas _ _ _ _ => max_level
    | Find (ForLink l _) _ _ _ _ | AddLink l _ _ _ _ => max_level - l
    | _ => 0
    end.
  (** the same, and a node is published only when a link is made *)
  Definition steppedp (pub : nat -> Prop) (p : pc T) (ps : list (pc T)) (t : nat) (s : St) (ph : nat -> phase) (past : nat -> list St) (r : res (mem T * pc T)) : Prop :=
    exists m' p' s' ph' past' pub' ch', r = Ok (m', p') /\ haction legal s ph past None s' ph' past' /\ RI m' (<[t := p']> ps) s' ph' past' pub' ch' /\
      (forall u, u <> t -> ph' u = ph u) /\ ((forall k, pub' k -> pub k) \/ rem p' < rem p).
  Lemma steppedp_stepped pub p ps t s ph past r : steppedp pub p ps t s ph past r -> stepped ps t s ph past r.
  Proof. intros (m' & p' & s' & ph' & past' & pub' & ch' & E & A & Rr & F & _). exists m', p', s', ph', past'. splits; try done. by exists pub', ch'. Qed.

  (** a step that only changes local state *)
  Lemma step_local m ps s ph past pub ch t p p' : RI m ps s ph past pub ch -> ps !! t = Some p ->
    TI (heap m) pub (past t) (ph t) p' -> owed p' = owed p -> (forall v n a b, p' <> AddCas v n a b) ->
    steppedp pub p ps t s ph past (Ok (m, p')).
  Proof.
    intros Rr Ep Tp Ho Na. exists m, p', s, ph, past, pub, ch. splits; [done|constructor| |done|by left].
    eapply (R_step _ _ _ _ _ _ _ t p None); try done; try apply Rr.
    - intros u _. eapply ext_refl, Rr.
    - intros v n a b ->. by destruct (Na v n a b).
    - replace (total ps - owed p + owed p')%Z with (total ps) by lia. apply Rr.
  Qed.
  (** the call ends: it takes effect now, without changing the set *)
  Lemma step_now m ps s ph past pub ch t p o r : RI m ps s ph past pub ch -> ps !! t = Some p -> ph t = Pending o -> owed p = 0%Z ->
    legal s o r s -> steppedp pub p ps t s ph past (Ok (m, Ready r)).
  Proof.
    intros Rr Ep Ht Ho L. exists m, (Ready r), s, (<[t := Effected o r]> ph), (fun u => s :: past u), pub, ch. splits; [done|by apply HEff| |intros u N; by rewrite fn_lookup_insert_ne|by left].
    eapply (R_step _ _ _ _ _ _ _ t p None); try done; try apply Rr.
    - intros u _. pose proof (ext_refl comp _ _ _ (past u) (r_heap _ _ _ _ _ _ _ Rr)) as X. destruct X. constructor; try done; [intros; by right|].
      intros i P A. left. done.
    - intros u N. by rewrite fn_lookup_insert_ne.
    - cbn [LockFree_Proofs3.TI]. rewrite fn_lookup_insert. by exists o.
    - cbn [owed]. rewrite Ho. replace (total ps - 0 + 0)%Z with (total ps) by lia. apply Rr.
    - intros u o' _. left.
  Qed.
  (** the call ends: it took effect in the past *)
  Lemma step_past m ps s ph past pub ch t p o r s1 : RI m ps s ph past pub ch -> ps !! t = Some p -> ph t = Pending o -> owed p = 0%Z ->
    s1 ∈ past t -> legal s1 o r s1 -> steppedp pub p ps t s ph past (Ok (m, Ready r)).
  Proof.
    intros Rr Ep Ht Ho Hs L. exists m, (Ready r), s, (<[t := Effected o r]> ph), past, pub, ch. splits; [done|by eapply HPast| |intros u N; by rewrite fn_lookup_insert_ne|by left].
    eapply (R_step _ _ _ _ _ _ _ t p None); try done; try apply Rr.
    - intros u _. eapply ext_refl, Rr.
    - intros u N. by rewrite fn_lookup_insert_ne.
    - cbn [LockFree_Proofs3.TI]. rewrite fn_lookup_insert. by exists o.
    - cbn [owed]. rewrite Ho. replace (total ps - 0 + 0)%Z with (total ps) by lia. apply Rr.
    - intros u o'. destruct (decide (u = t)) as [->|N]; [by rewrite fn_lookup_insert|]. rewrite fn_lookup_insert_ne by done. apply Rr.
  Qed.
  (** a step that changes memory but not the set *)
  Lemma step_mem m ps s ph past pub ch t p h' p' ch' : RI m ps s ph past pub ch -> ps !! t = Some p ->
    HI h' pub ch' -> absv h' ch' = s -> (forall u, u <> t -> ext None (heap m) pub (past u) h' pub (past u)) ->
    TI h' pub (past t) (ph t) p' -> owed p' = owed p ->
    (forall v n a b, p' = AddCas v n a b -> forall u v' a' b', u <> t -> ps !! u <> Some (AddCas v' n a' b')) ->
    steppedp pub p ps t s ph past (Ok (Mem h' (size m), p')).
  Proof.
    intros Rr Ep I' Es Ex Tp Ho Na. exists (Mem h' (size m)), p', s, ph, past, pub, ch'. splits; [done|constructor| |done|by left].
    eapply (R_step _ _ _ _ _ _ _ t p None); try done; try apply Rr.
    cbn [size]. replace (total ps - owed p + owed p')%Z with (total ps) by lia. apply Rr.
  Qed.
End lf.
