(** Skip list: the representation predicate and the descents. *)
From Verif Require Import Base Iter_Model Iter_Spec SkipList_Model SkipList_Spec.

(** ** the next node of height > i in a list of nodes, and its distance *)
Section nx.
  Context (H : nat -> nat) (i : nat).
  Fixpoint nx (L : list nat) : option nat * Z :=
    match L with
    | [] => (None, 0%Z)
    | l :: L => if decide (i < H l) then (Some l, 1%Z) else ((nx L).1, ((nx L).2 + 1)%Z)
    end.
  Definition low (L : list nat) : Prop := Forall (fun z => H z <= i) L.

  Lemma nx_low_app L1 L2 : low L1 -> nx (L1 ++ L2) = ((nx L2).1, ((nx L2).2 + Z.of_nat (length L1))%Z).
  Proof.
    induction L1 as [|l L IH]; intros HL; [cbn; rewrite Z.add_0_r; by destruct (nx L2)|].
    apply Forall_cons in HL as [H1 H2]. cbn. rewrite decide_False by lia. rewrite (IH H2). cbn.
    f_equal. lia.
  Qed.
  Lemma nx_hi_app L1 L2 : ~ low L1 -> nx (L1 ++ L2) = nx L1.
  Proof.
    induction L1 as [|l L IH]; intros HL; [destruct HL; constructor|].
    cbn. case_decide as Hd; [done|]. rewrite IH; [done|]. intros HL2. apply HL. constructor; [lia|done].
  Qed.
  Lemma low_dec L : low L \/ ~ low L.
  Proof. destruct (decide (low L)) as [|]; [by left|by right]. Qed.
  Lemma nx_some L y d : nx L = (Some y, d) -> exists P Q, L = P ++ y :: Q /\ low P /\ i < H y /\ d = Z.of_nat (S (length P)).
  Proof.
    revert d. induction L as [|l L IH]; intros d; cbn; [done|]. case_decide as Hd.
    - intros [= <- <-]. exists [], L. splits; [done|constructor|done|done].
    - destruct (nx L) as [o e] eqn:E. cbn. intros [= -> <-].
      destruct (IH _ eq_refl) as (P & Q & -> & HP & Hy & He).
      exists (l :: P), Q. splits; [done| |done|cbn; lia]. constructor; [lia|done].
  Qed.
  Lemma nx_none L d : nx L = (None, d) -> low L /\ d = Z.of_nat (length L).
  Proof.
    revert d. induction L as [|l L IH]; intros d; cbn; [intros [= <-]; split; [constructor|done]|]. case_decide as Hd; [done|].
    destruct (nx L) as [o e] eqn:E. cbn. intros [= -> <-].
    destruct (IH _ eq_refl) as (HL & He). split; [constructor; [lia|done]|lia].
  Qed.
  Lemma nx_low L : low L -> nx L = (None, Z.of_nat (length L)).
  Proof.
    intros HL. pose proof (nx_low_app L [] HL) as E. rewrite app_nil_r in E. rewrite E. cbn. f_equal. 
  Qed.
End nx.
Lemma nx_ext H H' i L : (forall l, l ∈ L -> H l = H' l) -> nx H i L = nx H' i L.
Proof.
  induction L as [|l L IH]; intros E; [done|]. cbn. rewrite E by left.
  rewrite IH; [done|]. intros l' Hl'. apply E. by right.
Qed.
Lemma low_ext H H' i L : (forall l, l ∈ L -> H l = H' l) -> low H i L -> low H' i L.
Proof. intros E HL. unfold low in *. rewrite Forall_forall in *. intros x Hx. rewrite <- E by done. auto. Qed.

(** unique splitting of duplicate-free lists *)
Lemma split_unique {A} (l : A) P Q P' Q' : NoDup (P ++ l :: Q) -> P ++ l :: Q = P' ++ l :: Q' -> P = P' /\ Q = Q'.
Proof.
  revert P'. induction P as [|p P IH]; intros P' ND E.
  - destruct P' as [|p' P']; [by injection E as ->|]. cbn in E. injection E as -> E.
    cbn in ND. apply NoDup_cons in ND as [N _]. destruct N. rewrite E. apply elem_of_app. right. left.
  - destruct P' as [|p' P']; cbn in E; injection E as -> E.
    + cbn in ND. apply NoDup_cons in ND as [N _]. destruct N. apply elem_of_app. right. left.
    + cbn in ND. apply NoDup_cons in ND as [_ ND]. destruct (IH P' ND E) as [-> ->]. done.
Qed.
(** two splittings of one list: same place, or one before the other *)
Lemma split_cases {A} (P : list A) x Q P' x' Q' : P ++ x :: Q = P' ++ x' :: Q' ->
  (P = P' /\ x = x' /\ Q = Q') \/
  (exists M, P' = P ++ x :: M /\ Q = M ++ x' :: Q') \/
  (exists M, P = P' ++ x' :: M /\ Q' = M ++ x :: Q).
Proof.
  revert P'. induction P as [|p P IH]; intros P' E.
  - destruct P' as [|p' P']; cbn in E; injection E as -> E; [by left|].
    right. left. exists P'. by rewrite E.
  - destruct P' as [|p' P']; cbn in E; injection E as -> E.
    + right. right. exists P. by rewrite E.
    + destruct (IH _ E) as [(-> & -> & ->)|[(M & -> & ->)|(M & -> & ->)]]; [by left|right; left|right; right]; by exists M.
Qed.

Section repr.
  Context {K V : Type}.
  Implicit Types (h : heap K V) (s : slist K V) (ns : list nat).

  Notation hts h := (fun l => ht (h l)).

  (** [linked_ok h lv hd ns]: the forward pointers and spans of the header and
      the nodes [ns] below level [lv] are those of the sequence *)
  Definition linked_ok h lv hd ns : Prop :=
    forall C x R, hd :: ns = C ++ x :: R -> forall i, i < ht (h x) -> i < lv ->
    (fwd (h x) i, span (h x) i) = nx (hts h) i R.
  Definition back_ok h ns : Prop :=
    forall C x R, ns = C ++ x :: R -> back (h x) = last C.
  Record repr s ns : Prop := {
    r_nodup : NoDup (hdr s :: ns);
    r_brk : Forall (fun l => l < brk s) (hdr s :: ns);
    r_hdr : ht (hp s (hdr s)) = max_level;
    r_lv : 1 <= level s <= max_level;
    r_ht : Forall (fun l => 1 <= ht (hp s l) <= level s) ns;
    r_top : forall i, level s <= i -> fwd (hp s (hdr s)) i = None;
    r_links : linked_ok (hp s) (level s) (hdr s) ns;
    r_back : back_ok (hp s) ns;
    r_tail : tail s = last ns;
    r_size : size s = Z.of_nat (length ns);
    r_hback : back (hp s (hdr s)) = None;
  }.
  Definition ents s ns : list (K * V) := (fun l => (key (hp s l), val (hp s l))) <$> ns.

  (** where the arrays point after a descent that ended behind the prefix [A]
      of the header and the nodes *)
  Definition arr_at h (a : (nat -> option nat) * (nat -> Z)) (A : list nat) (i : nat) : Prop :=
    exists C u D, A = C ++ u :: D /\ a.1 i = Some u /\ a.2 i = Z.of_nat (length C) /\
      i < ht (h u) /\ low (hts h) i D.

  Section walks.
    Context s ns (HR : repr s ns).
    Notation h := (hp s).
    Notation xs := (hdr s :: ns).

    Lemma in_ht l : l ∈ xs -> 1 <= ht (h l).
    Proof.
      intros [->|Hl]%elem_of_cons; [rewrite (r_hdr _ _ HR); unfold max_level; lia|].
      pose proof (r_ht _ _ HR) as F. rewrite Forall_forall in F. apply F in Hl. lia.
    Qed.
    Lemma split_in C x R : xs = C ++ x :: R -> x ∈ xs.
    Proof. intros ->. apply elem_of_app. right. left. Qed.

    Lemma walk_ok test i fuel : forall C x R r, xs = C ++ x :: R -> i < ht (h x) -> i < level s ->
      length R < fuel ->
      exists D x' E R', walk fuel h test i x r = Ok (x', (r + Z.of_nat (length D))%Z) /\
        R = D ++ R' /\ x :: D = E ++ [x'] /\ i < ht (h x') /\
        (D = [] \/ test (key (h x')) = true) /\
        match (nx (hts h) i R').1 with Some z => test (key (h z)) = false | None => True end /\
        (forall P z Q, R = P ++ z :: Q -> i < ht (h z) -> test (key (h z)) = false -> exists P', P = D ++ P').
    Proof.
      induction fuel as [|f IH]; intros C x R r HX Hi Hl Hf; [lia|].
      cbn [walk]. unfold rd_fwd at 1. rewrite decide_True by done. cbn [rbind].
      pose proof (r_links _ _ HR _ _ _ HX i Hi Hl) as L.
      destruct (fwd (h x) i) as [y|] eqn:Ey.
      - destruct (test (key (h y))) eqn:Et.
        + unfold rd_span at 1. rewrite decide_True by done. cbn [rbind].
          symmetry in L. destruct (nx_some _ _ _ _ _ L) as (P & Q & -> & HP & Hy & Hd).
          destruct (IH (C ++ x :: P) y Q (r + span (h x) i)%Z) as (D & x' & E & R' & EW & -> & EX & Hx' & HD & HN & HS);
            [by rewrite HX, <- app_assoc|done|done|rewrite app_length in Hf; cbn in Hf; lia|].
          exists (P ++ y :: D), x', (x :: P ++ E), R'. rewrite EW, Hd. splits.
          * f_equal. f_equal. rewrite app_length. cbn. lia.
          * by rewrite <- app_assoc.
          * rewrite EX. cbn. by rewrite <- app_assoc.
          * done.
          * right. destruct HD as [->|]; [|done]. destruct E as [|e E]; [by injection EX as <-|].
            cbn in EX. injection EX as _ EX. by destruct E.
          * done.
          * intros P1 z Q1 EQ Hz Tz. destruct (split_cases _ _ _ _ _ _ EQ) as [(-> & -> & EQ2)|[(M & -> & EQ2)|(M & -> & EQ2)]].
            { by rewrite Et in Tz. }
            { destruct (HS M z Q1 EQ2 Hz Tz) as [P' ->]. exists P'. by rewrite <- app_assoc. }
            { exfalso. unfold low in HP. rewrite Forall_app, Forall_cons in HP. lia. }
        + exists [], x, [], R. cbn [length]. rewrite Z.add_0_r. splits; try done; [by left|by rewrite <- L|intros P z Q _ _ _; by exists P].
      - exists [], x, [], R. cbn [length]. rewrite Z.add_0_r. splits; try done; [by left|by rewrite <- L|intros P z Q _ _ _; by exists P].
    Qed.


    Lemma descend_ok test fuel n : forall C x R a, xs = C ++ x :: R -> n <= ht (h x) -> n <= level s ->
      length R < fuel ->
      exists D x' E R' a', descend fuel h test n x (Z.of_nat (length C)) a = Ok (x', a') /\
        R = D ++ R' /\ x :: D = E ++ [x'] /\
        (D = [] \/ test (key (h x')) = true) /\
        (n <> 0 -> match R' with z :: _ => test (key (h z)) = false | [] => True end) /\
        (forall P z Q, R = P ++ z :: Q -> n <= ht (h z) -> test (key (h z)) = false -> exists P', P = D ++ P') /\
        (forall i, i < n -> arr_at h a' (C ++ x :: D) i) /\
        (forall i, n <= i -> a'.1 i = a.1 i /\ a'.2 i = a.2 i).
    Proof.
      induction n as [|i IH]; intros C x R a HX Hn Hl Hf.
      - exists [], x, [], R, a. cbn. splits; try done; [by left|intros P z Q _ _ _; by exists P|intros; lia].
      - cbn [descend].
        destruct (walk_ok test i fuel C x R (Z.of_nat (length C)) HX) as (D & x1 & E & R1 & EW & -> & EX & Hx1 & HD & HN & HS); [lia|lia|done|].
        rewrite EW. cbn [rbind].
        assert (HL1 : (Z.of_nat (length C) + Z.of_nat (length D))%Z = Z.of_nat (length (C ++ E))).
        { rewrite app_length. assert (length (x :: D) = length (E ++ [x1])) as EL by by rewrite EX.
          rewrite app_length in EL. cbn in EL. lia. }
        assert (HX1 : xs = (C ++ E) ++ x1 :: R1).
        { rewrite HX. rewrite <- app_assoc. f_equal. change (x :: D ++ R1) with ((x :: D) ++ R1). rewrite EX.
          by rewrite <- app_assoc. }
        rewrite HL1.
        destruct (IH (C ++ E) x1 R1 (<[i := Some x1]> a.1, <[i := Z.of_nat (length (C ++ E))]> a.2) HX1)
          as (D2 & x2 & E2 & R2 & a' & ED & -> & EX2 & HD2 & HN2 & HS2 & HA & HF); [lia|lia|rewrite app_length in Hf; lia|].
        rewrite app_length in Hf.
        (* nothing of height > i among D2 *)
        assert (HD2low : low (hts h) i D2).
        { destruct (nx (hts h) i (D2 ++ R2)) as [[z|] dd] eqn:Ez.
          - destruct (nx_some _ _ _ _ _ Ez) as (P & Q & EQ & HP & Hz & _).
            destruct (HS2 P z Q EQ ltac:(lia) HN) as [P' ->]. apply Forall_app in HP. apply HP.
          - apply nx_none in Ez as [Hlow _]. apply Forall_app in Hlow. apply Hlow. }
        exists (D ++ D2), x2, (E ++ E2), R2, a'. splits.
        + done.
        + by rewrite app_assoc.
        + change (x :: D ++ D2) with ((x :: D) ++ D2). rewrite EX, <- !app_assoc. f_equal. done.
        + destruct HD2 as [->|]; [|by right]. destruct E2 as [|e E2]; [injection EX2 as <-|cbn in EX2; injection EX2 as _ EX2; by destruct E2].
          destruct HD as [->|]; [by left|by right].
        + intros _. destruct i as [|i].
          * cbn in ED. injection ED as -> <-.
            destruct D2 as [|d D2].
            2: { apply Forall_cons in HD2low as [Hd _]. assert (d ∈ xs) as Hd2; [|apply in_ht in Hd2; lia].
                 rewrite HX1. apply elem_of_app. right. right. left. }
            cbn in HN. destruct R2 as [|z R2]; [done|]. cbn in HN.
            rewrite decide_True in HN; [done|]. assert (z ∈ xs) as Hz; [|apply in_ht in Hz; lia].
            rewrite HX1. apply elem_of_app. right. right. left.
          * apply HN2. lia.
        + intros P z Q EQ Hz Tz. destruct (HS P z Q EQ) as [P1 ->]; [lia|done|].
          rewrite <- app_assoc in EQ. apply app_inv_head in EQ.
          destruct (HS2 P1 z Q EQ ltac:(lia) Tz) as [P2 ->]. exists P2. by rewrite app_assoc.
        + intros j Hj. destruct (decide (j = i)) as [->|Hne].
          * exists (C ++ E), x1, D2. destruct (HF i ltac:(lia)) as [F1 F2]. rewrite F1, F2. cbn [fst snd].
            rewrite !fn_lookup_insert. splits; try done.
            change (x :: D ++ D2) with ((x :: D) ++ D2). rewrite EX, <- !app_assoc. done.
          * assert (Hj' : j < i) by lia. specialize (HA j Hj').
            replace (C ++ x :: D ++ D2) with ((C ++ E) ++ x1 :: D2); [done|].
            change (x :: D ++ D2) with ((x :: D) ++ D2). rewrite EX, <- !app_assoc. done.
        + intros j Hj. destruct (HF j ltac:(lia)) as [F1 F2]. rewrite F1, F2. cbn [fst snd].
          rewrite !fn_lookup_insert_ne by lia. done.
    Qed.

    (** the descent of a whole call *)
    Lemma descend_full test fuel : length ns < fuel ->
      exists A B x a E, descend fuel h test (level s) (hdr s) 0 no_arrays = Ok (x, a) /\
        ns = A ++ B /\ hdr s :: A = E ++ [x] /\
        (A = [] \/ test (key (h x)) = true) /\
        match B with z :: _ => test (key (h z)) = false | [] => True end /\
        (forall i, i < level s -> arr_at h a (hdr s :: A) i) /\
        (forall P z Q, ns = P ++ z :: Q -> level s <= ht (h z) -> test (key (h z)) = false -> exists P', P = A ++ P').
    Proof.
      intros Hf. pose proof (r_lv _ _ HR) as HLv.
      destruct (descend_ok test fuel (level s) [] (hdr s) ns no_arrays)
        as (D & x & E & R' & a & ED & -> & EX & HD & HN & HS & HA & _);
        [done|rewrite (r_hdr _ _ HR); lia|lia|done|].
      exists D, R', x, a, E. splits; try done. apply HN. lia.
    Qed.
    (** the pointer behind the end of a descent *)
    Lemma fwd0_of A B x E : ns = A ++ B -> hdr s :: A = E ++ [x] -> rd_fwd h x 0 = Ok (head B) /\ x ∈ xs.
    Proof.
      intros HN HE. pose proof (r_lv _ _ HR) as HLv.
      assert (HX : xs = E ++ x :: B).
      { rewrite HN. change (hdr s :: A ++ B) with ((hdr s :: A) ++ B). rewrite HE, <- app_assoc. done. }
      pose proof (in_ht x (split_in _ _ _ HX)) as Hx. split; [|by eapply split_in].
      unfold rd_fwd. rewrite decide_True by lia.
      pose proof (r_links _ _ HR _ _ _ HX 0 ltac:(lia) ltac:(lia)) as L.
      destruct B as [|z B]; cbn in L; [by injection L as -> _|].
      rewrite decide_True in L; [by injection L as -> _|].
      assert (z ∈ xs) as Hz; [|apply in_ht in Hz; lia]. rewrite HX. apply elem_of_app. right. right. left.
    Qed.
  End walks.
End repr.
