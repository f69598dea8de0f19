(** Skip list: insertion and node deletion keep the representation. *)
From Verif Require Import Base Iter_Model Iter_Spec SkipList_Model SkipList_Spec SkipList_Proofs.

Lemma for_up_inv {S : Type} (J : nat -> S -> Prop) (body : nat -> S -> res S) n : forall a s,
  (forall k s, a <= k < a + n -> J k s -> exists s', body k s = Ok s' /\ J (k + 1) s') ->
  J a s -> exists s', for_up n a body s = Ok s' /\ J (a + n) s'.
Proof.
  induction n as [|n IH]; intros a s HB HJ.
  - exists s. split; [done|]. by rewrite Nat.add_0_r.
  - cbn [for_up]. destruct (HB a s ltac:(lia) HJ) as (s1 & -> & HJ1). cbn [rbind].
    destruct (IH (a + 1) s1) as (s2 & E & HJ2); [intros k s' Hk; apply HB; lia|done|].
    exists s2. split; [done|]. by replace (a + Datatypes.S n) with (a + 1 + n) by lia.
Qed.

Section mut.
  Context {K V : Type}.
  Implicit Types (h : heap K V) (ns : list nat).
  Notation hts h := (fun l => ht (h l)).
  Notation arrays := ((nat -> option nat) * (nat -> Z))%type.

  (** same keys, values, back pointers and heights *)
  Definition same_but_links h h' : Prop :=
    forall y, key (h' y) = key (h y) /\ val (h' y) = val (h y) /\ back (h' y) = back (h y) /\ ht (h' y) = ht (h y).
  Definition lnk h y j : option nat * Z := (fwd (h y) j, span (h y) j).

  Lemma same_refl h : same_but_links h h.
  Proof. done. Qed.
  Lemma same_trans h1 h2 h3 : same_but_links h1 h2 -> same_but_links h2 h3 -> same_but_links h1 h3.
  Proof. intros H1 H2 y. specialize (H1 y). specialize (H2 y). intuition congruence. Qed.

  (** a write of one link field *)
  Lemma wr_span_ok h x i z : i < ht (h x) -> exists h', wr_span x i z h = Ok h' /\ same_but_links h h' /\
    forall y j, lnk h' y j = if decide (y = x /\ j = i) then (fwd (h y) j, z) else lnk h y j.
  Proof.
    intros Hi. unfold wr_span. rewrite decide_True by done. eexists. split; [done|]. split.
    - intros y. unfold wr. destruct (decide (y = x)) as [->|]; [by rewrite fn_lookup_insert|by rewrite fn_lookup_insert_ne].
    - intros y j. unfold lnk, wr. destruct (decide (y = x)) as [->|Hy].
      + rewrite fn_lookup_insert. cbn. destruct (decide (j = i)) as [->|Hj].
        * rewrite fn_lookup_insert, decide_True by done. done.
        * rewrite fn_lookup_insert_ne by done. rewrite decide_False by naive_solver. done.
      + rewrite fn_lookup_insert_ne by done. rewrite decide_False by naive_solver. done.
  Qed.
  Lemma wr_fwd_ok h x i z : i < ht (h x) -> exists h', wr_fwd x i z h = Ok h' /\ same_but_links h h' /\
    forall y j, lnk h' y j = if decide (y = x /\ j = i) then (z, span (h y) j) else lnk h y j.
  Proof.
    intros Hi. unfold wr_fwd. rewrite decide_True by done. eexists. split; [done|]. split.
    - intros y. unfold wr. destruct (decide (y = x)) as [->|]; [by rewrite fn_lookup_insert|by rewrite fn_lookup_insert_ne].
    - intros y j. unfold lnk, wr. destruct (decide (y = x)) as [->|Hy].
      + rewrite fn_lookup_insert. cbn. destruct (decide (j = i)) as [->|Hj].
        * rewrite fn_lookup_insert, decide_True by done. done.
        * rewrite fn_lookup_insert_ne by done. rewrite decide_False by naive_solver. done.
      + rewrite fn_lookup_insert_ne by done. rewrite decide_False by naive_solver. done.
  Qed.
  Lemma rd_fwd_ok h x i : i < ht (h x) -> rd_fwd h x i = Ok (lnk h x i).1.
  Proof. intros. unfold rd_fwd. by rewrite decide_True. Qed.
  Lemma rd_span_ok h x i : i < ht (h x) -> rd_span h x i = Ok (lnk h x i).2.
  Proof. intros. unfold rd_span. by rewrite decide_True. Qed.

  Section loops.
    Context (a : arrays) (u : nat -> nat) (n : nat) (h0 : heap K V).
    Context (Hu : forall j, j < n -> a.1 j = Some (u j)) (Hh : forall j, j < n -> j < ht (h0 (u j))).

    (** lines 304-311 *)
    Lemma link_loop x lv : lv <= n -> ht (h0 x) = lv -> (forall j, j < n -> u j <> x) ->
      exists h, for_up lv 0 (link_body x a) h0 = Ok h /\ same_but_links h0 h /\
        forall y j, lnk h y j =
          if decide (j < lv) then
            if decide (y = x) then ((lnk h0 (u j) j).1, ((lnk h0 (u j) j).2 - (a.2 0%nat - a.2 j))%Z)
            else if decide (y = u j) then (Some x, ((a.2 0%nat - a.2 j) + 1)%Z) else lnk h0 y j
          else lnk h0 y j.
    Proof.
      intros Hlv Hx Hux.
      destruct (for_up_inv (fun k h => same_but_links h0 h /\
        forall y j, lnk h y j =
          if decide (j < k) then
            if decide (y = x) then ((lnk h0 (u j) j).1, ((lnk h0 (u j) j).2 - (a.2 0%nat - a.2 j))%Z)
            else if decide (y = u j) then (Some x, ((a.2 0%nat - a.2 j) + 1)%Z) else lnk h0 y j
          else lnk h0 y j) (link_body x a) lv 0 h0) as (h & E & HJ).
      - intros k h Hk [HS HL]. unfold link_body. rewrite (Hu k) by lia. cbn [deref rbind].
        assert (Hk0 : forall y, lnk h y k = lnk h0 y k).
        { intros y. rewrite HL. by rewrite decide_False by lia. }
        assert (Huk : k < ht (h (u k))).
        { destruct (HS (u k)) as (_ & _ & _ & ->). apply Hh. lia. }
        assert (Hxk : k < ht (h x)).
        { destruct (HS x) as (_ & _ & _ & ->). lia. }
        rewrite rd_fwd_ok by done. cbn [rbind].
        destruct (wr_fwd_ok h x k (lnk h (u k) k).1 Hxk) as (h1 & -> & S1 & L1). cbn [rbind].
        destruct (wr_fwd_ok h1 (u k) k (Some x)) as (h2 & -> & S2 & L2); [by destruct (S1 (u k)) as (_ & _ & _ & ->)|]. cbn [rbind].
        pose proof (same_trans _ _ _ S1 S2) as S12.
        rewrite rd_span_ok by (by destruct (S12 (u k)) as (_ & _ & _ & ->)). cbn [rbind].
        destruct (wr_span_ok h2 x k ((lnk h2 (u k) k).2 - (a.2 0%nat - a.2 k))%Z) as (h3 & -> & S3 & L3); [by destruct (S12 x) as (_ & _ & _ & ->)|]. cbn [rbind].
        pose proof (same_trans _ _ _ S12 S3) as S123.
        destruct (wr_span_ok h3 (u k) k ((a.2 0%nat - a.2 k) + 1)%Z) as (h4 & -> & S4 & L4); [by destruct (S123 (u k)) as (_ & _ & _ & ->)|].
        exists h4. split; [done|]. split; [eapply same_trans; [exact HS|]; eapply same_trans; eassumption|].
        assert (Hne : u k <> x) by (apply Hux; lia).
        intros y j. destruct (decide (j = k)) as [->|Hj].
        + rewrite (decide_True (P := k < k + 1)) by lia.
          rewrite L4. change (fwd (h3 y) k) with (lnk h3 y k).1. rewrite L3. change (fwd (h2 y) k) with (lnk h2 y k).1.
          change (span (h1 y) k) with (lnk h1 y k).2 in L2.
          rewrite !L2. change (span (h1 (u k)) k) with (lnk h1 (u k) k).2. change (span (h1 y) k) with (lnk h1 y k).2.
          rewrite !L1. change (span (h y) k) with (lnk h y k).2. change (span (h (u k)) k) with (lnk h (u k) k).2.
          rewrite !Hk0.
          destruct (decide (y = x)) as [->|Hy].
          * repeat case_decide; naive_solver.
          * repeat case_decide; naive_solver.
        + assert (N1 : ~ (y = u k /\ j = k)) by naive_solver. assert (N2 : ~ (y = x /\ j = k)) by naive_solver.
          rewrite L4, decide_False by done. rewrite L3, decide_False by done. rewrite L2, decide_False by done. rewrite L1, decide_False by done.
          rewrite HL. destruct (decide (j < k)); [rewrite (decide_True (P := j < k + 1)) by lia; done|].
          rewrite (decide_False (P := j < k + 1)) by lia. done.
      - split; [apply same_refl|]. intros y j. rewrite decide_False by lia. done.
      - exists h. destruct HJ as [HS HL]. split; [done|]. split; [done|]. intros y j. rewrite HL. done.
    Qed.

    (** lines 314-316 *)
    Lemma bump_loop lv : lv <= n ->
      exists h, for_up (n - lv) lv (bump_body a) h0 = Ok h /\ same_but_links h0 h /\
        forall y j, lnk h y j =
          if decide (lv <= j < n /\ y = u j) then ((lnk h0 y j).1, ((lnk h0 y j).2 + 1)%Z) else lnk h0 y j.
    Proof.
      intros Hlv.
      destruct (for_up_inv (fun k h => same_but_links h0 h /\
        forall y j, lnk h y j =
          if decide (lv <= j < k /\ y = u j) then ((lnk h0 y j).1, ((lnk h0 y j).2 + 1)%Z) else lnk h0 y j)
        (bump_body a) (n - lv) lv h0) as (h & E & HJ).
      - intros k h Hk [HS HL]. unfold bump_body. rewrite (Hu k) by lia. cbn [deref rbind].
        assert (Huk : k < ht (h (u k))).
        { destruct (HS (u k)) as (_ & _ & _ & ->). apply Hh. lia. }
        rewrite rd_span_ok by done. cbn [rbind].
        destruct (wr_span_ok h (u k) k ((lnk h (u k) k).2 + 1)%Z Huk) as (h1 & -> & S1 & L1).
        exists h1. split; [done|]. split; [eapply same_trans; eassumption|].
        intros y j. rewrite L1. change (fwd (h y) j) with (lnk h y j).1. destruct (decide (j = k)) as [->|Hj].
        + rewrite !HL. rewrite (decide_False (P := lv <= k < k /\ y = u k)) by lia.
          rewrite (decide_False (P := lv <= k < k /\ u k = u k)) by lia.
          destruct (decide (y = u k)) as [->|Hy].
          * rewrite (decide_True (P := u k = u k /\ k = k)) by done. rewrite decide_True by (split; [lia|done]). done.
          * rewrite !decide_False by naive_solver. done.
        + rewrite (decide_False (P := y = u k /\ j = k)) by naive_solver. rewrite HL.
          destruct (decide (lv <= j < k /\ y = u j)); [rewrite decide_True by (split; [lia|naive_solver]); done|].
          rewrite decide_False; [done|]. intros [? ?]. apply n0. split; [lia|done].
      - split; [apply same_refl|]. intros y j. rewrite decide_False by lia. done.
      - exists h. destruct HJ as [HS HL]. replace (lv + (n - lv)) with n in HL by lia. split; [done|]. split; done.
    Qed.

    (** lines 335-342 *)
    Lemma unlink_loop x : (forall j, j < n -> u j <> x) ->
      (forall j, j < n -> (lnk h0 (u j) j).1 = Some x -> j < ht (h0 x)) ->
      exists h, for_up n 0 (unlink_body x a) h0 = Ok h /\ same_but_links h0 h /\
        forall y j, lnk h y j =
          if decide (j < n /\ y = u j) then
            if decide ((lnk h0 y j).1 = Some x) then ((lnk h0 x j).1, ((lnk h0 y j).2 + ((lnk h0 x j).2 - 1))%Z)
            else ((lnk h0 y j).1, ((lnk h0 y j).2 - 1)%Z)
          else lnk h0 y j.
    Proof.
      intros Hux Hxh.
      destruct (for_up_inv (fun k h => same_but_links h0 h /\
        forall y j, lnk h y j =
          if decide (j < k /\ y = u j) then
            if decide ((lnk h0 y j).1 = Some x) then ((lnk h0 x j).1, ((lnk h0 y j).2 + ((lnk h0 x j).2 - 1))%Z)
            else ((lnk h0 y j).1, ((lnk h0 y j).2 - 1)%Z)
          else lnk h0 y j)
        (unlink_body x a) n 0 h0) as (h & E & HJ).
      - intros k h Hk [HS HL]. unfold unlink_body. rewrite (Hu k) by lia. cbn [deref rbind].
        assert (Huk : k < ht (h (u k))).
        { destruct (HS (u k)) as (_ & _ & _ & ->). apply Hh. lia. }
        assert (Hne : u k <> x) by (apply Hux; lia).
        rewrite rd_fwd_ok, rd_span_ok by done. cbn [rbind].
        assert (Hk0 : forall y, lnk h y k = lnk h0 y k).
        { intros y. rewrite HL. by rewrite decide_False by lia. }
        rewrite !Hk0. destruct (decide ((lnk h0 (u k) k).1 = Some x)) as [Ef|Ef].
        + assert (Hxk : k < ht (h x)).
          { destruct (HS x) as (_ & _ & _ & ->). apply Hxh; [lia|done]. }
          rewrite rd_span_ok by done. cbn [rbind]. rewrite !Hk0.
          destruct (wr_span_ok h (u k) k ((lnk h0 (u k) k).2 + ((lnk h0 x k).2 - 1))%Z Huk) as (h1 & -> & S1 & L1). cbn [rbind].
          rewrite rd_fwd_ok by (by destruct (S1 x) as (_ & _ & _ & ->)). cbn [rbind].
          destruct (wr_fwd_ok h1 (u k) k (lnk h1 x k).1) as (h2 & -> & S2 & L2); [by destruct (S1 (u k)) as (_ & _ & _ & ->)|].
          exists h2. split; [done|]. split; [eapply same_trans; [exact HS|]; eapply same_trans; eassumption|].
          intros y j. rewrite L2. change (span (h1 y) j) with (lnk h1 y j).2. rewrite !L1. destruct (decide (j = k)) as [->|Hj].
          * rewrite !Hk0. destruct (decide (y = u k)) as [->|Hy].
            { rewrite (decide_True (P := k < k + 1 /\ _)) by (split; [lia|done]). repeat case_decide; naive_solver. }
            { rewrite !decide_False by naive_solver. done. }
          * rewrite !(decide_False (P := y = u k /\ j = k)) by naive_solver. rewrite HL.
            destruct (decide (j < k /\ y = u j)); [rewrite (decide_True (P := j < k + 1 /\ _)) by (split; [lia|naive_solver]); done|].
            rewrite (decide_False (P := j < k + 1 /\ _)); [done|]. intros [? ?]. apply n0. split; [lia|done].
        + destruct (wr_span_ok h (u k) k ((lnk h0 (u k) k).2 - 1)%Z Huk) as (h1 & -> & S1 & L1).
          exists h1. split; [done|]. split; [eapply same_trans; eassumption|].
          intros y j. rewrite L1. change (fwd (h y) j) with (lnk h y j).1. destruct (decide (j = k)) as [->|Hj].
          * rewrite !Hk0. destruct (decide (y = u k)) as [->|Hy].
            { rewrite (decide_True (P := u k = u k /\ k = k)) by done.
              rewrite (decide_True (P := k < k + 1 /\ _)) by (split; [lia|done]). rewrite decide_False by done. done. }
            { rewrite !decide_False by naive_solver. done. }
          * rewrite (decide_False (P := y = u k /\ j = k)) by naive_solver. rewrite HL.
            destruct (decide (j < k /\ y = u j)); [rewrite (decide_True (P := j < k + 1 /\ _)) by (split; [lia|naive_solver]); done|].
            rewrite (decide_False (P := j < k + 1 /\ _)); [done|]. intros [? ?]. apply n0. split; [lia|done].
      - split; [apply same_refl|]. intros y j. rewrite decide_False by lia. done.
      - exists h. destruct HJ as [HS HL]. split; [done|]. split; done.
    Qed.
  End loops.

  (** ** sequences *)
  Lemma arr_pos h a hd A i : Forall (fun l => 1 <= ht (h l)) A -> arr_at h a (hd :: A) 0 -> arr_at h a (hd :: A) i ->
    forall u, a.1 i = Some u -> exists C D, hd :: A = C ++ u :: D /\ i < ht (h u) /\ low (hts h) i D /\
      (a.2 0%nat - a.2 i)%Z = Z.of_nat (length D).
  Proof.
    intros HA (C0 & u0 & D0 & E0 & _ & R0 & _ & L0) (C & u' & D & E & Eu & R & Hi & L) u Eu2.
    rewrite Eu in Eu2. injection Eu2 as ->. exists C, D. splits; try done. rewrite R0, R.
    assert (D0 = []) as ->.
    { destruct D0 as [|d D0]; [done|]. apply Forall_cons in L0 as [L0 _].
      assert (d ∈ A) as Hd.
      { destruct C0 as [|c C0]; cbn in E0; injection E0 as -> E0; rewrite E0; [left|apply elem_of_app; right; right; left]. }
      rewrite Forall_forall in HA. apply HA in Hd. lia. }
    assert (length (hd :: A) = length (C0 ++ [u0])) as L1 by by rewrite E0.
    assert (length (hd :: A) = length (C ++ u :: D)) as L2 by by rewrite E.
    rewrite !app_length in *. cbn [length] in *. lia.
  Qed.

  (** the pointers written by an insertion are those of the longer sequence *)
  Lemma insert_links h h' (u d : nat -> nat) n lv hd A B x :
    linked_ok h n hd (A ++ B) -> lv <= n -> NoDup (hd :: A ++ B) -> x ∉ hd :: A ++ B ->
    (forall y, ht (h' y) = if decide (y = x) then lv else ht (h y)) ->
    (forall j, j < n -> exists C D, hd :: A = C ++ u j :: D /\ j < ht (h (u j)) /\ low (hts h) j D /\ d j = length D) ->
    (forall y j, j < n -> y <> x -> lnk h' y j =
      if decide (y = u j) then
        if decide (j < lv) then (Some x, Z.of_nat (S (d j))) else ((lnk h y j).1, ((lnk h y j).2 + 1)%Z)
      else lnk h y j) ->
    (forall j, j < lv -> lnk h' x j = ((lnk h (u j) j).1, ((lnk h (u j) j).2 - Z.of_nat (d j))%Z)) ->
    linked_ok h' n hd (A ++ x :: B).
  Proof.
    intros HL Hlv ND Hx HH HU HO HX C y R E i Hi Hn.
    destruct (HU i Hn) as (Ci & Di & EA & Hui & Hlow & Hd).
    assert (Hinx : forall z, z ∈ hd :: A ++ B -> ht (h' z) = ht (h z)).
    { intros z Hz. rewrite HH. rewrite decide_False; [done|]. intros ->. done. }
    assert (HuL : lnk h (u i) i = nx (hts h) i (Di ++ B)).
    { apply (HL Ci (u i)); [|done|done]. change (hd :: A ++ B) with ((hd :: A) ++ B). rewrite EA, <- app_assoc. done. }
    change (lnk h' y i = nx (hts h') i R).
    change (hd :: A ++ x :: B) with ((hd :: A) ++ x :: B) in E.
    destruct (split_cases _ _ _ _ _ _ E) as [(<- & <- & <-)|[(M & -> & ->)|(M & EA2 & ->)]].
    - (* the new node *)
      rewrite HH, decide_True in Hi by done. rewrite HX by done. rewrite HuL.
      rewrite nx_low_app by done. cbn [fst snd].
      rewrite (nx_ext (hts h') (hts h)) by (intros l Hl; apply Hinx; right; apply elem_of_app; by right).
      rewrite (surjective_pairing (nx (hts h) i B)) at 3. f_equal. lia.
    - (* behind the new node *)
      assert (Hyin : y ∈ hd :: A ++ M ++ y :: R).
      { right. apply elem_of_app. right. apply elem_of_app. right. left. }
      assert (Hyx : y <> x) by (intros ->; done).
      rewrite Hinx in Hi by done.
      rewrite HO by done. rewrite decide_False.
      2: { intros ->. change (hd :: A ++ M ++ u i :: R) with ((hd :: A) ++ M ++ u i :: R) in ND. rewrite EA in ND.
           rewrite <- app_assoc in ND. apply NoDup_app in ND as (_ & _ & ND). cbn in ND. apply NoDup_cons in ND as [N _].
           apply N. apply elem_of_app. right. apply elem_of_app. right. left. }
      rewrite (nx_ext (hts h') (hts h)).
      + apply (HL ((hd :: A) ++ M) y R); [|done|done]. cbn. by rewrite <- app_assoc.
      + intros l Hl. apply Hinx. right. apply elem_of_app. right. apply elem_of_app. right. by right.
    - (* before the new node *)
      assert (Hyin : y ∈ hd :: A ++ B).
      { change (hd :: A ++ B) with ((hd :: A) ++ B). rewrite EA2. apply elem_of_app. left. apply elem_of_app. right. left. }
      assert (HMin : forall l, l ∈ M -> l ∈ hd :: A ++ B).
      { intros l Hl. change (hd :: A ++ B) with ((hd :: A) ++ B). rewrite EA2. apply elem_of_app. left. apply elem_of_app. right. by right. }
      assert (Hyx : y <> x) by (intros ->; done).
      rewrite Hinx in Hi by done.
      rewrite HO by done.
      assert (HyL : lnk h y i = nx (hts h) i (M ++ B)).
      { apply (HL C y); [|done|done]. change (hd :: A ++ B) with ((hd :: A) ++ B). rewrite EA2, <- app_assoc. done. }
      assert (NDA : NoDup (hd :: A)).
      { change (hd :: A ++ B) with ((hd :: A) ++ B) in ND. by apply NoDup_app in ND as (? & _). }
      destruct (decide (y = u i)) as [Ey|Ey].
      + rewrite EA2, Ey in EA. destruct (split_unique (u i) C M Ci Di) as [<- <-]; [by rewrite EA2, Ey in NDA|done|].
        rewrite (nx_low_app (hts h')) by (eapply low_ext; [|exact Hlow]; intros l Hl; symmetry; by apply Hinx, HMin).
        assert (Hxlv : ht (h' x) = lv) by (rewrite HH, decide_True by done; done). cbn [nx]. rewrite Hxlv.
        destruct (decide (i < lv)) as [Hv|Hv].
        * cbn. f_equal. lia.
        * rewrite HyL, nx_low_app by done. cbn [fst snd].
          rewrite (nx_ext (hts h') (hts h)) by (intros l Hl; apply Hinx; right; apply elem_of_app; by right).
          f_equal. lia.
      + (* y is before u i *)
        assert (Hhi : ~ low (hts h) i M).
        { rewrite EA2 in EA. destruct (split_cases _ _ _ _ _ _ EA) as [(_ & -> & _)|[(M' & -> & ->)|(M' & -> & ->)]]; [done| |].
          - unfold low. rewrite Forall_app, Forall_cons. lia.
          - unfold low in Hlow. rewrite Forall_app, Forall_cons in Hlow. lia. }
        rewrite HyL, nx_hi_app by done.
        rewrite nx_hi_app.
        * apply nx_ext. intros l Hl. symmetry. by apply Hinx, HMin.
        * intros HL'. apply Hhi. eapply low_ext; [|exact HL']. intros l Hl. by apply Hinx, HMin.
  Qed.

  (** and those written by a deletion are those of the shorter one *)
  Lemma delete_links h h' (u : nat -> nat) n hd A B x :
    linked_ok h n hd (A ++ x :: B) -> NoDup (hd :: A ++ x :: B) ->
    (forall y, ht (h' y) = ht (h y)) ->
    (forall j, j < n -> exists C D, hd :: A = C ++ u j :: D /\ j < ht (h (u j)) /\ low (hts h) j D) ->
    (forall y j, lnk h' y j =
      if decide (j < n /\ y = u j) then
        if decide ((lnk h y j).1 = Some x) then ((lnk h x j).1, ((lnk h y j).2 + ((lnk h x j).2 - 1))%Z)
        else ((lnk h y j).1, ((lnk h y j).2 - 1)%Z)
      else lnk h y j) ->
    linked_ok h' n hd (A ++ B).
  Proof.
    intros HL ND HH HU HO C y R E i Hi Hn.
    destruct (HU i Hn) as (Ci & Di & EA & Hui & Hlow).
    change (lnk h' y i = nx (hts h') i R).
    rewrite HH in Hi.
    rewrite (nx_ext (hts h') (hts h)) by (intros; apply HH).
    change (hd :: A ++ x :: B) with ((hd :: A) ++ x :: B) in ND.
    change (hd :: A ++ B) with ((hd :: A) ++ B) in E.
    assert (HBn : forall l, l ∈ hd :: A -> l ∉ x :: B).
    { apply NoDup_app in ND as (_ & ND & _). exact ND. }
    assert (HuA : u i ∈ hd :: A) by (rewrite EA; apply elem_of_app; right; left).
    assert (Hy : (exists M, hd :: A = C ++ y :: M /\ R = M ++ B) \/ (exists M, C = (hd :: A) ++ M /\ B = M ++ y :: R)).
    { destruct B as [|b B].
      - left. exists R. rewrite app_nil_r in E. rewrite app_nil_r. done.
      - destruct (split_cases _ _ _ _ _ _ E) as [(<- & -> & ->)|[(M & -> & ->)|(M & EA2 & ->)]].
        + right. exists []. by rewrite app_nil_r.
        + right. exists (b :: M). done.
        + left. by exists M. }
    rewrite HO. destruct Hy as [(M & EA2 & ->)|(M & -> & ->)].
    - assert (HyL : lnk h y i = nx (hts h) i (M ++ x :: B)).
      { apply (HL C y); [|done|done]. change (hd :: A ++ x :: B) with ((hd :: A) ++ x :: B). rewrite EA2, <- app_assoc. done. }
      assert (NDA : NoDup (hd :: A)) by (by apply NoDup_app in ND as (? & _)).
      assert (Hx : (i < ht (h x) -> lnk h x i = nx (hts h) i B)).
      { intros Hxi. apply (HL (hd :: A) x B); done. }
      destruct (decide (y = u i)) as [Ey|Ey].
      + rewrite (decide_True (P := i < n /\ y = u i)) by done.
        rewrite EA2, Ey in EA. destruct (split_unique (u i) C M Ci Di) as [<- <-]; [by rewrite EA2, Ey in NDA|done|].
        rewrite HyL, !nx_low_app by done. cbn [fst snd]. cbn [nx].
        destruct (decide (i < ht (h x))) as [Hxi|Hxi].
        * cbn [fst snd]. rewrite decide_True by done. rewrite (Hx Hxi). f_equal. lia.
        * cbn [fst snd]. rewrite decide_False.
          { f_equal. lia. }
          intros Ex. destruct (nx (hts h) i B) as [o d] eqn:EN. cbn in Ex. subst o.
          destruct (nx_some _ _ _ _ _ EN) as (P & Q & _ & _ & Hx2 & _). done.
      + rewrite decide_False by naive_solver.
        assert (Hhi : ~ low (hts h) i M).
        { rewrite EA2 in EA. destruct (split_cases _ _ _ _ _ _ EA) as [(_ & -> & _)|[(M' & -> & ->)|(M' & -> & ->)]]; [done| |].
          - unfold low. rewrite Forall_app, Forall_cons. lia.
          - unfold low in Hlow. rewrite Forall_app, Forall_cons in Hlow. lia. }
        rewrite HyL, !nx_hi_app by done. done.
    - rewrite decide_False.
      + apply (HL ((hd :: A) ++ x :: M) y R); [|done|done]. cbn. by rewrite <- app_assoc.
      + intros [_ ->]. apply (HBn (u i) HuA). right. apply elem_of_app. right. left.
  Qed.
End mut.
