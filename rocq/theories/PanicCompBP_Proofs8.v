(** Proofs for C75: all histories with abandoned calls. *)
From Verif Require Import Base BPlus_Model BPlus_Spec BPlus_Proofs BPlus_Proofs2 BPlus_Proofs3 BPlus_Proofs4 BPlus_Proofs5 BPlus_Proofs6 BPlus_Proofs7 BPlus_Proofs8 BPlus_Proofs9 BPlus_Proofs10 BPlus_Proofs11 BPlus_Proofs12.
From Verif Require Import PanicComp_Model PanicComp_Spec PanicComp_Proofs PanicCompBP_Model PanicCompBP_Spec PanicCompBP_Proofs PanicCompBP_Proofs2 PanicCompBP_Proofs3 PanicCompBP_Proofs4 PanicCompBP_Proofs5 PanicCompBP_Proofs6 PanicCompBP_Proofs7.

Section all.
  Context {K V : Type} (kzero : K) (vzero : V) (comp : K -> K -> Z) (compV : V -> V -> Z).
  Implicit Types (t : @tree K V) (w : list (@item K V)) (h : nat -> @node K V).
  Notation child := (nat * list nat * list (@item K V))%type.

  Lemma doubled_length (es es' : list (K * V)) : doubled es es' -> length es' = length es.
  Proof. intros [->|(a & x & b & z & c & -> & ->)]; [done|]. rewrite !app_length; cbn; rewrite !app_length; cbn. lia. Qed.

  (** an abandoned insertion into a tree whose root has no key left *)
  Lemma insert_c_hollow t d w p n t' : 2 <= degree t -> tree_hollow t d w ->
    insert_c kzero vzero comp (root t) p t n = Crash t' ->
    same_meta t t' /\ exists d' w', doubled (entries w) (entries w') /\ tree_stays t' d' w'.
  Proof.
    intros HM T HC. split; [exact (ab_meta_insert kzero vzero comp _ _ t t (sm_refl t) _ _ HC)|].
    pose proof (hollow_fuel _ _ _ T) as Hf. pose proof T as T0. destruct T as (r & y & nx & vs & cs & fp & Er & Hr & Lv & Lc & R & Hn & ND & Hb & Hs).
    unfold insert_c in HC. rewrite Er, Hr in HC. cbn [num] in HC. rewrite decide_False in HC by lia.
    apply bind_crash in HC as [HC|(? & ? & _ & HC)]; [|discriminate].
    cbn [insert_non_full_c] in HC. rewrite Hr in HC. cbn [num vals leaf kids down_pos_c] in HC.
    unfold cbnd at 1 in HC. cbn [cret] in HC. do 2 (unfold cbnd at 1 in HC; cbn [cl aget lookup list_lookup deref] in HC).
    pose proof (reads_lengths _ _ _ _ _ _ R) as (_ & _ & Hnm & _).
    pose proof ND as ND0. apply NoDup_cons in ND as [Hrf ND]. pose proof Hb as Hb0. apply Forall_cons in Hb as [Hb1 Hb].
    destruct (decide (2 * degree t - 1 = num (hp t y))) as [Full|NF]; cycle 1.
    - unfold cbnd at 1 in HC. cbn [cret] in HC. rewrite Hr in HC. cbn [kids] in HC. do 2 (unfold cbnd at 1 in HC; cbn [cl aget lookup list_lookup deref] in HC).
      destruct (insert_cut kzero vzero comp d (brk t) t y fp w p n t') as (fp' & w' & A1 & A2 & A3 & A4 & A5 & A6 & A7 & A8 & A9 & A10); try done; try lia.
      destruct A2 as (A2 & _). exists d, w'. split; [done|]. right.
      apply (hollow_again kzero comp t t' d w' r y nx vs cs fp fp'); try done.
      + by apply A5.
      + lia.
      + rewrite A8, (doubled_length _ _ A2). done.
    - destruct (hollow_split kzero vzero comp t d w r y nx vs cs fp HM Er Hr Lv Lc R ND0 Hb0 Full)
        as (t1 & k & fp1 & fp2 & w1 & w2 & J & JC & ES & (Ms & Md & Mr) & Eb & H1 & F1 & F2 & ND1 & Hb2 & Ny & Nz & Sr).
      destruct (split_reading_facts comp (degree t) [] w w1 w2 k [] Sr) as (Sf1 & _ & _ & _). cbn [app] in Sf1. rewrite !app_nil_r in Sf1.
      assert (Ep1 : wpre [w1] [k] = w1 ++ [Sep k]) by (unfold wpre; cbn; by rewrite app_nil_r).
      assert (Fin : forall fp' w', cut_res comp t1 t' r (S d) (r :: fp1 ++ fp2) (w1 ++ Sep k :: w2) fp' w' ->
        exists d' w', doubled (entries w) (entries w') /\ tree_stays t' d' w').
      { intros fp' w' (A1 & (A2 & _) & A3 & A4 & A5 & A6 & A7 & A8 & A9 & A10). exists (S d), w'. rewrite Sf1 in A2. split; [done|]. left.
        exists r, fp'. rewrite A10, A9, A8, Mr, Ms, Md. rewrite Md in A1. splits; try done.
        - apply Forall_forall. intros x Hx. rewrite Forall_forall in Hb2. destruct (A4 x Hx) as [H|H]; [specialize (Hb2 x H)|]; lia.
        - by rewrite (doubled_length _ _ A2). }
      rewrite ES in HC. apply bind_crash in HC as [HC|([t2 pos] & n2 & HD & HC)].
      { unfold cbnd at 1 in HC. cbn [cl] in HC. rewrite H1 in HC. cbn [vals] in HC. unfold cbnd at 1 in HC. cbn [cl aget lookup list_lookup deref] in HC.
        apply bind_crash in HC as [HC|(z & n3 & _ & HC)]; [|discriminate].
        destruct n; [|discriminate]. cbn in HC. injection HC as <-.
        apply (Fin (r :: fp1 ++ fp2) (w1 ++ Sep k :: w2)), cut_same; [|done]. rewrite Md.
        apply (focus_reads kzero comp) in F2. unfold focus_fp, focus_w in F2. cbn [fmap list_fmap concat fst snd] in F2. rewrite Ep1 in F2.
        unfold wpost in F2. cbn [zip_with concat] in F2. rewrite ?app_nil_r, <- ?app_assoc in F2. exact F2. }
      unfold cbnd at 1 in HD. cbn [cl] in HD. rewrite H1 in HD. cbn [vals] in HD. unfold cbnd at 1 in HD. cbn [cl aget lookup list_lookup deref] in HD.
      apply bind_done in HD as (z & n3 & Ez & HD). injection HD as <- <- <-. clear Ez.
      rewrite H1 in HC. cbn [kids] in HC. destruct (z <? 0)%Z.
      + do 2 (unfold cbnd at 1 in HC; cbn [cl aget Nat.add lookup list_lookup deref] in HC).
        destruct (descend_cut kzero vzero comp d (insert_cut kzero vzero comp d) (brk t) t1 r nx [k] [] J [(y, fp1, w1)] (brk t, fp2, w2) [] JC p n3 t') as (fp' & w' & Q).
        * lia.
        * lia.
        * by rewrite Md.
        * rewrite Md. cbn. done.
        * unfold focus_fp. cbn [fmap list_fmap concat fst snd]. by rewrite !app_nil_r.
        * unfold focus_fp. cbn [fmap list_fmap concat fst snd]. by rewrite !app_nil_r.
        * exact HC.
        * apply (Fin fp' w'). revert Q. unfold focus_fp, focus_w. cbn [fmap list_fmap concat fst snd]. rewrite Ep1.
          unfold wpost. cbn [zip_with concat]. rewrite ?app_nil_r, <- ?app_assoc. done.
      + do 2 (unfold cbnd at 1 in HC; cbn [cl aget Nat.add lookup list_lookup deref] in HC).
        destruct (descend_cut kzero vzero comp d (insert_cut kzero vzero comp d) (brk t) t1 r nx [] [k] J [] (y, fp1, w1) [(brk t, fp2, w2)] JC p n3 t') as (fp' & w' & Q).
        * lia.
        * lia.
        * by rewrite Md.
        * rewrite Md. cbn. done.
        * unfold focus_fp. cbn [fmap list_fmap concat fst snd app]. by rewrite !app_nil_r.
        * unfold focus_fp. cbn [fmap list_fmap concat fst snd app]. by rewrite !app_nil_r.
        * exact HC.
        * apply (Fin fp' w'). revert Q. unfold focus_fp, focus_w. cbn [fmap list_fmap concat fst snd app]. rewrite wpost_cons.
          unfold wpre, wpost. cbn [zip_with concat app]. rewrite ?app_nil_r. done.
  Qed.

  (** ** one call on a tree in either shape *)
  Lemma stays_reading t d w : tree_stays t d w -> reading t = w.
  Proof. intros [H|H]; [by eapply stands_reading|by eapply hollow_reading]. Qed.
  Lemma stays_le t d w : tree_stays t d w -> (Z.of_nat (length (entries w)) <= size t)%Z.
  Proof. intros [(?&?&?&?&?&?&H)|(?&?&?&?&?&?&?&?&?&?&?&?&?&?&H)]; done. Qed.
  Lemma found_entry_stays k t d w : tree_stays t d w ->
    exists o, found_entry comp k t = Ok o /\ contains_key comp k t = Ok (bool_decide (is_Some o))
      /\ (forall e, o = Some e -> comp k e.1 = 0%Z /\ e ∈ entries w).
  Proof. intros [H|H]; [by eapply found_entry_stands|by eapply found_entry_hollow]. Qed.
  Lemma insert_stays t d w p : 2 <= degree t -> tree_stays t d w ->
    exists t' r d' w', insert kzero vzero comp (root t) p t = Ok (t', Some r)
      /\ tree_stays (set_root (Some r) t') d' w' /\ entries w' ≡ₚ p :: entries w /\ degree t' = degree t /\ size t' = (size t + 1)%Z.
  Proof.
    intros HM [T|T].
    - destruct (insert_stands kzero vzero comp t d w p HM T) as (t' & r & d' & w' & E & A1 & (A2 & _) & A3 & A4). exists t', r, d', w'. splits; try done. by left.
    - by eapply insert_hollow.
  Qed.
  (** [part es es']: what an abandoned call may leave of the entries *)
  Lemma insert_c_stays t d w p n t' : 2 <= degree t -> tree_stays t d w -> insert_c kzero vzero comp (root t) p t n = Crash t' ->
    same_meta t t' /\ exists d' w', (forall e, e ∈ entries w' -> e ∈ entries w) /\ tree_stays t' d' w'.
  Proof.
    intros HM [T|T] HC.
    - split; [exact (ab_meta_insert kzero vzero comp _ _ t t (sm_refl t) _ _ HC)|].
      destruct (insert_c_cut kzero vzero comp t d w p n t' HM T HC) as (w' & es & lost & (A1 & A2 & _) & A3 & _).
      exists d, w'. split; [|by left]. intros e He. rewrite A3. apply elem_of_app. left. by apply (doubled_in kzero vzero comp compV _ _ _ A2).
    - destruct (insert_c_hollow t d w p n t' HM T HC) as (A1 & d' & w' & A2 & A3). split; [done|]. exists d', w'. split; [|done].
      intros e He. by apply (doubled_in kzero vzero comp compV _ _ _ A2).
  Qed.
  Lemma over_in (es es' : list (K * V)) e : es' = es \/ overwrite es es' -> e ∈ es' -> e ∈ es.
  Proof. intros [->|(a & b & z & c & -> & ->)]; [done|]. repeat rewrite ?elem_of_app, ?elem_of_cons. tauto. Qed.
  Lemma delete_stays t d w k : 2 <= degree t -> tree_stays t d w -> entries w <> [] ->
    delete comp (root t) k t = Panic
    \/ exists t' r d' w', delete comp (root t) k t = Ok (t', Some r) /\ tree_stays (set_root (Some r) t') d' w' /\ degree t' = degree t
       /\ forall e, e ∈ entries w' -> e ∈ entries w.
  Proof.
    intros HM T Hne.
    assert (Sub : forall d es es' sz sz', del_effect comp d k es es' sz sz' -> forall e : K * V, e ∈ es' -> e ∈ es).
    { clear -k kzero vzero comp compV. intros d es es' sz sz' (es1 & H1 & H2) e He.
      assert (H3 : e ∈ es1). { destruct H2 as [[<- _]|((a & x & c & -> & E & _) & _)]; [done|]. rewrite E in He. apply elem_of_app in He. rewrite elem_of_app, elem_of_cons. tauto. }
      eapply over_in; [|exact H3]. destruct H1 as [|[_ ?]]; auto. }
    destruct T as [T|T].
    - destruct (delete_stands comp t d w k HM T Hne) as [?|(t' & r & d' & w' & E & A1 & A2 & A3)]; [by left|right].
      exists t', r, d', w'. splits; try done; [by left|]. by eapply Sub.
    - destruct (delete_hollow kzero comp t d w k HM T) as [?|(t' & r & w' & E & A1 & A2 & A3)]; [by left|right].
      exists t', r, d, w'. splits; try done; [by right|]. by eapply Sub.
  Qed.
  Lemma delete_c_stays t d w k n t' : 2 <= degree t -> tree_stays t d w -> entries w <> [] -> delete_c comp (root t) k t n = Crash t' ->
    same_meta t t' /\ exists d' w', (forall e, e ∈ entries w' -> e ∈ entries w) /\ tree_stays t' d' w'.
  Proof.
    intros HM [T|T] Hne HC.
    - destruct (delete_c_cut comp t d w k n t' HM T Hne HC) as (A1 & w' & A2 & A3). split; [done|].
      destruct A3 as [A3|(d' & _ & A3)].
      + exists d, w'. split; [|by left]. intros e He. by eapply over_in.
      + exists d', w'. split; [|by right]. intros e He. by eapply over_in.
    - destruct (delete_c_hollow kzero comp t d w k n t' HM T HC) as (A1 & w' & A2 & A3). split; [done|].
      exists d, w'. split; [|by right]. intros e He. by eapply over_in.
  Qed.

  (** what one call may do *)
  Definition stay_ok t (o : @op K V) w (c : cr (@tree K V) (@tree K V * @reply V)) : Prop :=
    match c with
    | Done (t', r) _ => exists d' w', tree_stays t' d' w' /\ degree t' = degree t
        /\ forall e, e ∈ entries w' -> e ∈ entries w \/ e ∈ stored [o] [r]
    | Crash t' => exists d' w', tree_stays t' d' w' /\ degree t' = degree t /\ forall e, e ∈ entries w' -> e ∈ entries w
    | CPanic => ~ no_delete o
    | CFuel => False
    end.
  Lemma rec_panic {A} (m : cm (@tree K V) A) n : recovers m Panic -> m n = CPanic \/ (exists s, m n = Crash s).
  Proof.
    intros (k & H1 & H2). destruct (decide (n < k)) as [L|L]; [right; by apply H1|left].
    specialize (H2 (n - k)). replace (k + (n - k)) with n in H2 by lia. rewrite H2. done.
  Qed.
  Lemma ins_stay t d w p n : 2 <= degree t -> tree_stays t d w ->
    forall o, (forall r, r = RBool true -> stored [o] [r] = [p]) ->
    stay_ok t o w ((let^ (t, b) := (let^ (t, r) := insert_c kzero vzero comp (root t) p t in cret (set_root r t, true)) in cret (t, RBool b)) n).
  Proof.
    intros HM T o Ho. destruct (insert_stays t d w p HM T) as (t1 & r1 & d1 & w1 & E & A1 & A2 & A3 & A4).
    pose proof (rec_insert kzero vzero comp (root t) p t) as RC. rewrite E in RC. apply (rec_cases kzero vzero comp compV _ _ n) in RC as [(n' & RC)|(s & RC)].
    - unfold cbnd. rewrite RC. cbn [cret stay_ok]. exists d1, w1. rewrite Ho by done. splits; try done.
      intros e. rewrite A2, elem_of_cons. intros [->|H]; [right; by left|by left].
    - unfold cbnd. rewrite RC. destruct (insert_c_stays t d w p n s HM T RC) as ((_ & B1 & _) & d' & w' & B2 & B3). exists d', w'. splits; done.
  Qed.
  Lemma del_stay t d w k n o : 2 <= degree t -> tree_stays t d w -> ~ no_delete o -> stay_ok t o w (bpair_c (delete_key_c comp k t) n).
  Proof.
    intros HM T Ho. destruct (found_entry_stays k t d w T) as (oe & _ & E & So).
    pose proof (rec_contains_key comp k t) as RC. rewrite E in RC. apply (rec_cases kzero vzero comp compV _ _ n) in RC as [(n' & RC)|(s & RC)]; cycle 1.
    { unfold bpair_c, delete_key_c, cbnd. rewrite RC. destruct (ab_contains_key comp k t n s RC). exists d, w. splits; done. }
    unfold bpair_c, delete_key_c, cbnd. rewrite RC. destruct oe as [e|]; cycle 1.
    { rewrite bool_decide_false by by intros [? ?]. cbn [cret]. exists d, w. splits; try done. by left. }
    rewrite bool_decide_true by by eexists. destruct (So e eq_refl) as [_ He].
    assert (Hne : entries w <> []). { intros H. rewrite H in He. by apply elem_of_nil in He. }
    assert (HC : forall s, delete_c comp (root t) k t n' = Crash s -> exists d' w', tree_stays s d' w' /\ degree s = degree t /\ forall e, e ∈ entries w' -> e ∈ entries w).
    { intros s Hs. destruct (delete_c_stays t d w k n' s HM T Hne Hs) as ((_ & B1 & _) & d' & w' & B2 & B3). exists d', w'. splits; done. }
    pose proof (rec_delete comp (root t) k t) as RD.
    destruct (delete_stays t d w k HM T Hne) as [EP|(t1 & r1 & d1 & w1 & E1 & A1 & A2 & A3)].
    - rewrite EP in RD. apply (rec_panic _ n') in RD as [RD|(s & RD)]; rewrite RD; [done|]. cbn [stay_ok]. by apply HC.
    - rewrite E1 in RD. apply (rec_cases kzero vzero comp compV _ _ n') in RD as [(m & RD)|(s & RD)]; rewrite RD; [|by apply HC].
      cbn [cret stay_ok]. exists d1, w1. splits; try done. intros e' He'. left. by apply A3.
  Qed.
  Lemma op_stay t d w o n : 2 <= degree t -> tree_stays t d w -> stay_ok t o w (do_op_c kzero vzero comp compV o t n).
  Proof.
    intros HM T. destruct o as [k v|k v|k|k v|k]; cbn [do_op_c].
    - unfold bpair_c, insert_equal_c. eapply ins_stay; [done|done|]. by intros ? ->.
    - destruct (found_entry_stays k t d w T) as (o & _ & E & _).
      pose proof (rec_contains_key comp k t) as RC. rewrite E in RC. apply (rec_cases kzero vzero comp compV _ _ n) in RC as [(n' & RC)|(s & RC)]; cycle 1.
      { unfold bpair_c, insert_unique_c, cbnd. rewrite RC. destruct (ab_contains_key comp k t n s RC). exists d, w. splits; done. }
      destruct (bool_decide (is_Some o)) eqn:B.
      + unfold bpair_c, insert_unique_c, cbnd. rewrite RC. cbn [cret]. exists d, w. splits; try done. by left.
      + pose proof (ins_stay t d w (k, v) n' HM T (InsertUnique k v)) as G. unfold bpair_c, insert_unique_c. unfold cbnd at 1 2. rewrite RC.
        unfold cbnd at 1 in G. apply G. by intros ? ->.
    - eapply del_stay; [done|done|]. by intros [].
    - destruct (found_entry_stays k t d w T) as (o & E & _ & _).
      pose proof (rec_found_entry comp k t) as RC. rewrite E in RC. apply (rec_cases kzero vzero comp compV _ _ n) in RC as [(n' & RC)|(s & RC)]; cycle 1.
      { unfold bpair_c, delete_by_whole_mapping_c, cbnd. rewrite RC. destruct (ab_found_entry comp k t n s RC). exists d, w. splits; done. }
      assert (No : forall m, stay_ok t (DeleteWhole k v) w (Done (t, RBool false) m)).
      { intros m. exists d, w. splits; try done. by left. }
      unfold bpair_c, delete_by_whole_mapping_c. unfold cbnd at 1 2. rewrite RC. destruct o as [e|]; [|apply No].
      unfold cbnd at 1, ask. destruct n' as [|n']; [exists d, w; splits; done|]. destruct (_ <? _)%Z; [|apply No].
      pose proof (del_stay t d w k n' (DeleteWhole k v) HM T ltac:(by intros [])) as G. unfold bpair_c, cbnd at 1 in G. exact G.
    - destruct (found_entry_stays k t d w T) as (o & E & _ & _).
      assert (RC : recovers (get_verify_c vzero comp k t) (Ok (match o with Some e => (e.2, true) | None => (vzero, false) end))).
      { pose proof (rec_found_entry comp k t) as RC. rewrite E in RC. unfold get_verify_c.
        apply (rec_bind _ (Ok o) _ (fun e => Ok (match e with Some e => (e.2, true) | None => (vzero, false) end))); [done|]. intros a [= <-]. apply rec_ret. }
      apply (rec_cases kzero vzero comp compV _ _ n) in RC as [(n' & RC)|(s & RC)].
      + unfold cbnd. rewrite RC. destruct (match o with Some _ => _ | None => _ end). cbn [cret]. exists d, w. splits; try done. by left.
      + unfold cbnd. rewrite RC. destruct (ab_get_verify vzero comp k t n s RC). exists d, w. splits; done.
  Qed.
  Lemma run_c_stays os : forall t d w, 2 <= degree t -> tree_stays t d w ->
    (bp_run_c kzero vzero comp compV os t = Panic /\ ~ Forall (fun o => no_delete o.1) os)
    \/ exists t' rs d' w', bp_run_c kzero vzero comp compV os t = Ok (t', rs) /\ length rs = length os
      /\ tree_stays t' d' w' /\ degree t' = degree t
      /\ forall e, e ∈ entries w' -> e ∈ entries w \/ e ∈ stored_c os rs.
  Proof.
    induction os as [|[o n] os IH]; intros t d w HM T.
    { right. exists t, [], d, w. splits; try done. by left. }
    pose proof (op_stay t d w o n HM T) as C. cbn [bp_run_c].
    destruct (do_op_c kzero vzero comp compV o t n) as [[t1 r1] n1|t1| |]; cbn [stay_ok] in C; [| | |done].
    - destruct C as (d1 & w1 & A1 & A2 & A5). cbn [fst snd].
      destruct (IH t1 d1 w1) as [[-> HF]|(t' & rs & d' & w' & B1 & B2 & B3 & B4 & B7)]; [lia|done| |].
      { left. split; [done|]. by intros [_ ?]%Forall_cons. }
      right. rewrite B1. cbn [rbind]. exists t', (Some r1 :: rs), d', w'. splits; try done.
      + cbn. lia.
      + congruence.
      + intros e He. destruct (B7 e He) as [H|H]; [destruct (A5 e H) as [H'|H']; [by left|right]|right];
          destruct o, r1 as [[]|]; cbn [stored_c stored] in *; try done; try by apply elem_of_nil in H'.
        all: apply elem_of_cons; auto.
        all: apply elem_of_list_singleton in H'; by left.
    - destruct C as (d1 & w1 & A1 & A2 & A5).
      destruct (IH t1 d1 w1) as [[-> HF]|(t' & rs & d' & w' & B1 & B2 & B3 & B4 & B7)]; [lia|done| |].
      { left. split; [done|]. by intros [_ ?]%Forall_cons. }
      right. rewrite B1. cbn [rbind]. exists t', (None :: rs), d', w'. splits; try done.
      + cbn. lia.
      + congruence.
      + intros e He. destruct (B7 e He) as [H|H]; [left; auto|right]. destruct o; done.
    - left. split; [done|]. by intros [? _]%Forall_cons.
  Qed.
End all.
