(** Proofs for C81, the skip list. *)
From Verif Require Import Base Iter_Model Iter_Spec SkipList_Model SkipList_Spec SkipList_Proofs SkipList_Proofs2 SkipList_Proofs3 SkipList_Proofs4.
From Verif Require Import PanicComp_Model PanicCompSL_Model PanicComp_Spec PanicCompSL_Spec PanicComp_Proofs PanicCompSL_Proofs PanicCompSL_Proofs2.
From Verif Require Import Nil_Spec.

Section sl.
  Context {K V : Type} (kzero : K) (vzero : V) (comp : K -> K -> Z).
  Implicit Types s : slist K V.
  Notation hts h := (fun l => ht (h l)).

  Lemma hdr_links s ns i : repr s ns -> i < level s -> i < ht (hp s (hdr s)) /\ fwd (hp s (hdr s)) i = (nx (hts (hp s)) i ns).1.
  Proof.
    intros H Hi. pose proof (r_lv _ _ H). assert (i < ht (hp s (hdr s))) by (rewrite (r_hdr _ _ H); lia). split; [done|].
    pose proof (r_links _ _ H [] (hdr s) ns eq_refl i ltac:(done) Hi) as E. by rewrite <- E.
  Qed.
  (** a walk from the header *)
  Lemma walk_nil s ns ans b i fuel r : repr s ns -> i < level s -> 0 < fuel ->
    walk_c comp fuel s ans b i (hdr s) r 0 = match (nx (hts (hp s)) i ns).1 with Some _ => Crash s | None => Done (hdr s, r) 0 end.
  Proof.
    intros H Hi Hf. destruct (hdr_links s ns i H Hi) as [Hh E]. destruct fuel as [|fuel]; [lia|]. cbn [walk_c].
    unfold rd_fwd. rewrite decide_True by done. rewrite E. cbn. by destruct (nx _ _ _).1.
  Qed.
  Lemma nx0 s ns : repr s ns -> ns <> [] -> (nx (hts (hp s)) 0 ns).1 <> None.
  Proof.
    intros H Hn. destruct ns as [|x ns]; [done|]. cbn. pose proof (r_ht _ _ H) as F. apply Forall_cons in F as [F _].
    rewrite decide_True; [done|]. cbn. lia.
  Qed.
  Lemma descend_nil_empty s ans b fuel n r a : repr s [] -> 0 < fuel -> n <= level s ->
    exists a', descend_c comp fuel s ans b n (hdr s) r a 0 = Done (hdr s, a') 0 /\ (0 < n -> a'.1 0 = Some (hdr s)) /\ (n = 0 -> a' = a).
  Proof.
    intros H Hf. revert r a. induction n as [|n IH]; intros r a Hn; [exists a; splits; [done|lia|done]|]. cbn [descend_c].
    unfold cbnd at 1. rewrite (walk_nil s [] ans b n fuel r H) by lia. cbn [nx fst].
    destruct (IH r (<[n := Some (hdr s)]> a.1, <[n := r]> a.2) ltac:(lia)) as (a' & -> & A & B). exists a'. splits; [done| |done].
    intros _. destruct n as [|n]; [|apply A; lia]. rewrite B by done. cbn. by rewrite fn_lookup_insert.
  Qed.
  Lemma descend_nil_crash s ns ans b fuel n r a : repr s ns -> ns <> [] -> 0 < fuel -> 0 < n <= level s ->
    descend_c comp fuel s ans b n (hdr s) r a 0 = Crash s.
  Proof.
    intros H Hne Hf. revert r a. induction n as [|n IH]; intros r a Hn; [lia|]. cbn [descend_c].
    unfold cbnd at 1. rewrite (walk_nil s ns ans b n fuel r H) by lia.
    destruct (nx _ n ns).1 eqn:E; [done|]. destruct n as [|n]; [by apply nx0 in E|]. apply IH. lia.
  Qed.
  Lemma search_nil s ns k fuel : repr s ns -> 0 < fuel -> sl_search_c comp fuel s k 0 = Crash s.
  Proof.
    intros H Hf. unfold sl_search_c. pose proof (r_lv _ _ H) as Hl. destruct (level s) as [|n] eqn:El; [lia|]. cbn [search_from_c].
    unfold cbnd at 1. rewrite (walk_nil s ns _ k n fuel 0 H) by lia. by destruct (nx _ n ns).1.
  Qed.
  Lemma delete_nil s ns k fuel : repr s ns -> 0 < fuel ->
    sl_delete_c comp fuel s k 0 = match ns with [] => Done (false, s) 0 | _ => Crash s end.
  Proof.
    intros H Hf. pose proof (r_lv _ _ H) as Hl. unfold sl_delete_c. unfold cbnd at 1. destruct ns as [|x ns].
    - destruct (descend_nil_empty s (fun c => bool_decide (c = 0%Z)) k fuel (level s) 0 no_arrays H Hf ltac:(lia)) as (a & -> & _ & _).
      destruct (hdr_links s [] 0 H ltac:(lia)) as [Hh E]. unfold cbnd, cl, rd_fwd. rewrite decide_True by done. by rewrite E.
    - by rewrite (descend_nil_crash s (x :: ns)) by (done || lia).
  Qed.
  Lemma delete_keys_nil s ks fuel : repr s [] -> 0 < fuel -> sl_delete_keys_c comp fuel s ks 0 = Done (0%Z, s) 0.
  Proof.
    intros H Hf. induction ks as [|k ks IH]; [done|]. cbn [sl_delete_keys_c]. unfold cbnd at 1. rewrite (delete_nil s [] k fuel H Hf).
    unfold cbnd. by rewrite IH.
  Qed.
  Lemma insert_nil s ns k v u draw fuel : repr s ns -> 0 < fuel -> 
    sl_insert_c comp fuel s k v u draw 0 =
      match ns with [] => sl_insert_c comp fuel s k v u draw 0 | _ => Crash s end /\
    (ns = [] -> forall s', sl_insert_c comp fuel s k v u draw 0 <> Crash s').
  Proof.
    intros H Hf. pose proof (r_lv _ _ H) as Hl. destruct ns as [|x ns].
    - split; [done|]. intros _ s'. unfold sl_insert_c. unfold cbnd at 1.
      destruct (descend_nil_empty s (fun c => bool_decide (c = 0%Z)) k fuel (level s) 0 no_arrays H Hf ltac:(lia)) as (a & -> & A & _).
      destruct (hdr_links s [] 0 H ltac:(lia)) as [Hh E]. unfold cbnd, cl, rd_fwd. rewrite (A ltac:(lia)). cbn [deref].
      rewrite decide_True by done. rewrite E. cbn [nx fst]. destruct u; cbn; by destruct (sl_insert_rest _ _ _ _ _).
    - split; [|done]. unfold sl_insert_c. unfold cbnd at 1. by rewrite (descend_nil_crash s (x :: ns)) by (done || lia).
  Qed.

  Lemma step_nil s ns o fuel : repr s ns -> zero_hdr kzero vzero s -> length ns < fuel -> length ns <= 1 ->
    exists ns', repr (match sl_step_c vzero comp kzero fuel s o 0 with Done r _ => r.2 | Crash s' => s' | _ => s end) ns' /\
    zero_hdr kzero vzero (match sl_step_c vzero comp kzero fuel s o 0 with Done r _ => r.2 | Crash s' => s' | _ => s end) /\
    length ns' <= 1 /\
    match sl_step_c vzero comp kzero fuel s o 0 with
    | Done r _ => nil_skip (ents s ns) o = (Some r.1, ents r.2 ns')
    | Crash s' => nil_skip (ents s ns) o = (None, ents s ns) /\ s' = s /\ ns' = ns
    | _ => False
    end.
  Proof.
    intros HR HZ Hf H1. pose proof (sl_step_c_ok kzero vzero comp fuel s ns o 0 HR HZ Hf) as H.
    assert (Crash' : forall o, sl_step_c vzero comp kzero fuel s o 0 = Crash s -> nil_skip (ents s ns) o = (None, ents s ns) ->
      exists ns', repr (match sl_step_c vzero comp kzero fuel s o 0 with Done r _ => r.2 | Crash s' => s' | _ => s end) ns' /\
      zero_hdr kzero vzero (match sl_step_c vzero comp kzero fuel s o 0 with Done r _ => r.2 | Crash s' => s' | _ => s end) /\
      length ns' <= 1 /\
      match sl_step_c vzero comp kzero fuel s o 0 with
      | Done r _ => nil_skip (ents s ns) o = (Some r.1, ents r.2 ns')
      | Crash s' => nil_skip (ents s ns) o = (None, ents s ns) /\ s' = s /\ ns' = ns
      | _ => False
      end).
    { intros o' -> E. by exists ns. }
    assert (Same : forall o r n, sl_step_c vzero comp kzero fuel s o 0 = Done (r, s) n -> nil_skip (ents s ns) o = (Some r, ents s ns) ->
      exists ns', repr (match sl_step_c vzero comp kzero fuel s o 0 with Done r _ => r.2 | Crash s' => s' | _ => s end) ns' /\
      zero_hdr kzero vzero (match sl_step_c vzero comp kzero fuel s o 0 with Done r _ => r.2 | Crash s' => s' | _ => s end) /\
      length ns' <= 1 /\
      match sl_step_c vzero comp kzero fuel s o 0 with
      | Done r _ => nil_skip (ents s ns) o = (Some r.1, ents r.2 ns')
      | Crash s' => nil_skip (ents s ns) o = (None, ents s ns) /\ s' = s /\ ns' = ns
      | _ => False
      end).
    { intros o' r n -> E. by exists ns. }
    destruct o as [k v u|k v u|k|ks|k v vc|mn mx| |i v].
    - destruct (insert_nil s ns k v true u fuel HR ltac:(lia)) as [E N]. destruct ns as [|x ns].
      + specialize (N eq_refl). cbn [sl_step_c] in H |- *. unfold cbnd in H |- *.
        destruct (sl_insert_c _ _ _ _ _ _ _ _) as [[b s1] n1|s1| |]; [..|done|done].
        * cbn [fst snd] in H |- *. destruct H as (ns' & A & B & C & D). exists ns'. splits; [done|done|cbn in C; lia|].
          destruct D as (l1 & l2 & E1 & E2 & E3 & _). cbn in E1, E2, E3 |- *. symmetry in E1. apply app_nil in E1 as [-> ->]. rewrite E3. by injection E2 as ->.
        * by destruct (N s1).
      + apply Crash'; [|done]. cbn [sl_step_c]. unfold cbnd at 1. by rewrite E.
    - destruct (insert_nil s ns k v false u fuel HR ltac:(lia)) as [E N]. destruct ns as [|x ns].
      + specialize (N eq_refl). cbn [sl_step_c] in H |- *. unfold cbnd in H |- *.
        destruct (sl_insert_c _ _ _ _ _ _ _ _) as [[b s1] n1|s1| |]; [..|done|done].
        * cbn [fst snd] in H |- *. destruct H as (ns' & A & B & C & D). exists ns'. splits; [done|done|cbn in C; lia|].
          destruct D as (l1 & l2 & E1 & E2 & E3 & _). cbn in E1, E2, E3 |- *. symmetry in E1. apply app_nil in E1 as [-> ->]. rewrite E3. by injection E2 as ->.
        * by destruct (N s1).
      + apply Crash'; [|done]. cbn [sl_step_c]. unfold cbnd at 1. by rewrite E.
    - pose proof (delete_nil s ns k fuel HR ltac:(lia)) as E. destruct ns as [|x ns].
      + eapply Same; [|done]. cbn [sl_step_c]. unfold cbnd. by rewrite E.
      + apply Crash'; [|done]. cbn [sl_step_c]. unfold cbnd. by rewrite E.
    - destruct ns as [|x ns].
      + eapply Same; [|by destruct ks]. cbn [sl_step_c]. unfold cbnd. by rewrite (delete_keys_nil s ks fuel HR) by lia.
      + destruct ks as [|k ks]; [by eapply Same|]. apply Crash'; [|done]. cbn [sl_step_c sl_delete_keys_c]. unfold cbnd.
        by rewrite (delete_nil s (x :: ns) k fuel HR) by lia.
    - apply Crash'; [|by destruct ns]. cbn [sl_step_c]. unfold sl_delete_whole_c, cbnd. by rewrite (search_nil s ns k fuel HR) by lia.
    - pose proof (r_lv _ _ HR) as Hl. destruct ns as [|x ns].
      + eapply Same; [|done]. cbn [sl_step_c]. unfold sl_delete_range_c, cbnd.
        destruct (descend_nil_empty s (fun c => bool_decide (c = (-1)%Z)) mn fuel (level s) 0 no_arrays HR ltac:(lia) ltac:(lia)) as (a & -> & _ & _).
        destruct (hdr_links s [] 0 HR ltac:(lia)) as [Hh E]. unfold cl, rd_fwd. rewrite decide_True by done. rewrite E. cbn [nx fst].
        destruct fuel; [lia|]. done.
      + apply Crash'; [|done]. cbn [sl_step_c]. unfold sl_delete_range_c, cbnd.
        by rewrite (descend_nil_crash s (x :: ns)) by (done || lia).
    - cbn in H |- *. destruct H as (ns' & A & B & C & _ & D). exists ns'. splits; [done|done| |by rewrite D; destruct ns].
      unfold ents in D. apply fmap_nil_inv in D as ->. cbn. lia.
    - cbn in H |- *. destruct H as (ns' & A & B & C & _ & D). exists ns'. splits; [done|done| |by rewrite D; destruct (ents s ns)].
      assert (L : length (ents (match nth_node i s (first s) with Some l => set_value s l v | None => s end) ns') = length ns).
      { rewrite D, alter_length. unfold ents. by rewrite fmap_length. }
      unfold ents in L. rewrite fmap_length in L. lia.
  Qed.

  Lemma run_nil os : forall s ns fuel, repr s ns -> zero_hdr kzero vzero s -> length ns <= 1 -> 1 < fuel ->
    exists s' ns', sl_run_c vzero comp kzero fuel s (unanswered os) = Ok ((nil_run nil_skip (ents s ns) os).1, s') /\
      repr s' ns' /\ zero_hdr kzero vzero s' /\ length ns' <= 1 /\ ents s' ns' = (nil_run nil_skip (ents s ns) os).2.
  Proof.
    induction os as [|o os IH]; intros s ns fuel HR HZ H1 Hf; [by exists s, ns|].
    destruct (step_nil s ns o fuel HR HZ ltac:(lia) H1) as (ns1 & HR1 & HZ1 & HL1 & HS). cbn.
    destruct (sl_step_c _ _ _ _ _ _ _) as [[r s1] n1|s1| |]; [..|done|done]; cbn [fst snd] in *.
    - rewrite HS. destruct (IH s1 ns1 fuel HR1 HZ1 HL1 Hf) as (s2 & ns2 & E & A & B & C & D). exists s2, ns2.
      destruct (nil_run nil_skip (ents s1 ns1) os). cbn [fst snd] in *. unfold unanswered in E. rewrite E. by splits.
    - destruct HS as (-> & -> & ->). destruct (IH s ns fuel HR1 HZ1 HL1 Hf) as (s2 & ns2 & E & A & B & C & D). exists s2, ns2.
      destruct (nil_run nil_skip (ents s ns) os). cbn [fst snd] in *. unfold unanswered in E. rewrite E. by splits.
  Qed.
End sl.
