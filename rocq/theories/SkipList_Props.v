(** Property theorems for the skip list (C40-C44, and its part of C13 and C59). *)
From Verif Require Import Base Iter_Model Iter_Spec Split_Model WalkSplit_Model WalkSplit_Spec WalkSplit_Proofs
  SkipList_Model SkipList_Spec SkipList_Proofs SkipList_Proofs2 SkipList_Proofs3 SkipList_Proofs4 SkipList_Proofs5 SkipList_Proofs6.

(** running closed examples without normalising the heap *)
Local Lemma ok_ex {A B : Type} (r : res (A * B)) (P : A -> B -> Prop) :
  match r with Ok (x, y) => P x y | _ => False end -> exists x y, r = Ok (x, y) /\ P x y.
Proof. destruct r as [[x y]| |]; [eauto|done|done]. Qed.
Local Lemma filter_length_complement {A : Type} (P : A -> Prop) `{!forall x, Decision (P x)} (l : list A) :
  length (filter P l) + length (filter (fun x => ~ P x) l) = length l.
Proof. induction l as [|x l IH]; [done|]. rewrite !filter_cons. repeat case_decide; cbn [length]; [done|lia|lia|done]. Qed.
Local Lemma filter_length_iff {A : Type} (P Q : A -> Prop) `{!forall x, Decision (P x), !forall x, Decision (Q x)} (l : list A) :
  (forall x, x ∈ l -> (P x <-> Q x)) -> length (filter P l) = length (filter Q l).
Proof.
  induction l as [|x l IH]; intros HI; [done|]. rewrite !filter_cons. pose proof (HI x ltac:(left)).
  assert (length (filter P l) = length (filter Q l)) by (apply IH; intros y Hy; apply HI; by right).
  repeat case_decide; cbn [length]; [lia|tauto|tauto|done].
Qed.

(** C40: for every comparator whatsoever, every history of calls with every
    sequence of random draws runs to the end without a panic, changes the
    entries as [seq_run] says, and afterwards First/Next, Last, Prev, Iter,
    Size and GetByRank all show the same sequence of entries *)
Theorem C40_links_and_spans_consistent :
  forall (K V : Type) (kzero : K) (vzero : V) (comp : K -> K -> Z) os fuel, length os < fuel ->
  exists rs s m, run kzero vzero comp fuel (new_list kzero vzero) os = Ok (rs, s) /\
    seq_run comp [] os rs m /\ shows vzero fuel s m.
Proof.
  intros K V kz vz comp os fuel Hf. destruct (run_new comp kz vz os fuel Hf) as (rs & s & ns & E & HR & HZ & HL & HS).
  exists rs, s, (ents s ns). splits; [done|done|]. apply shows_ok; [done|lia|apply HZ].
Qed.
Print Assumptions C40_links_and_spans_consistent.

(** C40: in particular no query panics: FirstInRange and LastInRange contain an
    explicit panic, which is unreachable; Has, Get and Rank return *)
Theorem C40_queries_never_panic :
  forall (K V : Type) (kzero : K) (vzero : V) (comp : K -> K -> Z) os fuel rs s, length os < fuel ->
  run kzero vzero comp fuel (new_list kzero vzero) os = Ok (rs, s) -> forall k min max,
  (exists b, has comp fuel s k = Ok b) /\ (exists v, get vzero comp fuel s k = Ok v) /\ (exists r, rank comp fuel s k = Ok r) /\
  (exists o, first_in_range comp fuel s min max = Ok o) /\ (exists o, last_in_range comp fuel s min max = Ok o).
Proof.
  intros K V kz vz comp os fuel rs s Hf E k min max. destruct (run_new comp kz vz os fuel Hf) as (rs' & s' & ns & E' & HR & HZ & HL & HS).
  rewrite E in E'. injection E' as <- <-.
  destruct (search_ok comp s ns k fuel HR ltac:(lia)) as (o & z & ES & _).
  unfold has, get, rank. rewrite ES. cbn [rbind]. destruct (range_total comp s ns min max fuel HR ltac:(lia)) as [H1 H2].
  destruct o; splits; eauto.
Qed.
Print Assumptions C40_queries_never_panic.

(** C41: insertions always succeed; if the comparator's zero is symmetric,
    Delete and DeleteKeys find nothing, and neither they nor
    DeleteByWholeMapping change the list, which however answers true when
    lookup finds a value equal to the given one *)
Theorem C41_inserts_always_succeed :
  forall (K V : Type) (kzero : K) (vzero : V) (comp : K -> K -> Z) os fuel rs s, length os < fuel ->
  run kzero vzero comp fuel (new_list kzero vzero) os = Ok (rs, s) -> forall k v unique draw,
  exists s', insert comp fuel s k v unique draw = Ok (true, s') /\ size s' = (size s + 1)%Z.
Proof.
  intros K V kz vz comp os fuel rs s Hf E k v unique draw. destruct (run_new comp kz vz os fuel Hf) as (rs' & s' & ns & E' & HR & HZ & HL & HS).
  rewrite E in E'. injection E' as <- <-.
  destruct (insert_ok comp s ns k v unique draw fuel HR ltac:(lia)) as (s1 & A & B & -> & EN & HR1 & _).
  exists s1. split; [done|]. rewrite (r_size _ _ HR1), (r_size _ _ HR), EN, !app_length. cbn. lia.
Qed.
Print Assumptions C41_inserts_always_succeed.

Theorem C41_delete_removes_nothing :
  forall (K V : Type) (kzero : K) (vzero : V) (comp : K -> K -> Z), (forall a b, comp a b = 0%Z -> comp b a = 0%Z) ->
  forall os fuel rs s, length os < fuel ->
  run kzero vzero comp fuel (new_list kzero vzero) os = Ok (rs, s) ->
  (forall k, delete comp fuel s k = Ok (false, s)) /\
  (forall ks, delete_keys comp fuel s ks = Ok (0%Z, s)) /\
  (forall k v vcomp, exists b, delete_whole comp fuel s k v vcomp = Ok (b, s) /\
     (b = true <-> has comp fuel s k = Ok true /\ exists v', get vzero comp fuel s k = Ok v' /\ vcomp v v' = 0%Z)).
Proof.
  intros K V kz vz comp Hsym os fuel rs s Hf E. destruct (run_new comp kz vz os fuel Hf) as (rs' & s' & ns & E' & HR & HZ & HL & HS).
  rewrite E in E'. injection E' as <- <-.
  assert (HD : forall k, delete comp fuel s k = Ok (false, s)).
  { intros k. destruct (delete_ok comp s ns k fuel HR ltac:(lia)) as (b & s1 & ns1 & -> & _ & _ & _ & HB). destruct b.
    - destruct HB as (A & x & B & _ & _ & _ & H1 & H2). by apply Hsym in H2.
    - by destruct HB as [-> _]. }
  split; [done|]. split.
  - induction ks as [|k ks IH]; [done|]. cbn [delete_keys]. rewrite HD. cbn [rbind]. rewrite IH. done.
  - intros k v vcomp. unfold delete_whole, has, get. destruct (search_ok comp s ns k fuel HR ltac:(lia)) as (o & z & -> & _). cbn [rbind].
    destruct o as [x|]; [|exists false; split; [done|]; split; [done|]; by intros [[=] _]].
    case_decide as Hd.
    + rewrite HD. cbn. exists true. split; [done|]. split; [|done]. intros _. split; [done|]. eexists. split; [done|]. done.
    + exists false. split; [done|]. split; [done|]. intros (_ & v' & [= <-] & Hv). done.
Qed.
Print Assumptions C41_delete_removes_nothing.

(** C41: so InsertUnique stores a key twice and nothing removes it *)
Theorem C41_duplicates_refuted :
  exists rs s, run 0%Z 0%Z Zcomp 20 (new_list 0 0)%Z
    [OInsertUnique 5 50 0; OInsertUnique 5 51 0; ODelete 5; ODeleteKeys [5; 5]; ODeleteWhole 5 51 Zcomp]%Z = Ok (rs, s) /\
    rs = [RBool true; RBool true; RBool false; RInt 0; RBool true] /\ size s = 2%Z.
Proof. apply ok_ex. by vm_compute. Qed.
Print Assumptions C41_duplicates_refuted.

(** C42: with a total order answering -1, 0, 1, a history in which every
    inserted key is below all present ones behaves, for all random draws, as
    the ideal sorted map for every key but the zero key *)
Theorem C42_sorted_map_for_decreasing_histories :
  forall (K V : Type) (kzero : K) (vzero : V) (comp : K -> K -> Z), cmp_ok comp -> cmp_unit comp ->
  forall os fuel, decreasing comp [] os -> length os < fuel ->
  exists rs s, let m := ideal_run comp [] os in
    run kzero vzero comp fuel (new_list kzero vzero) os = Ok (rs, s) /\ seq_run comp [] os rs m /\ sorted comp m /\ shows vzero fuel s m /\
    forall k, comp kzero k <> 0%Z ->
      (forall i e, m !! i = Some e -> comp e.1 k = 0%Z ->
         has comp fuel s k = Ok true /\ get vzero comp fuel s k = Ok e.2 /\ rank comp fuel s k = Ok (Z.of_nat i + 1)%Z) /\
      ((forall e, e ∈ m -> comp e.1 k <> 0%Z) ->
         has comp fuel s k = Ok false /\ get vzero comp fuel s k = Ok vzero /\ rank comp fuel s k = Ok 0%Z).
Proof.
  intros K V kz vz comp Hc Hu os fuel HD Hf. destruct (run_new comp kz vz os fuel Hf) as (rs & s & ns & E & HR & HZ & HL & HS).
  destruct (seq_run_ideal comp Hc Hu os [] rs (ents s ns)) as [Em Hso]; [by intros i j a b _ Ha|done|done|].
  exists rs, s. rewrite <- Em. cbv zeta. splits; try done; [apply shows_ok; [done|lia|apply HZ]|].
  intros k Hk. unfold has, get, rank.
  destruct (search_sorted comp Hc Hu s ns HR Hso k kz (proj1 HZ) fuel ltac:(lia) Hk) as [(C & y & R & EN & Hy & ->)|[HF ->]]; cbn [rbind]; split.
  - intros i e He Hek.
    assert (Hi : ents s ns !! length C = Some (key (hp s y), val (hp s y))).
    { unfold ents. rewrite EN, list_lookup_fmap, list_lookup_middle by done. done. }
    assert (i = length C) as ->.
    { destruct (lt_eq_lt_dec i (length C)) as [[L|]|L]; [|done|].
      - pose proof (Hso _ _ _ _ L He Hi) as G. cbn in G. pose proof (cmp_eq_l comp Hc _ _ (key (hp s y)) Hek) as G2.
        pose proof (cmp_eq_sym comp Hc (key (hp s y)) k) as G3. lia.
      - pose proof (Hso _ _ _ _ L Hi He) as G. cbn in G. pose proof (cmp_eq_r comp Hc _ _ (key (hp s y)) Hek) as G2. lia. }
    rewrite He in Hi. injection Hi as ->. splits; [done|done|]. f_equal. lia.
  - intros HN. exfalso. apply (HN (key (hp s y), val (hp s y))); [|done].
    unfold ents. rewrite EN, fmap_app, fmap_cons. apply elem_of_app. right. left.
  - intros i e He Hek. exfalso. apply elem_of_list_lookup_2 in He. unfold ents in He. apply elem_of_list_fmap in He as (l & -> & Hl).
    rewrite Forall_forall in HF. by apply (HF l Hl).
  - done.
Qed.
Print Assumptions C42_sorted_map_for_decreasing_histories.

(** C42: the zero key is reported present whenever no stored key lies below it,
    stored or not *)
Theorem C42_zero_key_reported_present :
  forall (K V : Type) (kzero : K) (vzero : V) (comp : K -> K -> Z), cmp_ok comp -> cmp_unit comp ->
  forall os fuel rs s, length os < fuel -> run kzero vzero comp fuel (new_list kzero vzero) os = Ok (rs, s) ->
  forall m st, drains (iter_next s) (first s) m st -> Forall (fun e => (0 <= comp e.1 kzero)%Z) m ->
  has comp fuel s kzero = Ok true.
Proof.
  intros K V kz vz comp Hc Hu os fuel rs s Hf E m st HD HF. destruct (run_new comp kz vz os fuel Hf) as (rs' & s' & ns & E' & HR & HZ & HL & HS).
  rewrite E in E'. injection E' as <- <-.
  assert (m = ents s ns) as ->.
  { destruct (iter_drains s ns HR) as (st2 & HD2). revert HD HD2. generalize (first s) as p, (ents s ns) as m2.
    clear. intros p m2 (s1 & P1 & E1) (s2 & P2 & E2). revert m2 P2. induction P1 as [p|p p1 p2 v l Ev P1 IH]; intros m2 P2.
    - inversion P2 as [|? ? ? ? ? Ev]; subst; [done|]. rewrite E1 in Ev. done.
    - inversion P2 as [|? ? ? ? ? Ev2 P2']; subst.
      + rewrite E2 in Ev. done.
      + rewrite Ev in Ev2. injection Ev2 as <- <-. f_equal. by apply IH. }
  unfold has. destruct (search_zero comp Hu s ns HR kz kz (proj1 HZ) fuel ltac:(lia) (cmp_refl comp Hc kz)) as (o & r & ->); [|done].
  unfold ents in HF. by rewrite Forall_fmap in HF.
Qed.
Print Assumptions C42_zero_key_reported_present.

(** C42: for any comparator and history, a key reported present is stored or
    equal to the zero key *)
Theorem C42_lookup_sound :
  forall (K V : Type) (kzero : K) (vzero : V) (comp : K -> K -> Z) os fuel, length os < fuel ->
  exists rs s m, run kzero vzero comp fuel (new_list kzero vzero) os = Ok (rs, s) /\ shows vzero fuel s m /\
  forall k, has comp fuel s k = Ok true -> comp kzero k = 0%Z \/
    exists e, e ∈ m /\ comp e.1 k = 0%Z /\ get vzero comp fuel s k = Ok e.2.
Proof.
  intros K V kz vz comp os fuel Hf. destruct (run_new comp kz vz os fuel Hf) as (rs & s & ns & E & HR & HZ & HL & HS).
  exists rs, s, (ents s ns). splits; [done|apply shows_ok; [done|lia|apply HZ]|]. intros k.
  unfold has, get. destruct (search_ok comp s ns k fuel HR ltac:(lia)) as (o & z & -> & Ho). cbn [rbind]. destruct o as [y|]; [|done].
  intros _. destruct Ho as [[->|Hy]%elem_of_cons Hk]; [left; by rewrite (proj1 HZ) in Hk|right].
  exists (key (hp s y), val (hp s y)). splits; try done. unfold ents. apply elem_of_list_fmap. eauto.
Qed.
Print Assumptions C42_lookup_sound.

(** C42: increasing insertions hide keys, and Has(0) holds of the empty list *)
Theorem C42_increasing_refuted :
  (exists rs s, run 0%Z 0%Z Zcomp 20 (new_list 0 0)%Z [OInsertUnique 1 10 0; OInsertUnique 2 20 0]%Z = Ok (rs, s) /\
     rs = [RBool true; RBool true] /\ has Zcomp 20 s 1%Z = Ok false /\ size s = 2%Z) /\
  has Zcomp 20 (new_list 0 0)%Z 0%Z = Ok true.
Proof. split; [apply ok_ex; by vm_compute|by vm_compute]. Qed.
Print Assumptions C42_increasing_refuted.

(** C43: range queries on the sorted lists of C42 *)
Theorem C43_range_queries :
  forall (K V : Type) (kzero : K) (vzero : V) (comp : K -> K -> Z), cmp_ok comp -> cmp_unit comp ->
  forall os fuel, decreasing comp [] os -> length os < fuel ->
  exists rs s, let m := ideal_run comp [] os in
    run kzero vzero comp fuel (new_list kzero vzero) os = Ok (rs, s) /\ sorted comp m /\ shows vzero fuel s m /\
    forall min max,
      (is_in_all_range comp s min max = true <-> in_all comp m min max) /\
      (is_in_part_of_range comp s min max = true <-> in_part comp m min max) /\
      (exists o, first_in_range comp fuel s min max = Ok o /\
         (in_all comp m min max -> exists e, first_geq comp min m = Some e /\
            entry s <$> o = if decide (comp e.1 max <= 0)%Z then Some e else None) /\
         (~ in_all comp m min max -> o = None)) /\
      (exists o, last_in_range comp fuel s min max = Ok o /\
         (in_all comp m min max -> exists e, first_geq comp max m = Some e /\ entry s <$> o = Some e) /\
         (~ in_all comp m min max -> o = None)) /\
      (exists s', delete_range comp fuel s min max = Ok (Z.of_nat (length (filter (in_range comp min max) m)), s') /\
         shows vzero fuel s' (filter (fun e => ~ in_range comp min max e) m)).
Proof.
  intros K V kz vz comp Hc Hu os fuel HD Hf. destruct (run_new comp kz vz os fuel Hf) as (rs & s & ns & E & HR & HZ & HL & HS).
  destruct (seq_run_ideal comp Hc Hu os [] rs (ents s ns)) as [Em Hso]; [by intros i j a b _ Ha|done|done|].
  exists rs, s. rewrite <- Em. cbv zeta. splits; try done; [apply shows_ok; [done|lia|apply HZ]|].
  intros min max. splits.
  - by apply in_all_ok.
  - by apply in_part_ok.
  - apply first_in_range_ok; [done|done|done|done|lia].
  - apply last_in_range_ok; [done|done|done|done|lia].
  - destruct (delete_range_ok comp s ns min max fuel HR ltac:(lia)) as (s' & A & M & R & ED & EN & HR' & Hh & HK & HM & H1 & H2 & H3).
    destruct (op_spec_ideal comp Hc Hu (ents s ns) (ODeleteRange min max) (RInt (Z.of_nat (length (ents s M)))) (ents s (A ++ R)) Hso) as [EI _]; [done| |].
    { rewrite EN. exists (ents s A), (ents s M), (ents s R). rewrite !ents_app. splits; try done.
      - apply Forall_fmap. eapply Forall_impl; [exact HM|]. done.
      - by apply stops_head.
      - by apply after_last.
      - rewrite <- ents_app. by apply stops_head. }
    exists s'. rewrite ED. cbn [ideal] in EI. split.
    + f_equal. f_equal. pose proof (filter_length_complement (in_range comp min max) (ents s ns)) as G.
      f_equal. assert (length (filter (fun e => ~ in_range comp min max e) (ents s ns)) = length A + length R) as G2.
      { rewrite <- EI, ents_length, app_length. done. }
      assert (length ns = length A + (length M + length R)) as G3 by (rewrite EN, !app_length; lia).
      rewrite G2, ents_length, G3 in G. lia.
    + rewrite <- EI. rewrite <- (ents_ext s s' (A ++ R)) by done. apply shows_ok; [done| |].
      * rewrite EN, !app_length in HL. rewrite app_length. lia.
      * rewrite Hh. destruct (HK (hdr s)) as [_ ->]. apply HZ.
Qed.
Print Assumptions C43_range_queries.

(** C43: LastInRange is not the last key in the range *)
Theorem C43_last_in_range_refuted :
  exists rs s, run 0%Z 0%Z Zcomp 20 (new_list 0 0)%Z [OInsertUnique 9 90 0; OInsertUnique 5 50 0; OInsertUnique 1 10 0]%Z = Ok (rs, s) /\
    exists o, last_in_range Zcomp 20 s 1%Z 6%Z = Ok (Some o) /\ entry s o = (9, 90)%Z.
Proof.
  assert (exists rs s, run 0%Z 0%Z Zcomp 20 (new_list 0 0)%Z [OInsertUnique 9 90 0; OInsertUnique 5 50 0; OInsertUnique 1 10 0]%Z = Ok (rs, s) /\
    last_in_range Zcomp 20 s 1%Z 6%Z = Ok (Some 1) /\ entry s 1 = (9, 90)%Z) as (rs & s & E & H) by (apply ok_ex; by vm_compute).
  exists rs, s. split; [exact E|]. exists 1. exact H.
Qed.
Print Assumptions C43_last_in_range_refuted.

(** C44: the level is in range, and is j exactly for the residues in an
    interval of length 2^(32-j) *)
Theorem C44_level_law :
  forall u : Z, 1 <= random_level u <= 32 /\
  forall j, 1 <= j <= 32 ->
    (random_level u = j <-> (2 ^ (32 - Z.of_nat j) - 1 <= u mod (2 ^ 32 - 1) < 2 ^ (33 - Z.of_nat j) - 1)%Z).
Proof.
  intros u. destruct (random_level_spec u) as (m & Hm & E & H1 & H2). split; [rewrite E; lia|].
  assert (H2' : (u mod (2 ^ 32 - 1) < 2 ^ Z.of_nat (S m) - 1)%Z).
  { destruct (decide (m < 31)); [by apply H2|]. replace m with 31 by lia. apply (Z.mod_pos_bound u (2 ^ 32 - 1)). lia. }
  intros j Hj. rewrite E. split.
  - intros <-. replace (32 - Z.of_nat (32 - m))%Z with (Z.of_nat m) by lia. replace (33 - Z.of_nat (32 - m))%Z with (Z.of_nat (S m)) by lia. done.
  - intros [G1 G2]. replace (32 - Z.of_nat j)%Z with (Z.of_nat (32 - j)) in G1 by lia. replace (33 - Z.of_nat j)%Z with (Z.of_nat (S (32 - j))) in G2 by lia.
    destruct (lt_eq_lt_dec m (32 - j)) as [[L|L]|L]; [|lia|].
    + assert (2 ^ Z.of_nat (S m) <= 2 ^ Z.of_nat (32 - j))%Z by (apply Z.pow_le_mono_r; lia). lia.
    + assert (2 ^ Z.of_nat (S (32 - j)) <= 2 ^ Z.of_nat m)%Z by (apply Z.pow_le_mono_r; lia). lia.
Qed.
Print Assumptions C44_level_law.

Lemma count_interval n a b : (0 <= a <= b)%Z -> (b <= n)%Z ->
  length (filter (fun x => a <= x < b)%Z (seqZ 0 n)) = Z.to_nat (b - a).
Proof.
  intros H1 H2.
  assert (E : seqZ 0 n = seqZ 0 a ++ seqZ a (b - a) ++ seqZ b (n - b)).
  { replace n with (a + ((b - a) + (n - b)))%Z at 1 by lia. rewrite !seqZ_app by lia.
    replace (0 + a)%Z with a by lia. replace (a + (b - a))%Z with b by lia. done. }
  rewrite E, !filter_app.
  assert (F1 : filter (fun x => a <= x < b)%Z (seqZ 0 a) = []).
  { destruct (filter _ (seqZ 0 a)) as [|x L] eqn:EL; [done|].
    assert (x ∈ x :: L) as Hx by left. rewrite <- EL in Hx. apply elem_of_list_filter in Hx as [Hx1 Hx2]. apply elem_of_seqZ in Hx2. lia. }
  assert (F3 : filter (fun x => a <= x < b)%Z (seqZ b (n - b)) = []).
  { destruct (filter _ (seqZ b (n - b))) as [|x L] eqn:EL; [done|].
    assert (x ∈ x :: L) as Hx by left. rewrite <- EL in Hx. apply elem_of_list_filter in Hx as [Hx1 Hx2]. apply elem_of_seqZ in Hx2. lia. }
  assert (F2 : filter (fun x => a <= x < b)%Z (seqZ a (b - a)) = seqZ a (b - a)).
  { assert (forall L : list Z, (forall x, x ∈ L -> (a <= x < b)%Z) -> filter (fun x => a <= x < b)%Z L = L) as G.
    { clear. induction L as [|x L IH]; intros HL; [done|]. rewrite filter_cons, decide_True by (apply HL; left). f_equal. apply IH. intros y Hy. apply HL. by right. }
    apply G. intros x Hx. apply elem_of_seqZ in Hx. lia. }
  rewrite F1, F2, F3, app_nil_r. cbn. rewrite seqZ_length. done.
Qed.
(** C44: among the 2^32-1 residues exactly 2^(32-j) give level j *)
Theorem C44_level_counts :
  forall j, 1 <= j <= 32 ->
  length (filter (fun r => random_level r = j) (seqZ 0 (2 ^ 32 - 1))) = Z.to_nat (2 ^ (32 - Z.of_nat j)).
Proof.
  intros j Hj. set (n := (2 ^ 32 - 1)%Z).
  assert (Hlaw : forall r, (0 <= r < n)%Z -> (random_level r = j <-> (2 ^ (32 - Z.of_nat j) - 1 <= r < 2 ^ (33 - Z.of_nat j) - 1)%Z)).
  { intros r Hr. destruct (C44_level_law r) as [_ H]. specialize (H j Hj). fold n in H. rewrite Z.mod_small in H by done. done. }
  assert (E33 : (2 ^ (33 - Z.of_nat j) = 2 * 2 ^ (32 - Z.of_nat j))%Z).
  { replace (33 - Z.of_nat j)%Z with (Z.succ (32 - Z.of_nat j)) by lia. rewrite Z.pow_succ_r by lia. done. }
  assert (Hpos : (0 < 2 ^ (32 - Z.of_nat j))%Z) by (apply Z.pow_pos_nonneg; lia).
  assert (Hle : (2 ^ (33 - Z.of_nat j) <= 2 ^ 32)%Z) by (apply Z.pow_le_mono_r; lia).
  assert (Hn : (2 ^ (33 - Z.of_nat j) - 1 <= n)%Z) by (unfold n; lia).
  replace (Z.to_nat (2 ^ (32 - Z.of_nat j))) with (Z.to_nat ((2 ^ (33 - Z.of_nat j) - 1) - (2 ^ (32 - Z.of_nat j) - 1))) by (f_equal; lia).
  rewrite <- (count_interval n) by lia. clear Hn Hle. clearbody n.
  apply filter_length_iff. intros r Hr. apply Hlaw. apply elem_of_seqZ in Hr. lia.
Qed.
Print Assumptions C44_level_counts.

(** C13 (skip list): after every history, for every comparator, the segment
    generator agrees with that of the slice of the list's entries *)
Theorem C13_skiplist_splits_like_its_slice :
  forall (K V : Type) (kzero : K) (vzero : V) (comp : K -> K -> Z) os fuel p n, length os < fuel ->
  exists rs s m, run kzero vzero comp fuel (new_list kzero vzero) os = Ok (rs, s) /\ shows vzero fuel s m /\
  exists outs outs' fin fin',
    length outs = n /\
    pulled (split_next m p) 0 outs fin /\
    pulled (walk_next (next s) (size s) p) (walk_init (first s)) outs' fin' /\
    Forall2 (same_segment (next s) (entry s) (fun xs => exists st, drains (iter_next s) (first s) xs st)) outs outs'.
Proof.
  intros K V kz vz comp os fuel p n Hf. destruct (run_new comp kz vz os fuel Hf) as (rs & s & ns & E & HR & HZ & HL & HS).
  exists rs, s, (ents s ns). splits; [done|apply shows_ok; [done|lia|apply HZ]|].
  rewrite (r_size _ _ HR).
  apply (walk_agrees (next s) (entry s) (fun xs => exists st, drains (iter_next s) (first s) xs st) (first s) ns p (node_path_ok s ns HR) (iter_drains s ns HR) n).
Qed.
Print Assumptions C13_skiplist_splits_like_its_slice.

(** C59 (skip list): with the comparator a - b the search walks past larger keys *)
Theorem C59_skiplist_needs_unit_comparators :
  exists rs s, run 0%Z 0%Z Z.sub 20 (new_list 0 0)%Z [OInsertUnique 5 50 0; OInsertUnique 2 20 0]%Z = Ok (rs, s) /\
    rs = [RBool true; RBool true] /\ has Z.sub 20 s 2%Z = Ok false /\
    (exists rs' s', run 0%Z 0%Z Zcomp 20 (new_list 0 0)%Z [OInsertUnique 5 50 0; OInsertUnique 2 20 0]%Z = Ok (rs', s') /\
       has Zcomp 20 s' 2%Z = Ok true).
Proof.
  assert (exists rs s, run 0%Z 0%Z Z.sub 20 (new_list 0 0)%Z [OInsertUnique 5 50 0; OInsertUnique 2 20 0]%Z = Ok (rs, s) /\
    rs = [RBool true; RBool true] /\ has Z.sub 20 s 2%Z = Ok false) as (rs & s & E & H1 & H2) by (apply ok_ex; by vm_compute).
  exists rs, s. split; [exact E|]. split; [exact H1|]. split; [exact H2|]. apply ok_ex. by vm_compute.
Qed.
Print Assumptions C59_skiplist_needs_unit_comparators.

(** Non-vacuity: a decreasing history with towers of several heights *)
Example demo_decreasing :
  let os := [OInsertUnique 9 90 4294967294; OInsertUnique 7 70 0; OInsertEquals 5 50 3; OInsertUnique 3 30 1; ODeleteRange 4 8; OInsertUnique 1 10 7]%Z in
  decreasing Zcomp [] os /\ (random_level <$> [4294967294; 0; 3; 1; 7]%Z) = [1; 32; 30; 31; 29] /\
  exists rs s, run 0%Z 0%Z Zcomp 20 (new_list 0 0)%Z os = Ok (rs, s) /\ size s = 3%Z /\ level s = 31 /\
    rank Zcomp 20 s 9%Z = Ok 3%Z /\ get_by_rank 0%Z 20 s 2%Z = Ok 30%Z.
Proof.
  split; [cbn; splits; repeat constructor|]. split; [by vm_compute|]. apply ok_ex. by vm_compute.
Qed.
(** and a comparator with symmetric zeros that is no order at all *)
Example demo_symmetric : forall a b : Z, (if decide (a = b) then 0 else 7)%Z = 0%Z -> (if decide (b = a) then 0 else 7)%Z = 0%Z.
Proof. intros a b. repeat case_decide; done. Qed.
