(** Skip list: decreasing histories, search and ranges on sorted lists. *)
From Verif Require Import Base Iter_Model Iter_Spec
  SkipList_Model SkipList_Spec SkipList_Proofs SkipList_Proofs2 SkipList_Proofs3 SkipList_Proofs4 SkipList_Proofs5.

Section srt.
  Context {K V : Type} (comp : K -> K -> Z) (Hc : cmp_ok comp) (Hu : cmp_unit comp).
  Implicit Types (s : slist K V) (ns : list nat) (m : list (K * V)) (e : K * V).

  Lemma unit_lt a b : comp a b = (-1)%Z <-> (comp a b < 0)%Z.
  Proof. destruct (Hu a b) as [|[|]]; lia. Qed.
  Lemma unit_gt a b : comp a b = 1%Z <-> (0 < comp a b)%Z.
  Proof. destruct (Hu a b) as [|[|]]; lia. Qed.

  Lemma sorted_split (A : list (K * V)) e (B : list (K * V)) : sorted comp (A ++ e :: B) ->
    Forall (fun a => (comp a.1 e.1 < 0)%Z) A /\ Forall (fun b => (comp e.1 b.1 < 0)%Z) B.
  Proof.
    intros HS. split; apply Forall_forall; intros x Hx; apply elem_of_list_lookup_1 in Hx as [i Hi].
    - pose proof (lookup_lt_Some _ _ _ Hi) as L. apply (HS i (length A)); [done|by rewrite lookup_app_l by done|by rewrite list_lookup_middle].
    - apply (HS (length A) (length A + S i)); [lia|by rewrite list_lookup_middle|]. rewrite lookup_app_r by lia.
      replace (length A + S i - length A) with (S i) by lia. done.
  Qed.
  Lemma sorted_cons e m : sorted comp m -> Forall (fun b => (comp e.1 b.1 < 0)%Z) m -> sorted comp (e :: m).
  Proof.
    intros HS HF i j a b Hij Ha Hb. destruct j as [|j]; [lia|]. destruct i as [|i]; cbn in Ha, Hb.
    - injection Ha as <-. rewrite Forall_forall in HF. apply HF. by eapply elem_of_list_lookup_2.
    - apply (HS i j); [lia|done|done].
  Qed.
  Lemma sorted_app_inv (A B : list (K * V)) : sorted comp (A ++ B) -> sorted comp A /\ sorted comp B.
  Proof.
    intros HS. split; intros i j a b Hij Ha Hb.
    - apply (HS i j); [done| |]; (rewrite lookup_app_l; [done|]); by eapply lookup_lt_Some.
    - apply (HS (length A + i) (length A + j)); [lia| |]; rewrite lookup_app_r by lia;
        [replace (length A + i - length A) with i by lia|replace (length A + j - length A) with j by lia]; done.
  Qed.
  Lemma sorted_filter (P : K * V -> Prop) `{!forall e, Decision (P e)} m : sorted comp m -> sorted comp (filter P m).
  Proof.
    induction m as [|e m IH]; intros HS; [done|]. rewrite filter_cons.
    destruct (sorted_split [] e m HS) as [_ HF]. destruct (sorted_app_inv [e] m HS) as [_ HS2].
    case_decide; [|by auto]. apply sorted_cons; [by auto|]. rewrite Forall_forall in HF |- *. intros x [_ Hx]%elem_of_list_filter. auto.
  Qed.

  (** all before a key below [b], all from a key not below [b] *)
  Lemma below_prefix (A B : list (K * V)) b : sorted comp (A ++ B) -> after_test (fun k => comp k b = (-1)%Z) A -> Forall (fun e => (comp e.1 b < 0)%Z) A.
  Proof.
    intros HS [->|(A' & e & -> & He)]; [constructor|]. rewrite unit_lt in He.
    destruct (sorted_split A' e B) as [HF _]; [by rewrite <- app_assoc in HS|].
    apply Forall_app. split; [|by repeat constructor]. eapply Forall_impl; [exact HF|]. cbn. intros x Hx. by eapply (cmp_lt_trans comp Hc).
  Qed.
  Lemma above_suffix (A B : list (K * V)) b : sorted comp (A ++ B) -> stops (fun k => comp k b = (-1)%Z) B -> Forall (fun e => (0 <= comp e.1 b)%Z) B.
  Proof.
    intros HS Hst. destruct B as [|e B]; [constructor|]. cbn in Hst. rewrite unit_lt in Hst.
    destruct (sorted_split A e B HS) as [_ HF]. constructor; [lia|]. eapply Forall_impl; [exact HF|]. cbn. intros x Hx.
    destruct (Z_lt_le_dec (comp x.1 b) 0) as [L|]; [|lia].
    pose proof (cmp_lt_trans comp Hc _ _ _ Hx L). lia.
  Qed.

  Lemma filter_keep (P : K * V -> Prop) `{!forall e, Decision (P e)} m : Forall P m -> filter P m = m.
  Proof. induction 1 as [|e m He _ IH]; [done|]. rewrite filter_cons, decide_True by done. by f_equal. Qed.
  Lemma filter_drop (P : K * V -> Prop) `{!forall e, Decision (P e)} m : Forall (fun e => ~ P e) m -> filter P m = [].
  Proof. induction 1 as [|e m He _ IH]; [done|]. rewrite filter_cons, decide_False by done. done. Qed.

  Lemma op_spec_ideal m o r m' : sorted comp m -> brings_min comp m o -> op_spec comp m o r m' -> m' = ideal comp m o /\ sorted comp m'.
  Proof.
    intros HS HB HO.
    assert (HI : forall k v, Forall (fun e => (comp k e.1 < 0)%Z) m -> ins_spec comp k v m r m' -> m' = (k, v) :: m /\ sorted comp m').
    { intros k v HF (A & B & -> & _ & -> & HA & _). assert (A = []) as ->.
      { destruct HA as [|(A' & e & -> & He)]; [done|]. apply Forall_app in HF as [HF _]. apply Forall_app in HF as [_ HF].
        apply Forall_cons in HF as [HF _]. apply (cmp_lt_gt comp Hc) in HF. lia. }
      split; [done|]. by apply sorted_cons. }
    assert (HD : forall k b m1, del_spec comp k m b m1 -> m1 = m).
    { intros k [] m1; [|done]. intros (A & e & B & _ & _ & H1 & H2 & _). apply (cmp_eq_sym comp Hc) in H1. lia. }
    destruct o as [k v u|k v u|k|ks|k v vc|min max| |n v]; cbn in HO, HB |- *.
    - by apply HI.
    - by apply HI.
    - destruct HO as (b & _ & HO). apply HD in HO as ->. done.
    - destruct HO as (c & _ & HO). assert (m' = m) as ->; [|done]. clear -HO HD Hc. revert c HO. induction ks as [|k ks IH]; intros c HO.
      + by destruct HO as [_ ->].
      + destruct HO as (b & c1 & m1 & H1 & H2 & _). apply HD in H1 as ->. by eapply IH.
    - destruct HO as (b & _ & [->|[_ HO]]); [done|]. apply (HD k true) in HO as ->. done.
    - destruct HO as (A & M & B & -> & -> & _ & HM & HB2 & HA & HMB).
      assert (FA : Forall (fun e => (comp e.1 min < 0)%Z) A) by (by eapply below_prefix).
      assert (FMB : Forall (fun e => (0 <= comp e.1 min)%Z) (M ++ B)) by (by eapply above_suffix).
      assert (FB : Forall (fun e => (0 <= comp e.1 max)%Z) B) by (rewrite app_assoc in HS; by eapply above_suffix).
      apply Forall_app in FMB as [FM _].
      assert (EQ : filter (fun e => ~ in_range comp min max e) (A ++ M ++ B) = A ++ B).
      { rewrite !filter_app. rewrite (filter_keep _ A), (filter_drop _ M), (filter_keep _ B); [done| | |].
        - eapply Forall_impl; [exact FB|]. cbn. intros e He [_ H]. lia.
        - rewrite Forall_forall in HM, FM |- *. intros e He HN. apply HN. split; [by apply FM|]. by apply unit_lt, HM.
        - eapply Forall_impl; [exact FA|]. cbn. intros e He [H _]. lia. }
      split; [done|]. rewrite <- EQ. by apply sorted_filter.
    - by destruct HO as [_ ->].
    - destruct HO as [_ ->]. split; [done|]. intros i j a b Hij Ha Hb.
      assert (G : forall x e, alter (fun e : K * V => (e.1, v)) n m !! x = Some e -> exists e', m !! x = Some e' /\ e'.1 = e.1).
      { intros x e He. destruct (decide (n = x)) as [<-|Hx].
        - rewrite list_lookup_alter in He. destruct (m !! n) as [e'|]; [|done]. injection He as <-. by exists e'.
        - rewrite list_lookup_alter_ne in He by done. by exists e. }
      destruct (G i a Ha) as (a' & Ha' & <-). destruct (G j b Hb) as (b' & Hb' & <-). by apply (HS i j).
  Qed.
  Lemma seq_run_ideal os : forall m rs m', sorted comp m -> decreasing comp m os -> seq_run comp m os rs m' ->
    m' = ideal_run comp m os /\ sorted comp m'.
  Proof.
    induction os as [|o os IH]; intros m rs m' HS HD HR.
    - inversion HR; subst. done.
    - inversion HR as [|? ? r m1 ? rs' ? HO HR']; subst. destruct HD as [HB HD].
      destruct (op_spec_ideal m o r m1 HS HB HO) as [-> HS1]. by eapply IH.
  Qed.

  (** ** search on a sorted list: lines 89-105 *)
  Section search.
    Context s ns (HR : repr s ns) (HS : sorted comp (ents s ns)) (k : K) (kz : K) (Hz : key (hp s (hdr s)) = kz).

    Notation kk := (fun l => key (hp s l)).
    Lemma sorted_nodes C x R : ns = C ++ x :: R ->
      Forall (fun l => (comp (kk l) (kk x) < 0)%Z) C /\ Forall (fun l => (comp (kk x) (kk l) < 0)%Z) R.
    Proof.
      intros EN. unfold ents in HS. rewrite EN, fmap_app, fmap_cons in HS.
      destruct (sorted_split _ _ _ HS) as [F1 F2]. rewrite Forall_fmap in F1, F2. done.
    Qed.
    (** the nodes not above [k], then those above *)
    Lemma split_at : exists A B, ns = A ++ B /\ Forall (fun l => (comp (kk l) k <= 0)%Z) A /\ Forall (fun l => (0 < comp (kk l) k)%Z) B.
    Proof.
      assert (G : forall R C, ns = C ++ R -> exists A B, R = A ++ B /\ Forall (fun l => (comp (kk l) k <= 0)%Z) A /\ Forall (fun l => (0 < comp (kk l) k)%Z) B).
      { induction R as [|x R IH]; intros C EN; [exists [], []; splits; constructor|].
        destruct (Z_lt_le_dec 0 (comp (kk x) k)) as [L|L].
        - exists [], (x :: R). splits; [done|constructor|]. constructor; [done|].
          destruct (sorted_nodes C x R EN) as [_ F]. eapply Forall_impl; [exact F|]. cbn. intros l Hl.
          apply (cmp_lt_gt comp Hc) in L. apply (cmp_lt_gt comp Hc). by eapply (cmp_lt_trans comp Hc).
        - destruct (IH (C ++ [x])) as (A & B & -> & FA & FB); [by rewrite <- app_assoc|].
          exists (x :: A), B. splits; [done|by constructor|done]. }
      destruct (G ns [] eq_refl) as (A & B & H). by exists A, B.
    Qed.

    Notation test := (fun k' => bool_decide (comp k' k <> 1%Z)).
    Lemma test_le x : test (kk x) = true <-> (comp (kk x) k <= 0)%Z.
    Proof. cbn. rewrite bool_decide_eq_true, unit_gt. lia. Qed.
    Lemma test_gt x : test (kk x) = false <-> (0 < comp (kk x) k)%Z.
    Proof. cbn. rewrite bool_decide_eq_false, unit_gt. lia. Qed.

    (** one level of the search stays among the nodes not above [k] *)
    Lemma walk_sorted A B i fuel C x A' r : ns = A ++ B ->
      Forall (fun l => (comp (kk l) k <= 0)%Z) A -> Forall (fun l => (0 < comp (kk l) k)%Z) B ->
      hdr s :: A = C ++ x :: A' -> i < ht (hp s x) -> i < level s -> length (A' ++ B) < fuel ->
      exists C' x' A'', walk fuel (hp s) test i x r = Ok (x', (r + Z.of_nat (length C') - Z.of_nat (length C))%Z) /\
        hdr s :: A = C' ++ x' :: A'' /\ i < ht (hp s x') /\ length A'' <= length A' /\ (i = 0 -> A'' = []).
    Proof.
      intros EN FA FB EA Hi Hl Hf.
      destruct (walk_ok s ns HR test i fuel C x (A' ++ B) r) as (D & x' & E & R' & EW & ER & EX & Hx' & HD & HN & _); [|done|done|done|].
      { rewrite EN. change (hdr s :: A ++ B) with ((hdr s :: A) ++ B). rewrite EA, <- app_assoc. done. }
      assert (HLE : length D = length E).
      { assert (length (x :: D) = length (E ++ [x'])) as EL by by rewrite EX. rewrite app_length in EL. cbn in EL. lia. }
      assert (HD' : exists A'', A' = D ++ A'' /\ R' = A'' ++ B).
      { apply app_eq_inv in ER as [(L & -> & ->)|(L & -> & ->)]; [by exists L|].
        destruct L as [|l L _] using rev_ind; [exists []; by rewrite !app_nil_r|]. exfalso.
        destruct HD as [HD|HD]; [by destruct A', L|].
        assert (x' = l) as ->.
        { change (x :: A' ++ L ++ [l]) with ((x :: A') ++ (L ++ [l])) in EX. rewrite app_assoc in EX. apply app_inj_2 in EX; [|done]. by destruct EX as [_ [= ->]]. }
        apply test_le in HD. rewrite <- app_assoc in FB. apply Forall_app in FB as [_ FB]. apply Forall_cons in FB as [FB _]. lia. }
      destruct HD' as (A'' & -> & ->). exists (C ++ E), x', A''. rewrite EW. splits.
      - f_equal. f_equal. rewrite app_length. lia.
      - rewrite EA. rewrite <- app_assoc. f_equal. change (x :: D ++ A'') with ((x :: D) ++ A''). rewrite EX, <- app_assoc. done.
      - done.
      - rewrite app_length. lia.
      - intros ->. destruct A'' as [|y A'']; [done|]. exfalso.
        assert (Hy : y ∈ A). { destruct C as [|c C]; cbn in EA; injection EA as _ ->; [|apply elem_of_app; right; right]; apply elem_of_app; right; left. }
        cbn in HN. rewrite decide_True in HN.
        + apply test_gt in HN. rewrite Forall_forall in FA. apply FA in Hy. lia.
        + assert (y ∈ hdr s :: ns) as Hy2 by (right; rewrite EN; apply elem_of_app; by left). apply (in_ht s ns HR) in Hy2. lia.
    Qed.

    Lemma search_from_sorted A B fuel n : ns = A ++ B ->
      Forall (fun l => (comp (kk l) k <= 0)%Z) A -> Forall (fun l => (0 < comp (kk l) k)%Z) B -> comp kz k <> 0%Z ->
      forall C x A', hdr s :: A = C ++ x :: A' -> n <= ht (hp s x) -> n <= level s -> length (A' ++ B) < fuel ->
      (n = 0 -> A' = [] /\ comp (kk x) k <> 0%Z) ->
      search_from comp fuel (hp s) k n x (Z.of_nat (length C)) =
        Ok (match last A with
            | Some y => if decide (comp (kk y) k = 0%Z) then (Some y, Z.of_nat (length A)) else (None, 0%Z)
            | None => (None, 0%Z)
            end).
    Proof.
      intros EN FA FB Hk. induction n as [|i IH]; intros C x A' EA Hx Hl Hf H0; cbn [search_from].
      - destruct (H0 eq_refl) as [-> Hne]. apply last_cons_snoc in EA. destruct (last A) as [y|] eqn:El; [|done]. cbn in EA. subst y.
        rewrite decide_False by done. done.
      - destruct (walk_sorted A B i fuel C x A' (Z.of_nat (length C)) EN FA FB EA) as (C' & x' & A'' & -> & EA' & Hx' & HL & Hz0); [lia|lia|done|].
        cbn [rbind].
        case_decide as Hd.
        + (* found: it is the last node not above k *)
          assert (Hxn : x' <> hdr s) by (intros ->; by rewrite Hz in Hd).
          destruct C' as [|c C']; cbn in EA'; injection EA' as EA0 EA'; [congruence|].
          assert (A'' = []) as ->.
          { destruct A'' as [|y A'']; [done|]. exfalso.
            destruct (sorted_nodes C' x' ((y :: A'') ++ B)) as [_ F]; [rewrite EN, EA'; by rewrite <- app_assoc|].
            apply Forall_cons in F as [F _]. rewrite EA' in FA. apply Forall_app in FA as [_ FA]. apply Forall_cons in FA as [_ FA].
            apply Forall_cons in FA as [FA _]. pose proof (cmp_lt_le_trans comp Hc _ _ _ F FA). lia. }
          rewrite EA', last_snoc. rewrite decide_True by done. f_equal. f_equal. rewrite app_length. cbn. lia.
        + replace (Z.of_nat (length C) + Z.of_nat (length C') - Z.of_nat (length C))%Z with (Z.of_nat (length C')) by lia.
          apply IH with (A' := A''); [done|lia|lia|rewrite app_length in *; lia|]. intros ->. auto.
      Qed.

    Lemma search_sorted fuel : length ns < fuel -> comp kz k <> 0%Z ->
      (exists C y R, ns = C ++ y :: R /\ comp (kk y) k = 0%Z /\ search comp fuel s k = Ok (Some y, Z.of_nat (S (length C)))) \/
      (Forall (fun l => comp (kk l) k <> 0%Z) ns /\ search comp fuel s k = Ok (None, 0%Z)).
    Proof.
      intros Hf Hk. destruct split_at as (A & B & EN & FA & FB).
      pose proof (r_lv _ _ HR) as HLv. pose proof (r_hdr _ _ HR) as HH.
      pose proof (search_from_sorted A B fuel (level s) EN FA FB Hk [] (hdr s) A eq_refl ltac:(lia) ltac:(lia)) as HSF.
      rewrite <- EN in HSF. specialize (HSF Hf ltac:(lia)). change (search_from comp fuel (hp s) k (level s) (hdr s) (Z.of_nat (length (@nil nat)))) with (search comp fuel s k) in HSF.
      rewrite HSF. clear HSF.
      destruct A as [|y A _] using rev_ind.
      - right. split; [|done]. rewrite EN. eapply Forall_impl; [exact FB|]. cbn. lia.
      - rewrite last_snoc. case_decide as Hd.
        + left. exists A, y, B. splits; [by rewrite EN, <- app_assoc|done|]. f_equal. f_equal. rewrite app_length. cbn. lia.
        + right. split; [|done]. rewrite EN. apply Forall_app. split; [|eapply Forall_impl; [exact FB|]; cbn; lia].
          apply Forall_app. split; [|by repeat constructor].
          destruct (sorted_nodes A y B) as [F _]; [by rewrite EN, <- app_assoc|].
          rewrite Forall_app in FA. destruct FA as [_ FA]. apply Forall_cons in FA as [FA _].
          eapply Forall_impl; [exact F|]. cbn. intros l Hl. pose proof (cmp_lt_le_trans comp Hc _ _ _ Hl FA). lia.
    Qed.

    (** the zero key is found as soon as nothing lies below it *)
    Lemma search_zero fuel : length ns < fuel -> comp kz k = 0%Z -> Forall (fun l => (0 <= comp (kk l) k)%Z) ns ->
      exists o r, search comp fuel s k = Ok (Some o, r).
    Proof.
      intros Hf Hk HF. unfold search. pose proof (r_lv _ _ HR) as HLv. pose proof (r_hdr _ _ HR) as HH.
      destruct (level s) as [|i] eqn:Elv; [lia|]. cbn [search_from].
      destruct (walk_ok s ns HR test i fuel [] (hdr s) ns 0) as (D & x' & E & R' & -> & ER & EX & Hx' & HD & _ & _); [done|lia|lia|done|].
      cbn [rbind]. rewrite decide_True; [by eauto|].
      destruct HD as [->|HD].
      - destruct E as [|e E]; [injection EX as <-; by rewrite Hz|]. cbn in EX. injection EX as _ EX. by destruct E.
      - apply test_le in HD. destruct E as [|e E]; cbn in EX; injection EX as EX0 ED; [by rewrite <- EX0, Hz|].
        assert (Hx : x' ∈ ns) by (rewrite ER, ED; apply elem_of_app; left; apply elem_of_app; right; left).
        rewrite Forall_forall in HF. apply HF in Hx. cbn in Hx. lia.
    Qed.
  End search.

  (** ** ranges *)
  Lemma head_ents s ns : head (ents s ns) = (fun l => entry s l) <$> head ns.
  Proof. by destruct ns. Qed.
  Lemma last_ents s ns : last (ents s ns) = (fun l => entry s l) <$> last ns.
  Proof. unfold ents. by rewrite fmap_last. Qed.

  Lemma in_all_ok s ns min max : repr s ns -> is_in_all_range comp s min max = true <-> in_all comp (ents s ns) min max.
  Proof.
    intros HR. unfold is_in_all_range, in_all. rewrite (first_of s ns HR), (r_tail _ _ HR), head_ents, last_ents.
    pose proof (Hu min max) as H0. case_decide as D1; [split; [done|intros [? _]; lia]|].
    destruct (last ns) as [t|] eqn:El.
    2: { split; [done|]. intros (_ & a & b & _ & [=] & _). }
    pose proof (Hu (key (hp s t)) min) as H1. pose proof (Hu (key (hp s t)) max) as H2.
    destruct (decide (comp (key (hp s t)) max = (-1)%Z)) as [D3|D3].
    { split; [by case_decide|]. intros (_ & a & b & _ & [= <-] & _ & Hb). cbn in Hb. lia. }
    rewrite decide_False.
    2: { intros D2. apply D3. rewrite unit_lt in D2 |- *. apply (cmp_lt_trans comp Hc _ min); lia. }
    destruct (head ns) as [f|]; [|split; [done|]; intros (_ & a & b & [=] & _)].
    pose proof (Hu (key (hp s f)) min) as H3. pose proof (Hu (key (hp s f)) max) as H4.
    destruct (decide (comp (key (hp s f)) min = 1%Z)) as [D5|D5].
    { split; [by case_decide|]. intros (_ & a & b & [= <-] & _ & Ha & _). cbn in Ha. lia. }
    rewrite decide_False.
    2: { intros D2. pose proof (cmp_le_lt_trans comp Hc (key (hp s f)) min max). lia. }
    split; [|done]. intros _. split; [lia|]. eexists _, _. splits; [done|done|cbn; lia|cbn; lia].
  Qed.
  Lemma in_part_ok s ns min max : repr s ns -> is_in_part_of_range comp s min max = true <-> in_part comp (ents s ns) min max.
  Proof.
    intros HR. unfold is_in_part_of_range, in_part. rewrite (first_of s ns HR), (r_tail _ _ HR), head_ents, last_ents.
    pose proof (Hu min max) as H0. case_decide as D1; [split; [done|intros [? _]; lia]|].
    destruct (last ns) as [t|] eqn:El.
    2: { split; [done|]. intros (_ & a & b & _ & [=] & _). }
    pose proof (Hu (key (hp s t)) min) as H1.
    destruct (decide (comp (key (hp s t)) min = (-1)%Z)) as [D3|D3].
    { split; [done|]. intros (_ & a & b & _ & [= <-] & _ & Hb). cbn in Hb. lia. }
    destruct (head ns) as [f|]; [|split; [done|]; intros (_ & a & b & [=] & _)].
    pose proof (Hu (key (hp s f)) max) as H4.
    destruct (decide (comp (key (hp s f)) max = 1%Z)) as [D5|D5].
    { split; [done|]. intros (_ & a & b & [= <-] & _ & Ha & _). cbn in Ha. lia. }
    split; [|done]. intros _. split; [lia|]. eexists _, _. splits; [done|done|cbn; lia|cbn; lia].
  Qed.

  (** the descent below [b] on a sorted list ends before the first key >= b *)
  Lemma descend_below s ns b fuel : repr s ns -> sorted comp (ents s ns) -> length ns < fuel ->
    exists x a B, descend fuel (hp s) (fun k' => bool_decide (comp k' b = (-1)%Z)) (level s) (hdr s) 0 no_arrays = Ok (x, a) /\
      rd_fwd (hp s) x 0 = Ok (head B) /\ first_geq comp b (ents s ns) = entry s <$> head B /\ last B = match B with [] => None | _ => last ns end /\ (B = [] -> match last ns with Some t => (comp (key (hp s t)) b < 0)%Z | None => True end).
  Proof.
    intros HR HS Hf. destruct (descend_full s ns HR (fun k' => bool_decide (comp k' b = (-1)%Z)) fuel Hf)
      as (A & B & x & a & E & ED & EN & EE & HA & HB & _ & _).
    exists x, a, B. split; [done|]. destruct (fwd0_of s ns HR A B x E EN EE) as [Ef _]. split; [done|].
    rewrite EN, ents_app in HS.
    assert (HAt : after_test (fun k => comp k b = (-1)%Z) (ents s A)).
    { apply after_last. destruct HA as [->|HA]; [done|]. apply last_cons_snoc in EE. destruct (last A) as [z|] eqn:El; [|done]. cbn in EE. subst z.
      by apply bool_decide_eq_true in HA. }
    pose proof (below_prefix _ _ b HS HAt) as FA.
    assert (HBt : stops (fun k => comp k b = (-1)%Z) (ents s B)).
    { apply stops_head. destruct B as [|z B]; [done|]. cbn. by apply bool_decide_eq_false in HB. }
    pose proof (above_suffix _ _ b HS HBt) as FB.
    splits.
    - unfold first_geq. rewrite EN, ents_app, filter_app.
      rewrite (filter_drop _ (ents s A)) by (eapply Forall_impl; [exact FA|]; cbn; lia).
      rewrite (filter_keep _ (ents s B)) by done. cbn. by rewrite head_ents.
    - destruct B as [|z B]; [done|]. rewrite EN, last_app. destruct (last (z :: B)) eqn:El; [done|]. by apply last_None in El.
    - intros ->. rewrite EN, app_nil_r. destruct A as [|t A _] using rev_ind; [done|]. rewrite last_snoc.
      unfold ents in FA. rewrite fmap_app in FA. apply Forall_app in FA as [_ FA]. apply Forall_cons in FA as [FA _]. done.
  Qed.

  Lemma first_in_range_ok s ns min max fuel : repr s ns -> sorted comp (ents s ns) -> length ns < fuel ->
    exists o, first_in_range comp fuel s min max = Ok o /\
      (in_all comp (ents s ns) min max -> exists e, first_geq comp min (ents s ns) = Some e /\
         entry s <$> o = if decide (comp e.1 max <= 0)%Z then Some e else None) /\
      (~ in_all comp (ents s ns) min max -> o = None).
  Proof.
    intros HR HS Hf. unfold first_in_range. destruct (is_in_all_range comp s min max) eqn:EI; cbn [negb].
    - pose proof EI as HI. rewrite (in_all_ok s ns min max HR) in HI.
      destruct (descend_below s ns min fuel HR HS Hf) as (x & a & B & -> & Ef & EG & HBl & HBn). cbn [rbind]. rewrite Ef. cbn [rbind].
      destruct B as [|y B].
      { exfalso. specialize (HBn eq_refl). destruct HI as (H1 & e1 & e2 & _ & E2 & _ & E3). rewrite last_ents in E2.
        destruct (last ns) as [t|]; [|done]. injection E2 as <-. cbn in E3.
        pose proof (cmp_lt_trans comp Hc _ _ _ HBn H1). lia. }
      cbn [head deref rbind]. cbn [head] in EG. pose proof (Hu (key (hp s y)) max) as Hy.
      destruct (decide (comp (key (hp s y)) max = 1%Z)) as [D|D]; eexists; (split; [done|]); (split; [|done]); intros _; exists (entry s y); (split; [done|]).
      + rewrite decide_False; [done|]. cbn. lia.
      + rewrite decide_True; [done|]. cbn. lia.
    - exists None. split; [done|]. split; [|done]. intros HI. apply (in_all_ok s ns min max HR) in HI. congruence.
  Qed.
  Lemma last_in_range_ok s ns min max fuel : repr s ns -> sorted comp (ents s ns) -> length ns < fuel ->
    exists o, last_in_range comp fuel s min max = Ok o /\
      (in_all comp (ents s ns) min max -> exists e, first_geq comp max (ents s ns) = Some e /\ entry s <$> o = Some e) /\
      (~ in_all comp (ents s ns) min max -> o = None).
  Proof.
    intros HR HS Hf. unfold last_in_range. destruct (is_in_all_range comp s min max) eqn:EI; cbn [negb].
    - pose proof EI as HI. rewrite (in_all_ok s ns min max HR) in HI.
      destruct (descend_below s ns max fuel HR HS Hf) as (x & a & B & -> & Ef & EG & HBl & HBn). cbn [rbind]. rewrite Ef. cbn [rbind].
      destruct B as [|y B].
      { exfalso. specialize (HBn eq_refl). destruct HI as (H1 & e1 & e2 & _ & E2 & _ & E3). rewrite last_ents in E2.
        destruct (last ns) as [t|]; [|done]. injection E2 as <-. cbn in E3. lia. }
      cbn [head deref rbind]. cbn [head] in EG.
      assert (Hymax : (0 <= comp (key (hp s y)) max)%Z).
      { unfold first_geq in EG. cbn in EG. assert (entry s y ∈ filter (fun e : K * V => (0 <= comp e.1 max)%Z) (ents s ns)) as Hin.
        { destruct (filter _ (ents s ns)) as [|e L]; [done|]. injection EG as ->. left. }
        apply elem_of_list_filter in Hin as [Hin _]. done. }
      rewrite decide_False.
      2: { destruct HI as (H1 & _). intros D. assert (comp (key (hp s y)) max < 0)%Z; [|lia]. apply (cmp_lt_trans comp Hc _ min); lia. }
      eexists. split; [done|]. split; [|done]. intros _. exists (entry s y). done.
    - exists None. split; [done|]. split; [|done]. intros HI. apply (in_all_ok s ns min max HR) in HI. congruence.
  Qed.
End srt.

Section anyc.
  Context {K V : Type} (comp : K -> K -> Z).
  Implicit Types (s : slist K V) (ns : list nat).
  (** the explicit panics of FirstInRange and LastInRange (lines 432, 453) are
      unreachable for every comparator, sorted list or not *)
  Lemma range_total s ns min max fuel : repr s ns -> length ns < fuel ->
    (exists o, first_in_range comp fuel s min max = Ok o) /\ (exists o, last_in_range comp fuel s min max = Ok o).
  Proof.
    intros HR Hf.
    assert (G : forall b, is_in_all_range comp s min max = true ->
      match last ns with Some t => comp (key (hp s t)) b <> (-1)%Z | None => False end ->
      exists x a y, descend fuel (hp s) (fun k' => bool_decide (comp k' b = (-1)%Z)) (level s) (hdr s) 0 no_arrays = Ok (x, a) /\
        rd_fwd (hp s) x 0 = Ok (Some y)).
    { intros b _ Ht. destruct (descend_full s ns HR (fun k' => bool_decide (comp k' b = (-1)%Z)) fuel Hf)
        as (A & B & x & a & E & ED & EN & EE & HA & HB & _ & _).
      destruct (fwd0_of s ns HR A B x E EN EE) as [Ef _]. destruct B as [|y B]; [|by exists x, a, y].
      exfalso. rewrite app_nil_r in EN. subst A. apply last_cons_snoc in EE.
      destruct (last ns) as [t|] eqn:El; [|done]. cbn in EE. subst t. destruct HA as [->|HA]; [done|]. by apply bool_decide_eq_true in HA. }
    assert (HI : is_in_all_range comp s min max = true ->
      match last ns with Some t => comp (key (hp s t)) min <> (-1)%Z /\ comp (key (hp s t)) max <> (-1)%Z | None => False end).
    { unfold is_in_all_range. rewrite (r_tail _ _ HR). destruct (decide (comp min max > -1)%Z); [done|].
      destruct (last ns) as [t|]; [|done]. destruct (decide (comp (key (hp s t)) min = (-1)%Z)); [done|]. destruct (decide (comp (key (hp s t)) max = (-1)%Z)); [done|].
      intros _. done. }
    unfold first_in_range, last_in_range. destruct (is_in_all_range comp s min max) eqn:EI; cbn [negb]; [|eauto].
    specialize (HI eq_refl). split.
    - destruct (G min eq_refl) as (x & a & y & -> & E); [by destruct (last ns); [destruct HI|]|]. cbn [rbind]. rewrite E. cbn. case_decide; eauto.
    - destruct (G max eq_refl) as (x & a & y & -> & E); [by destruct (last ns); [destruct HI|]|]. cbn [rbind]. rewrite E. cbn. case_decide; eauto.
  Qed.
End anyc.
