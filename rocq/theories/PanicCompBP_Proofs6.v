(** Proofs for C75: deletions on trees that stand, trees whose root has no key
    left, and all histories. *)
From Verif Require Import Base BPlus_Model BPlus_Spec BPlus_Proofs BPlus_Proofs2 BPlus_Proofs3 BPlus_Proofs4 BPlus_Proofs5 BPlus_Proofs6 BPlus_Proofs7 BPlus_Proofs8 BPlus_Proofs9 BPlus_Proofs10.
From Verif Require Import PanicComp_Model PanicComp_Spec PanicComp_Proofs PanicCompBP_Model PanicCompBP_Spec PanicCompBP_Proofs PanicCompBP_Proofs2 PanicCompBP_Proofs3 PanicCompBP_Proofs4 PanicCompBP_Proofs5.

Section del.
  Context {K V : Type} (comp : K -> K -> Z).
  Implicit Types (t : @tree K V) (w : list (@item K V)) (h : nat -> @node K V).
  Notation child := (nat * list nat * list (@item K V))%type.
  Notation del_effect := (del_effect (V := V) comp).

  Lemma del_effect_le d k es es' sz sz' :
    (Z.of_nat (length es) <= sz)%Z -> del_effect d k es es' sz sz' -> (Z.of_nat (length es') <= sz')%Z.
  Proof.
    intros Hs (es1 & H1 & H2). assert (L : length es1 = length es).
    { destruct H1 as [->|(_ & a & b & z & c & -> & ->)]; [done|]. by rewrite !app_length. }
    destruct H2 as [[-> ->]|((a & x & c & -> & -> & _) & ->)]; [by rewrite L|].
    rewrite <-L, !app_length in Hs. rewrite !app_length. simpl in *. lia.
  Qed.
  Lemma dcut_length d (es es' : list (K * V)) : dcut d es es' -> length es' = length es.
  Proof. intros [->|(_ & a & b & z & c & -> & ->)]; [done|]. by rewrite !app_length. Qed.

  Lemma delete_stands t d w k : 2 <= degree t -> tree_stands t d w -> entries w <> [] ->
    delete comp (root t) k t = Panic
    \/ exists t' r d' w', delete comp (root t) k t = Ok (t', Some r)
       /\ tree_stands (set_root (Some r) t') d' w' /\ degree t' = degree t
       /\ del_effect d k (entries w) (entries w') (size t) (size t').
  Proof.
    intros HM T Hs. pose proof (stands_fuel _ _ _ T) as Hf. destruct T as (r & fp & Er & R & ND & Hb & Hsz).
    unfold delete. rewrite Er. cbn [deref rbind].
    assert (Plain : roomy t r d -> (let! t' := delete_non_one comp (S (brk t)) r k t in Ok (t', Some r)) = Panic
      \/ exists t' r' d' w', (let! t' := delete_non_one comp (S (brk t)) r k t in Ok (t', Some r)) = Ok (t', Some r')
       /\ tree_stands (set_root (Some r') t') d' w' /\ degree t' = degree t
       /\ del_effect d k (entries w) (entries w') (size t) (size t')).
    { intros Rm. destruct (delete_non_one_ok comp d (S (brk t)) t r fp w k Hf HM R ND Rm) as [->|(t' & fp' & w' & -> & D)]; [by left|right].
      destruct D as (D1 & D2 & D3 & D4 & D5 & D6 & D7 & D8 & D9). cbn [rbind].
      exists t', r, d, w'. splits; try done. exists r, fp'. cbn [root set_root hp degree brk size]. rewrite D7, D6. splits; try done.
      - rewrite Forall_forall in Hb |- *. intros x Hx. by apply Hb, D3.
      - by eapply del_effect_le. }
    pose proof (reads_lengths _ _ _ _ _ _ R) as (Lv & Lk & Ln & Lf).
    destruct d as [|d].
    - (* a single leaf *)
      cbn [reads] in R. destruct R as (nx&es&jk&cs&E&L1&L2&->&->). rewrite entries_leaf in *.
      assert (Hr : roomy t r 0).
      { split; [|lia]. rewrite E. cbn [num]. destruct es; [done|simpl; lia]. }
      destruct (decide (num (hp t r) = 1)) as [N1|N1]; [|by apply Plain].
      rewrite E. cbn [kids]. rewrite L2. destruct (degree t) as [|[|M]] eqn:EM; [lia|lia|].
      replace (2 * S (S M)) with (S (S (2 * M + 2))) by lia. cbn [replicate]. cbn [aget lookup list_lookup deref rbind].
      by apply Plain.
    - pose proof R as R0. cbn [reads] in R. destruct R as (nx&ks&J&ts&JC&E&N1&N2&L1&L2&->&->&F).
      destruct (decide (num (hp t r) = 1)) as [Hn|Hn]; cycle 1.
      { apply Plain. split; [rewrite E; cbn; lia|]. lia. }
      rewrite E in Hn. cbn [num] in Hn. destruct ks as [|kk [|? ?]]; [done| |done].
      destruct ts as [|cy [|cz [|? ?]]]; [done|done| |done].
      rewrite E. cbn [kids fmap list_fmap app aget lookup list_lookup deref rbind].
      set (ts := [cy; cz]) in *.
      assert (Hroomy : ~ (num (hp t cy.1.1) = degree t - 1 /\ num (hp t cz.1.1) = degree t - 1) -> roomy t r (S d)).
      { intros H. split; [rewrite E; cbn; lia|]. intros _ _ y z. rewrite E. cbn. intros [= <-] [= <-] A B. by apply H. }
      destruct (decide (num (hp t cy.1.1) = degree t - 1 /\ num (hp t cz.1.1) = degree t - 1)) as [[Ny Nz]|H]; [|by apply Plain, Hroomy].
      clear Plain Hroomy.
      apply Forall_cons in F as [[Fyn Fy] [[Fzn Fz] _]%Forall_cons].
      unfold ts in ND, Hb. cbn [fmap list_fmap concat] in ND, Hb. rewrite app_nil_r in ND, Hb.
      assert (E1 : hp t r = Node nx ([] ++ kk :: [] ++ J) ([] ++ Some cy.1.1 :: Some cz.1.1 :: [] ++ JC) (S (0 + 0)) false) by by rewrite E.
      destruct (merge_child_ok t r cy.1.1 cz.1.1 nx [] [] J kk [] [] JC d cy.1.2 cz.1.2 cy.2 cz.2 HM E1 eq_refl eq_refl Fy Fz ND Ny Nz)
        as (t1 & u & uc & fp' & w' & ES & (S1 & S1' & S1'') & S2 & S3 & S4 & S5 & S6 & S7 & S8 & S9).
      change (length (@nil (K * V))) with 0 in ES. rewrite ES. cbn [rbind].
      apply Forall_cons in Hb as [Hbr Hb].
      assert (Hb' : Forall (fun l => l < brk t1) fp').
      { rewrite S2. rewrite Forall_forall in Hb |- *. intros x Hx. by apply Hb, S6. }
      assert (Hd : d < S (brk t1)).
      { pose proof (reads_depth _ _ _ _ _ _ S4). pose proof (fuel_bound fp' (brk t1) tt S5 Hb'). lia. }
      rewrite <-S1' in S4, HM, S7.
      destruct (delete_non_one_ok comp d (S (brk t1)) t1 cy.1.1 fp' w' k Hd HM S4 S5) as [->|(t' & fp'' & w'' & -> & D)]; [|by left|right].
      { split; [lia|]. intros _ ?. lia. }
      destruct D as (D1 & D2 & D3 & D4 & D5 & D6 & D7 & D8 & D9). cbn [rbind].
      assert (He : entries (weave ((fun c : child => c.2) <$> ts) [kk]) = entries w').
      { rewrite S9. unfold ts. cbn [fmap list_fmap weave]. by rewrite entries_app. }
      assert (Eff : del_effect (S d) k (entries (weave ((fun c : child => c.2) <$> ts) [kk])) (entries w'') (size t) (size t')).
      { rewrite He, <-S1. by apply del_effect_S. }
      exists t', cy.1.1, d, w''. splits; try done; [|congruence].
      exists cy.1.1, fp''. cbn [root set_root hp degree brk size]. rewrite D7, D6. splits; try done.
      + rewrite Forall_forall in Hb' |- *. intros x Hx. by apply Hb', D3.
      + by eapply del_effect_le.
  Qed.
  Lemma delete_c_cut t d w k n t' : 2 <= degree t -> tree_stands t d w -> entries w <> [] ->
    delete_c comp (root t) k t n = Crash t' ->
    same_meta t t' /\ exists w', (entries w' = entries w \/ overwrite (entries w) (entries w'))
      /\ (tree_stands t' d w' \/ exists d', d = S d' /\ tree_hollow t' d' w').
  Proof.
    intros HM T Hs HC. split; [exact (ab_meta_delete comp _ _ t t (sm_refl t) _ _ HC)|]. pose proof (stands_fuel _ _ _ T) as Hf. destruct T as (r & fp & Er & R & ND & Hb & Hsz).
    unfold delete_c in HC. rewrite Er in HC. unfold cbnd at 1 in HC. cbn [cl deref] in HC.
    assert (Plain : roomy t r d -> (let^ t' := delete_non_one_c comp (S (brk t)) r k t in cret (t', Some r)) n = Crash t' ->
      exists w', (entries w' = entries w \/ overwrite (entries w) (entries w')) /\ (tree_stands t' d w' \/ exists d', d = S d' /\ tree_hollow t' d' w')).
    { intros Rm HC'. apply bind_crash in HC' as [HC'|(? & ? & _ & HC')]; [|discriminate].
      destruct (delete_cut comp d (S (brk t)) t r fp w k n t' Hf HM R ND Rm HC') as (fp' & w' & D1 & D2 & D3 & D4 & D5 & D6 & D7 & D8 & D9 & D10).
      exists w'. split; [destruct D9 as [|[_ ?]]; auto|]. left. exists r, fp'. rewrite D6, D7, D8, D10. splits; try done.
      - rewrite Forall_forall in Hb |- *. intros x Hx. by apply Hb, D3.
      - rewrite (dcut_length _ _ _ D9). done. }
    pose proof (reads_lengths _ _ _ _ _ _ R) as (Lv & Lk & Ln & Lf).
    destruct d as [|d].
    - (* a single leaf *)
      cbn [reads] in R. destruct R as (nx&es&jk&cs&E&L1&L2&->&->). rewrite entries_leaf in *.
      assert (Hr : roomy t r 0).
      { split; [|lia]. rewrite E. cbn [num]. destruct es; [done|simpl; lia]. }
      destruct (decide (num (hp t r) = 1)) as [N1|N1]; [|by apply Plain].
      rewrite E in HC. cbn [kids] in HC. rewrite L2 in HC. destruct (degree t) as [|[|M]] eqn:EM; [lia|lia|].
      replace (2 * S (S M)) with (S (S (2 * M + 2))) in HC by lia. cbn [replicate] in HC. unfold cbnd at 1 in HC. cbn [cl aget lookup list_lookup deref] in HC. unfold cbnd at 1 in HC. cbn [cl aget lookup list_lookup deref] in HC.
      by apply Plain.
    - pose proof R as R0. cbn [reads] in R. destruct R as (nx&ks&J&ts&JC&E&N1&N2&L1&L2&->&->&F).
      destruct (decide (num (hp t r) = 1)) as [Hn|Hn]; cycle 1.
      { apply Plain; [|done]. split; [rewrite E; cbn; lia|]. lia. }
      rewrite E in Hn. cbn [num] in Hn. destruct ks as [|kk [|? ?]]; [done| |done].
      destruct ts as [|cy [|cz [|? ?]]]; [done|done| |done].
      rewrite E in HC. cbn [kids fmap list_fmap app] in HC. unfold cbnd at 1 in HC. cbn [cl aget lookup list_lookup deref] in HC. unfold cbnd at 1 in HC. cbn [cl aget lookup list_lookup deref] in HC.
      set (ts := [cy; cz]) in *.
      assert (Hroomy : ~ (num (hp t cy.1.1) = degree t - 1 /\ num (hp t cz.1.1) = degree t - 1) -> roomy t r (S d)).
      { intros H. split; [rewrite E; cbn; lia|]. intros _ _ y z. rewrite E. cbn. intros [= <-] [= <-] A B. by apply H. }
      destruct (decide (num (hp t cy.1.1) = degree t - 1 /\ num (hp t cz.1.1) = degree t - 1)) as [[Ny Nz]|H]; [|by apply Plain; [apply Hroomy|]].
      clear Plain Hroomy.
      apply Forall_cons in F as [[Fyn Fy] [[Fzn Fz] _]%Forall_cons].
      unfold ts in ND, Hb. cbn [fmap list_fmap concat] in ND, Hb. rewrite app_nil_r in ND, Hb.
      assert (E1 : hp t r = Node nx ([] ++ kk :: [] ++ J) ([] ++ Some cy.1.1 :: Some cz.1.1 :: [] ++ JC) (S (0 + 0)) false) by by rewrite E.
      destruct (merge_child_ok t r cy.1.1 cz.1.1 nx [] [] J kk [] [] JC d cy.1.2 cz.1.2 cy.2 cz.2 HM E1 eq_refl eq_refl Fy Fz ND Ny Nz)
        as (t1 & u & uc & fp' & w' & ES & (S1 & S1' & S1'') & S2 & S3 & S4 & S5 & S6 & S7 & S8 & S9).
      change (length (@nil (K * V))) with 0 in ES. rewrite ES in HC. unfold cbnd at 1 in HC. cbn [cl] in HC. apply bind_crash in HC as [HC|(? & ? & _ & HC)]; [|discriminate].
      apply Forall_cons in Hb as [Hbr Hb].
      assert (Hb' : Forall (fun l => l < brk t1) fp').
      { rewrite S2. rewrite Forall_forall in Hb |- *. intros x Hx. by apply Hb, S6. }
      assert (Hd : d < S (brk t1)).
      { pose proof (reads_depth _ _ _ _ _ _ S4). pose proof (fuel_bound fp' (brk t1) tt S5 Hb'). lia. }
      rewrite <-S1' in S4, HM, S7.
      assert (Rm : roomy t1 cy.1.1 d). { split; [lia|]. intros _ ?. lia. }
      destruct (delete_cut comp d (S (brk t1)) t1 cy.1.1 fp' w' k n t' Hd HM S4 S5 Rm HC) as (fp'' & w'' & D1 & D2 & D3 & D4 & D5 & D6 & D7 & D8 & D9 & D10).
      assert (He : entries (weave ((fun c : child => c.2) <$> ts) [kk]) = entries w').
      { rewrite S9. unfold ts. cbn [fmap list_fmap weave]. by rewrite entries_app. }
      exists w''. rewrite He. split; [destruct D9 as [|[_ ?]]; auto|]. right. exists d. split; [done|].
      apply NoDup_cons in ND as [NDr ND].
      assert (Hrf : r ∉ fp''). { intros H. apply NDr. by apply S6, D3. }
      assert (Hr' : hp t' r = hp t1 r). { apply D4. intros H. by apply NDr, S6. }
      unfold ts in L2. exists r, cy.1.1, nx, (u :: J), (uc :: JC), fp''. rewrite Hr', S3. cbn [app length] in *. rewrite D6, D7, D8, D10, S2, S1', S1'', S1. rewrite S1' in D1. splits; try done; try lia.
      + by apply NoDup_cons.
      + apply Forall_cons. split; [done|]. rewrite Forall_forall in Hb |- *. intros x Hx. by apply Hb, S6, D3.
      + rewrite (dcut_length _ _ _ D9), <- He. done.
  Qed.
End del.
