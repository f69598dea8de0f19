(** Deletion of a key from a whole tree; histories. *)
From Verif Require Import Base BPlus_Model BPlus_Spec BPlus_Proofs BPlus_Proofs2 BPlus_Proofs3 BPlus_Proofs4 BPlus_Proofs5 BPlus_Proofs6 BPlus_Proofs7 BPlus_Proofs8 BPlus_Proofs9.

Section del.
  Context {K V : Type} (comp : K -> K -> Z).
  Implicit Types (t : @tree K V) (w : list (@item K V)) (h : nat -> @node K V).
  Notation child := (nat * list nat * list (@item K V))%type.
  Notation del_effect := (del_effect (V := V) comp).

  Lemma del_effect_size d k es es' sz sz' :
    sz = Z.of_nat (length es) -> del_effect d k es es' sz sz' -> sz' = Z.of_nat (length es').
  Proof.
    intros -> (es1 & H1 & H2). assert (L : length es1 = length es).
    { destruct H1 as [->|(_ & a & b & z & c & -> & ->)]; [done|]. by rewrite !app_length. }
    destruct H2 as [[-> ->]|((a & x & c & -> & -> & _) & ->)]; [by rewrite L|].
    rewrite <-L, !app_length. simpl. lia.
  Qed.

  Lemma fuel_bound {A} (fp : list nat) n (P : A) : NoDup fp -> Forall (fun l => l < n) fp -> length fp <= n.
  Proof.
    intros ND Hb. rewrite <-(seq_length n 0). apply submseteq_length, NoDup_submseteq; [done|].
    intros x Hx. rewrite Forall_forall in Hb. specialize (Hb x Hx). apply elem_of_seq. lia.
  Qed.

  Lemma delete_ok t d w k : 2 <= degree t -> tree_reads t d w -> size t <> 0%Z ->
    delete comp (root t) k t = Panic
    \/ exists t' r d' w', delete comp (root t) k t = Ok (t', Some r)
       /\ tree_reads (set_root (Some r) t') d' w' /\ degree t' = degree t
       /\ del_effect d k (entries w) (entries w') (size t) (size t').
  Proof.
    intros HM T Hs. pose proof (tree_fuel _ _ _ T) as Hf. destruct T as (r & fp & Er & R & ND & Hb & Hsz).
    unfold delete. rewrite Er. cbn [deref rbind].
    assert (Plain : roomy t r d -> (let! t' := delete_non_one comp (S (brk t)) r k t in Ok (t', Some r)) = Panic
      \/ exists t' r' d' w', (let! t' := delete_non_one comp (S (brk t)) r k t in Ok (t', Some r)) = Ok (t', Some r')
       /\ tree_reads (set_root (Some r') t') d' w' /\ degree t' = degree t
       /\ del_effect d k (entries w) (entries w') (size t) (size t')).
    { intros Rm. destruct (delete_non_one_ok comp d (S (brk t)) t r fp w k Hf HM R ND Rm) as [->|(t' & fp' & w' & -> & D)]; [by left|right].
      destruct D as (D1 & D2 & D3 & D4 & D5 & D6 & D7 & D8 & D9). cbn [rbind].
      exists t', r, d, w'. splits; try done. exists r, fp'. cbn [root set_root hp degree brk size]. rewrite D7, D6. splits; try done.
      - rewrite Forall_forall in Hb |- *. intros x Hx. by apply Hb, D3.
      - by eapply del_effect_size. }
    pose proof (reads_lengths _ _ _ _ _ _ R) as (Lv & Lk & Ln & Lf).
    destruct d as [|d].
    - (* a single leaf *)
      cbn [reads] in R. destruct R as (nx&es&jk&cs&E&L1&L2&->&->). rewrite entries_leaf in *.
      assert (Hr : roomy t r 0).
      { split; [|lia]. rewrite E. cbn [num]. destruct es; [simpl in Hsz; lia|simpl; lia]. }
      destruct (decide (num (hp t r) = 1)) as [N1|N1]; [|by apply Plain].
      rewrite E. cbn [kids]. rewrite L2. destruct (degree t) as [|[|M]] eqn:EM; [lia|lia|].
      replace (2 * S (S M)) with (S (S (2 * M + 2))) by lia. cbn [replicate]. cbn [aget lookup list_lookup deref rbind].
      by apply Plain.
    - pose proof R as R0. cbn [reads] in R. destruct R as (nx&ks&J&ts&JC&E&N1&N2&L1&L2&->&->&F).
      destruct (decide (num (hp t r) = 1)) as [Hn|Hn]; cycle 1.
      { apply Plain. split; [rewrite E; cbn; lia|]. lia. }
      rewrite E in Hn. cbn [num] in Hn. destruct ks as [|kk [|? ?]]; [done| |done].
      destruct ts as [|cy [|cz [|? ?]]]; [done|done| |done].
      rewrite E. cbn [kids fmap list_fmap app aget lookup list_lookup deref rbind].
      set (ts := [cy; cz]) in *.
      assert (Hroomy : ~ (num (hp t cy.1.1) = degree t - 1 /\ num (hp t cz.1.1) = degree t - 1) -> roomy t r (S d)).
      { intros H. split; [rewrite E; cbn; lia|]. intros _ _ y z. rewrite E. cbn. intros [= <-] [= <-] A B. by apply H. }
      destruct (decide (num (hp t cy.1.1) = degree t - 1 /\ num (hp t cz.1.1) = degree t - 1)) as [[Ny Nz]|H]; [|by apply Plain, Hroomy].
      clear Plain Hroomy.
      apply Forall_cons in F as [[Fyn Fy] [[Fzn Fz] _]%Forall_cons].
      unfold ts in ND, Hb. cbn [fmap list_fmap concat] in ND, Hb. rewrite app_nil_r in ND, Hb.
      assert (E1 : hp t r = Node nx ([] ++ kk :: [] ++ J) ([] ++ Some cy.1.1 :: Some cz.1.1 :: [] ++ JC) (S (0 + 0)) false) by by rewrite E.
      destruct (merge_child_ok t r cy.1.1 cz.1.1 nx [] [] J kk [] [] JC d cy.1.2 cz.1.2 cy.2 cz.2 HM E1 eq_refl eq_refl Fy Fz ND Ny Nz)
        as (t1 & u & uc & fp' & w' & ES & (S1 & S1' & S1'') & S2 & S3 & S4 & S5 & S6 & S7 & S8 & S9).
      change (length (@nil (K * V))) with 0 in ES. rewrite ES. cbn [rbind].
      apply Forall_cons in Hb as [Hbr Hb].
      assert (Hb' : Forall (fun l => l < brk t1) fp').
      { rewrite S2. rewrite Forall_forall in Hb |- *. intros x Hx. by apply Hb, S6. }
      assert (Hd : d < S (brk t1)).
      { pose proof (reads_depth _ _ _ _ _ _ S4). pose proof (fuel_bound fp' (brk t1) tt S5 Hb'). lia. }
      rewrite <-S1' in S4, HM, S7.
      destruct (delete_non_one_ok comp d (S (brk t1)) t1 cy.1.1 fp' w' k Hd HM S4 S5) as [->|(t' & fp'' & w'' & -> & D)]; [|by left|right].
      { split; [lia|]. intros _ ?. lia. }
      destruct D as (D1 & D2 & D3 & D4 & D5 & D6 & D7 & D8 & D9). cbn [rbind].
      assert (He : entries (weave ((fun c : child => c.2) <$> ts) [kk]) = entries w').
      { rewrite S9. unfold ts. cbn [fmap list_fmap weave]. by rewrite entries_app. }
      assert (Eff : del_effect (S d) k (entries (weave ((fun c : child => c.2) <$> ts) [kk])) (entries w'') (size t) (size t')).
      { rewrite He, <-S1. by apply del_effect_S. }
      exists t', cy.1.1, d, w''. splits; try done; [|congruence].
      exists cy.1.1, fp''. cbn [root set_root hp degree brk size]. rewrite D7, D6. splits; try done.
      + rewrite Forall_forall in Hb' |- *. intros x Hx. by apply Hb', D3.
      + by eapply del_effect_size.
  Qed.
End del.
