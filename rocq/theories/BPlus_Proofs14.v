(** Insertion-only trees: every separator is preceded by an entry with an
    equal key, and the entries outnumber the separators. *)
From Verif Require Import Base BPlus_Model BPlus_Spec BPlus_Proofs BPlus_Proofs2 BPlus_Proofs3 BPlus_Proofs4 BPlus_Proofs5 BPlus_Proofs6 BPlus_Proofs7 BPlus_Proofs8 BPlus_Proofs9 BPlus_Proofs10 BPlus_Proofs11 BPlus_Proofs12.

Lemma app_middle_inv {A} (a b : list A) x a1 y b1 :
  a1 ++ y :: b1 = a ++ x :: b -> x <> y ->
  (exists c, a = a1 ++ y :: c /\ b1 = c ++ x :: b) \/ (exists c, a1 = a ++ x :: c /\ b = c ++ y :: b1).
Proof.
  revert a. induction a1 as [|z a1 IH]; intros [|w a] E N; cbn in E.
  - injection E as -> ->. done.
  - injection E as -> ->. left. exists a. done.
  - injection E as -> <-. right. by exists a1.
  - injection E as -> E. destruct (IH a E N) as [(c & -> & ->)|(c & -> & ->)]; [left|right]; by exists c.
Qed.
Lemma app_split_inv {A} (a b : list A) a1 y b1 :
  a1 ++ y :: b1 = a ++ b -> (exists c, a = a1 ++ y :: c /\ b1 = c ++ b) \/ (exists c, a1 = a ++ c /\ b = c ++ y :: b1).
Proof.
  revert a. induction a1 as [|z a1 IH]; intros [|w a] E; cbn in E.
  - right. by exists [].
  - injection E as -> ->. left. by exists a.
  - right. exists (z :: a1). by rewrite <-E.
  - injection E as -> E. destruct (IH a E) as [(c & -> & ->)|(c & -> & ->)]; [left|right]; by exists c.
Qed.

Section inv.
  Context {K V : Type} (kzero : K) (vzero : V) (comp : K -> K -> Z) (compV : V -> V -> Z).
  Implicit Types (t : @tree K V) (w a b : list (@item K V)).

  Definition copied w : Prop := forall a s b, w = a ++ Sep s :: b -> exists a' e, a = a' ++ [Entry e] /\ comp e.1 s.1 = 0%Z.

  Lemma snoc_eq {A} (x y : A) l l' : l ++ [x] = l' ++ [y] -> l = l' /\ x = y.
  Proof. intros H. apply app_inj_2 in H as [-> [= ->]]; done. Qed.

  Lemma copied_inserts M p w w' : 2 <= M -> cmp_ok comp -> inserts M p w w' -> in_order comp w' -> copied w -> copied w'.
  Proof.
    intros HM C I S. induction I as [a b|a es1 k es2 b w' L1 L2 I IH].
    - intros H a1 s b1 E. symmetry in E. apply app_middle_inv in E as [(c & -> & ->)|(c & -> & ->)]; [| |done].
      + apply (H a1 s (c ++ b)). by rewrite <-app_assoc.
      + destruct c as [|x c _] using rev_ind.
        * destruct (H a s b1 eq_refl) as (a' & e & -> & Ee). exists (a' ++ [Entry e]), p. split; [done|].
          unfold in_order in S. rewrite <-app_assoc in S. apply strong_app in S as (_ & S & _).
          cbn [app] in S. apply StronglySorted_inv in S as [S Se]. apply StronglySorted_inv in S as [_ Sp].
          rewrite Forall_forall in Se, Sp. specialize (Se (Entry p) ltac:(by left)). specialize (Sp (Sep s) ltac:(by left)).
          cbn in Se, Sp. destruct (decide (comp p.1 s.1 = 0%Z)) as [|N]; [done|].
          assert (L : (comp p.1 s.1 < 0)%Z) by lia. pose proof (cmp_le_lt_trans _ C _ _ _ Se L). lia.
        * destruct (H (a ++ c ++ [x]) s b1) as (a' & e & Ea & Ee); [by rewrite <-!app_assoc|].
          rewrite app_assoc in Ea. apply snoc_eq in Ea as [<- ->].
          exists (a ++ Entry p :: c), e. split; [|done]. by rewrite <-!app_assoc.
    - intros H. apply (IH S). intros a1 s b1 E. 
      assert (exists e es2', es2 = e :: es2') as (e & es2' & ->). { destruct es2; [simpl in L2; lia|eauto]. }
      rewrite app_assoc in E. symmetry in E. cbn [fmap list_fmap app] in E.
      apply app_split_inv in E as [(c & E1 & ->)|(c & -> & E2)].
      + apply (H a1 s (c ++ Entry e :: (Entry <$> es2') ++ b)). rewrite app_assoc, E1, <-app_assoc. done.
      + destruct c as [|x c]; cbn in E2; injection E2 as Ex E2.
        * subst s. rewrite app_nil_r, app_assoc. eexists _, _. split; [done|]. by apply cmp_refl.
        * destruct c as [|y c]; cbn in E2; [done|]. injection E2 as Ey E2. subst x y. destruct c as [|z c _] using rev_ind.
          -- exists ((a ++ (Entry <$> es1) ++ [Entry k]) ++ [Sep k]), e.
             destruct (H (a ++ ((Entry <$> es1) ++ [Entry k]) ++ [Entry e]) s b1) as (a' & e' & Ea & Ee).
             { rewrite <-!app_assoc. cbn. cbn in E2. rewrite E2. done. }
             rewrite app_assoc in Ea. apply snoc_eq in Ea as [_ [= ->]]. split; [|done]. by rewrite <-!app_assoc.
          -- destruct (H (a ++ ((Entry <$> es1) ++ [Entry k]) ++ Entry e :: c ++ [z]) s b1) as (a' & e' & Ea & Ee).
             { rewrite <-!app_assoc. cbn. rewrite E2, <-!app_assoc. done. }
             rewrite app_comm_cons, !app_assoc in Ea. apply snoc_eq in Ea as [_ ->].
             exists ((a ++ (Entry <$> es1) ++ [Entry k]) ++ Sep k :: Entry e :: c), e'. split; [|done].
             rewrite <-!app_assoc. cbn [app]. rewrite <-?app_assoc. done.
  Qed.

  (** ** entries against separators: the numbers of entries between separators *)
  Fixpoint runs w : list nat :=
    match w with
    | [] => [0]
    | Entry _ :: w => match runs w with n :: ns => S n :: ns | [] => [] end
    | Sep _ :: w => 0 :: runs w
    end.
  Lemma runs_first w : exists n ns, runs w = n :: ns.
  Proof. induction w as [|[e|s] w (n & ns & E)]; cbn; rewrite ?E; eauto. Qed.
  Lemma runs_last w : exists ns n, runs w = ns ++ [n].
  Proof.
    destruct (runs_first w) as (n & ns & E). destruct (runs w) as [|x l _] using rev_ind; [done|]. eauto.
  Qed.
  Lemma runs_app a b ra la fb rb : runs a = ra ++ [la] -> runs b = fb :: rb -> runs (a ++ b) = ra ++ (la + fb) :: rb.
  Proof.
    intros Ea Eb. revert ra la Ea. induction a as [|[e|s] a IH]; intros ra la Ea; cbn in *.
    - destruct ra as [|? [|? ?]]; simplify_eq/=. done.
    - destruct (runs_last a) as (r & n & E). rewrite E in Ea. rewrite (IH r n E).
      destruct r as [|x r]; cbn in *.
      + destruct ra as [|? [|? ?]]; simplify_eq/=. done.
      + destruct ra as [|y ra]; [by destruct r|]. cbn in Ea. injection Ea as <- Ea. apply snoc_eq in Ea as [<- <-]. done.
    - destruct (runs_last a) as (r & n & E). rewrite E in Ea. rewrite (IH r n E).
      destruct ra as [|y ra]; [by destruct r|]. cbn in Ea. injection Ea as <- Ea. apply snoc_eq in Ea as [<- <-]. done.
  Qed.
  Lemma runs_entries (es : list (K * V)) : runs (Entry <$> es) = [length es].
  Proof. induction es as [|e es IH]; [done|]. cbn. by rewrite IH. Qed.
  Lemma runs_counts w : sum_list (runs w) = length (entries w) /\ length (runs w) = S (length (separators w)).
  Proof.
    induction w as [|[e|s] w [IH1 IH2]]; [done| |].
    - change (entries (Entry e :: w)) with (e :: entries w). change (separators (Entry e :: w)) with (separators w).
      cbn [runs length]. destruct (runs_first w) as (n & ns & E). rewrite E in *. rewrite <-IH1. done.
    - change (entries (Sep s :: w)) with (entries w). change (separators (Sep s :: w)) with (s :: separators w).
      cbn [runs length]. rewrite <-IH1, <-IH2. done.
  Qed.
  Lemma sum_app (x y : list nat) : sum_list (x ++ y) = sum_list x + sum_list y.
  Proof. induction x; cbn; [done|]. rewrite IHx. lia. Qed.
  Lemma sum_least m (x : list nat) : Forall (fun n => m <= n) x -> m * length x <= sum_list x.
  Proof. induction 1; cbn; lia. Qed.

  Definition thick (M s : nat) w : Prop := 1 < length (runs w) ->
    Forall (fun n => M - 1 <= n) (runs w) /\ (M - 1) * length (runs w) + s <= sum_list (runs w).
  Lemma thick_inserts M p w w' : 2 <= M -> inserts M p w w' -> thick M 1 w -> thick M 2 w'.
  Proof.
    intros HM I. induction I as [a b|a es1 k es2 b w' L1 L2 I IH]; intros T.
    - destruct (runs_last a) as (ra & la & Ea), (runs_first b) as (fb & rb & Eb).
      assert (E1 : runs (a ++ b) = ra ++ (la + fb) :: rb) by by apply runs_app.
      assert (E2 : runs (a ++ Entry p :: b) = ra ++ (la + S fb) :: rb) by (apply runs_app; [done|cbn; by rewrite Eb]).
      unfold thick in *. rewrite E1 in T. rewrite E2. rewrite app_length, sum_app in *. simpl in *. intros Hl.
      destruct (T Hl) as [F S]. split; [|lia]. apply Forall_app in F as [F1 F2]. apply Forall_cons in F2 as [F2 F3].
      apply Forall_app. split; [done|]. constructor; [lia|done].
    - apply IH. clear IH I.
      destruct (runs_last a) as (ra & la & Ea), (runs_first b) as (fb & rb & Eb).
      assert (R2 : runs ((Entry <$> es2) ++ b) = (M - 1 + fb) :: rb).
      { rewrite <-L2. apply (runs_app _ _ [] (length es2)); [apply runs_entries|done]. }
      assert (R1 : runs ((Entry <$> es1) ++ [Entry k]) = [M]).
      { replace ((Entry <$> es1) ++ [Entry k]) with (Entry <$> (es1 ++ [k]) : list (@item K V)) by by rewrite fmap_app.
        rewrite runs_entries, app_length. simpl. f_equal. lia. }
      assert (Ew : runs (a ++ ((Entry <$> es1) ++ [Entry k]) ++ (Entry <$> es2) ++ b) = ra ++ (la + (M + (M - 1 + fb))) :: rb).
      { apply runs_app; [done|]. by apply (runs_app _ _ []). }
      assert (Ew1 : runs (a ++ ((Entry <$> es1) ++ [Entry k]) ++ Sep k :: (Entry <$> es2) ++ b) = ra ++ (la + (M + 0)) :: (M - 1 + fb) :: rb).
      { apply runs_app; [done|]. apply (runs_app _ _ []); [done|]. cbn. by rewrite R2. }
      unfold thick in *. rewrite Ew in T. rewrite Ew1. rewrite app_length, sum_app in *. simpl in *. intros _.
      assert (F : Forall (fun n => M - 1 <= n) ra /\ Forall (fun n => M - 1 <= n) rb).
      { destruct (decide (1 < length ra + S (length rb))) as [Hl|Hl].
        - destruct (T Hl) as [F _]. apply Forall_app in F as [F1 [_ F2]%Forall_cons]. done.
        - destruct ra, rb; simpl in Hl; try lia. done. }
      destruct F as [F1 F2]. split.
      + apply Forall_app. split; [done|]. repeat constructor; [lia|lia|done].
      + apply sum_least in F1, F2. lia.
  Qed.
  Lemma thick_le M s s' w : s' <= s -> thick M s w -> thick M s' w.
  Proof. intros L T H. destruct (T H). split; [done|lia]. Qed.
  Lemma thick_counts M w : thick M 2 w -> separators w <> [] -> (M - 1) * S (length (separators w)) + 2 <= length (entries w).
  Proof.
    intros T H. destruct (runs_counts w) as [E1 E2]. rewrite <-E1, <-E2. apply T. rewrite E2. destruct (separators w); [done|simpl; lia].
  Qed.

  (** ** insertion-only trees *)
  Definition grown t d w : Prop := tree_reads t d w /\ in_order comp w /\ copied w /\ thick (degree t) 2 w.
  Lemma grown_op o t d w : cmp_ok comp -> 2 <= degree t -> grown t d w -> no_delete o ->
    exists t' r d' w', do_op kzero vzero comp compV o t = Ok (t', r) /\ grown t' d' w' /\ degree t' = degree t
      /\ (if is_insert o then
            (r = RBool true /\ exists k v, (o = InsertEqual k v \/ o = InsertUnique k v /\ contains_key comp k t = Ok false) /\ entries w' ≡ₚ (k, v) :: entries w)
            \/ (r = RBool false /\ t' = t /\ w' = w /\ exists k v, o = InsertUnique k v /\ contains_key comp k t = Ok true)
          else t' = t /\ w' = w).
  Proof.
    intros C HM (T & S & Cp & Th) N.
    assert (HI : forall k v, exists t' r d' w', insert kzero vzero comp (root t) (k, v) t = Ok (t', r)
       /\ grown (set_root r t') d' w' /\ degree t' = degree t /\ entries w' ≡ₚ (k, v) :: entries w).
    { intros k v. destruct (insert_ok kzero vzero comp t d w (k, v) HM T) as (t' & r & d' & w' & E & T' & (G1 & G2 & G3 & G4) & Hd & _).
      exists t', (Some r), d', w'. splits; try done. unfold grown. pose proof (G3 C S) as S'. splits; try done.
      - by eapply copied_inserts.
      - cbn [set_root degree]. rewrite Hd. eapply thick_inserts; [done|done|]. eapply thick_le; [|done]. lia. }
    destruct o as [k v|k v|k|k v|k]; cbn [BPlus_Spec.do_op is_insert] in *; try done.
    - destruct (HI k v) as (t' & r & d' & w' & E & G & Hd & P). unfold insert_equal. rewrite E. cbn [rbind bpair].
      exists (set_root r t'), (RBool true), d', w'. splits; try done. left. split; [done|]. exists k, v. auto.
    - destruct (found_entry_ok comp k t d w T) as (o & EF & EC & So & _). unfold insert_unique. rewrite EC. cbn [rbind].
      destruct (bool_decide (is_Some o)).
      + cbn [bpair rbind]. exists t, (RBool false), d, w. splits; try done. right. splits; try done. by exists k, v.
      + destruct (HI k v) as (t' & r & d' & w' & E & G & Hd & P). rewrite E. cbn [rbind bpair].
        exists (set_root r t'), (RBool true), d', w'. splits; try done. left. split; [done|]. exists k, v. auto.
    - unfold get_verify. destruct (found_entry_ok comp k t d w T) as (o & EF & EC & So & _). rewrite EF. cbn [rbind].
      destruct o as [e|]; cbn [rbind]; eexists t, _, d, w; (split; [done|]); done.
  Qed.
  Lemma grown_run os t d w t' rs : cmp_ok comp -> 2 <= degree t -> grown t d w -> Forall no_delete os ->
    run kzero vzero comp compV os t = Ok (t', rs) -> exists d' w', grown t' d' w' /\ degree t' = degree t.
  Proof.
    intros C. revert t d w rs. induction os as [|o os IH]; intros t d w rs HM G N E.
    { cbn in E. injection E as <- <-. eauto. }
    apply Forall_cons in N as [N1 N2]. destruct (grown_op o t d w C HM G N1) as (t1 & r & d1 & w1 & E1 & G1 & Hd & _).
    cbn [run] in E. rewrite E1 in E. cbn [rbind] in E. destruct (run _ _ _ _ os t1) as [[t2 rs2]| |] eqn:E2; try done.
    cbn [rbind] in E. injection E as <- <-. rewrite <-Hd in HM |- *. by eapply IH.
  Qed.
  Lemma grown_new deg : (2 <= deg)%Z -> exists t, new_map kzero vzero deg = Ok t /\ grown t 0 [] /\ Z.of_nat (degree t) = deg.
  Proof.
    intros Hd. destruct (new_map_ok kzero vzero comp compV deg) as (t & E & T & D); [lia|]. exists t. splits; try done. split; [done|]. split; [constructor|]. split.
    - intros a s b H. by destruct a.
    - intros H. cbn in H. lia.
  Qed.
  Lemma grown_run_new deg os t rs : cmp_ok comp -> (2 <= deg)%Z -> Forall no_delete os ->
    run_new kzero vzero comp compV deg os = Ok (t, rs) -> exists d, grown t d (reading t) /\ 2 <= degree t.
  Proof.
    intros C Hd N E. destruct (grown_new deg Hd) as (t0 & E0 & G0 & D0). unfold run_new in E. rewrite E0 in E. cbn [rbind] in E.
    destruct (grown_run os t0 0 [] t rs C ltac:(lia) G0 N E) as (d & w & G & D). exists d.
    rewrite (reading_ok t d w) by apply G. split; [done|lia].
  Qed.
End inv.
