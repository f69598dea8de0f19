(** Property theorems for the terminal operations built on FoldWith (C65): Sum,
    Reduce, Max, Min, and FoldWith through Map and Filter, on a slice stream
    of any parallelism.  [fits s p]: p is positive and divides the length of
    the non-empty slice s. *)
From Verif Require Import Base Split_Model StreamPar_Model StreamTry_Model StreamTry_Proofs2 StreamRed_Model StreamRed_Spec StreamRed_Proofs.

(** what [fits] means *)
Theorem C65_fits_iff : forall (T : Type) (s : list T) (p : Z),
  fits s p <-> (0 < p)%Z /\ s <> [] /\ (p | Z.of_nat (length s))%Z.
Proof.
  intros T s p. unfold fits. split; intros (H1 & H2 & H3); splits; try done.
  - intros ->. cbn in H2. lia.
  - apply Z.divide_pos_le; [|done]. destruct s; [done|cbn; lia].
Qed.
Print Assumptions C65_fits_iff.

(** Sum is the sum *)
Theorem C65_sum : forall (s : list Z) (p : Z) o, p = 0%Z \/ fits s p ->
  sum_outcome s p o <-> o = Some (fold_right Z.add 0%Z s).
Proof.
  intros s p o [->|F].
  - unfold sum_outcome. rewrite out_zero by done. rewrite fold_symmetric by (intros; lia). done.
  - destruct (out_fits s p 0%Z Z.add Z.add F) as ([v0 H0] & Hn & Hv).
    assert (G : forall v, sum_outcome s p (Some v) -> v = fold_right Z.add 0%Z s).
    { intros v H. destruct (Hv v H) as (segs & used & <- & E2 & _ & ->).
      rewrite (fold_segs Z.add) by (intros; lia). rewrite <- fold_symmetric by (intros; lia). rewrite fold_left_app.
      replace (fold_left Z.add (replicate (length used) 0%Z) 0%Z) with 0%Z.
      - apply fold_perm; [intros; lia|intros; lia|]. by rewrite E2.
      - generalize (length used). induction n as [|n IH]; [done|]. cbn. done. }
    split; [|intros ->; by rewrite <- (G v0 H0)]. intros H. destruct o as [v|]; [|done]. by rewrite (G v H).
Qed.
Print Assumptions C65_sum.

(** Reduce with an associative and commutative operation counts the first
    element 1 + p times too often: its result is that of the list with p extra
    copies of the first element, started at the first element. *)
Theorem C65_reduce : forall (T : Type) (zero m : T) (l : list T) (p : Z) (f : T -> T -> T) o,
  (forall a b c, f a (f b c) = f (f a b) c) -> (forall a b, f a b = f b a) ->
  p = 0%Z \/ fits (m :: l) p ->
  reduce_outcome zero (m :: l) p f o <-> o = Some (fold_left f (replicate (Z.to_nat p) m ++ m :: l) m).
Proof.
  intros T zero m l p f o Ha Hc Hp. unfold reduce_outcome.
  assert (E1 : first_par zero (m :: l) p = Ok (m, true)).
  { destruct Hp as [->|(H0 & Hn & _)]; [done|]. destruct (first_par_ok zero (m :: l) p ltac:(lia) Hn) as (m' & l' & [= <- <-] & E); done. }
  assert (G : fold_outcome (m :: l) p m f f o <-> o = Some (fold_left f (replicate (Z.to_nat p) m ++ m :: l) m)).
  { destruct Hp as [->|F]; [by rewrite out_zero|].
    destruct (out_fits (m :: l) p m f f F) as ([v0 H0] & Hn & Hv).
    assert (G : forall v, fold_outcome (m :: l) p m f f (Some v) -> v = fold_left f (replicate (Z.to_nat p) m ++ m :: l) m).
    { intros v H. destruct (Hv v H) as (segs & used & E1' & E2 & E3 & ->). rewrite (fold_segs f Ha Hc).
      apply fold_perm; [done|done|]. rewrite <- E3, Nat2Z.id. apply Permutation_app_head. rewrite <- E1'. by rewrite E2. }
    split; [|intros ->; by rewrite <- (G v0 H0)]. intros H. destruct o as [v|]; [|done]. by rewrite (G v H). }
  rewrite <- G. split; [intros (m' & ok & E & H); rewrite E1 in E; injection E as <- <-; exact H|intros H; by exists m, true].
Qed.
Print Assumptions C65_reduce.

(** Max and Min are right (the operation is idempotent) *)
Theorem C65_max : forall (s : list Z) (p : Z) o, s <> [] -> p = 0%Z \/ fits s p ->
  max_outcome s p o <-> exists v, o = Some v /\ v ∈ s /\ Forall (fun x => (x <= v)%Z) s.
Proof.
  intros [|m l] p o Hs Hp; [done|]. unfold max_outcome. rewrite C65_reduce; [| |  |done].
  - destruct (unpad _ _ _ _ _ (fold_max (replicate (Z.to_nat p) m ++ m :: l) m _ eq_refl)) as [H1 H2].
    split; [intros ->; by eexists|]. intros (v & -> & H3 & H4). f_equal. rewrite Forall_forall in H2, H4.
    apply Z.le_antisymm; [by apply H2|by apply H4].
  - intros a b c. rewrite !if_max. lia.
  - intros a b. destruct (Z.gtb_spec a b), (Z.gtb_spec b a); lia.
Qed.
Print Assumptions C65_max.
Theorem C65_min : forall (s : list Z) (p : Z) o, s <> [] -> p = 0%Z \/ fits s p ->
  min_outcome s p o <-> exists v, o = Some v /\ v ∈ s /\ Forall (fun x => (v <= x)%Z) s.
Proof.
  intros [|m l] p o Hs Hp; [done|]. unfold min_outcome. rewrite C65_reduce; [| |  |done].
  - destruct (unpad _ _ _ _ _ (fold_min (replicate (Z.to_nat p) m ++ m :: l) m _ eq_refl)) as [H1 H2].
    split; [intros ->; by eexists|]. intros (v & -> & H3 & H4). f_equal. rewrite Forall_forall in H2, H4.
    apply Z.le_antisymm; [by apply H4|by apply H2].
  - intros a b c. rewrite !if_min. lia.
  - intros a b. destruct (Z.ltb_spec a b), (Z.ltb_spec b a); lia.
Qed.
Print Assumptions C65_min.

(** through Map and Filter stages: what the sequential pipeline folds *)
Theorem C65_through_stages : forall (A B R : Type) (s : list A) (p : Z) (pre : A -> option B) (init : R) (f : R -> B -> R) (comb : R -> R -> R) o,
  (forall a b c, comb a (comb b c) = comb (comb a b) c) -> (forall a b, comb a b = comb b a) ->
  (forall a, comb init a = a) -> (forall a b x, f (comb a b) x = comb a (f b x)) ->
  p = 0%Z \/ fits s p ->
  fold_outcome s p init (through pre f) comb o <-> o = Some (fold_left f (omap pre s) init).
Proof.
  intros A B R s p pre init f comb o Ha Hc Hi Hh [->|F].
  - rewrite out_zero by done. by rewrite through_fold.
  - destruct (out_fits s p init (through pre f) comb F) as ([v0 H0] & Hn & Hv).
    assert (Hh' : forall a b x, through pre f (comb a b) x = comb a (through pre f b x)).
    { intros a b x. unfold through. by destruct (pre x). }
    assert (G : forall v, fold_outcome s p init (through pre f) comb (Some v) -> v = fold_left f (omap pre s) init).
    { intros v H. destruct (Hv v H) as (segs & used & <- & E2 & _ & ->).
      rewrite <- through_fold, <- (StreamPar_Proofs.comb_segs init (through pre f) comb Hc Hi Hh').
      apply fold_perm; [done|done|]. by rewrite E2. }
    split; [|intros ->; by rewrite <- (G v0 H0)]. intros H. destruct o as [v|]; [|done]. by rewrite (G v H).
Qed.
Print Assumptions C65_through_stages.
Theorem C65_stages : forall (A B : Type) (g : A -> B) (q : A -> bool) (qb : B -> bool) (s : list A),
  omap (map_stage g) s = map g s /\ omap (filter_stage q) s = List.filter q s
  /\ omap (then_stage (filter_stage q) (map_stage g)) s = map g (List.filter q s)
  /\ omap (then_stage (map_stage g) (filter_stage qb)) s = List.filter qb (map g s).
Proof.
  intros A B g q qb s. unfold map_stage, filter_stage, then_stage. induction s as [|x s (I1 & I2 & I3 & I4)]; [done|]. splits.
  - cbn [map omap list_omap]. by rewrite <- I1.
  - cbn [List.filter omap list_omap]. destruct (q x); by rewrite <- I2.
  - cbn [List.filter map omap list_omap]. destruct (q x); cbn [map]; by rewrite <- I3.
  - cbn [List.filter map omap list_omap]. destruct (qb (g x)); by rewrite <- I4.
Qed.
Print Assumptions C65_stages.

(** more goroutines than elements: Sum never returns; Reduce, Max and Min
    answer the zero value although the slice need not be empty *)
Theorem C65_short : forall (s : list Z) (p : Z), (Z.of_nat (length s) < p)%Z ->
  (forall o, ~ sum_outcome s p o)
  /\ (forall o, max_outcome s p o <-> o = Some 0%Z) /\ (forall o, min_outcome s p o <-> o = Some 0%Z)
  /\ (forall T (zero : T) (l : list T) f o, length l = length s -> reduce_outcome zero l p f o <-> o = Some zero).
Proof.
  intros s p Hn.
  assert (G : forall T (zero : T) (l : list T) f o, length l = length s -> reduce_outcome zero l p f o <-> o = Some zero).
  { intros T zero l f o Hl. unfold reduce_outcome. pose proof (first_par_short zero l p ltac:(lia) ltac:(lia)) as E.
    split; [intros (m & ok & E1 & H); rewrite E in E1; by injection E1 as <- <-|intros ->; by exists zero, false]. }
  splits; [intros o; by apply out_short|..]; intros; by apply G.
Qed.
Print Assumptions C65_short.

(** p does not divide n: every one of them can bring the process down *)
Theorem C65_not_divisible : forall (s : list Z) (p : Z),
  (1 <= p)%Z -> (p <= Z.of_nat (length s))%Z -> ~ (p | Z.of_nat (length s))%Z ->
  sum_outcome s p None /\ max_outcome s p None /\ min_outcome s p None
  /\ forall f, reduce_outcome 0%Z s p f None.
Proof.
  intros s p H1 H2 H3. destruct (first_par_ok 0%Z s p H1 H2) as (m & l & _ & E).
  assert (G : forall f, reduce_outcome 0%Z s p f None). { intros f. exists m, true. split; [done|]. by apply out_crash. }
  splits; [by apply out_crash|apply G..].
Qed.
Print Assumptions C65_not_divisible.
(** ... and Max can return a number that is not the maximum *)
Theorem C65_max_is_wrong_refuted : max_outcome [1;2;3]%Z 2 (Some 2%Z).
Proof.
  exists 1%Z, true. split; [done|]. eapply fo_return; [lia| |].
  - do 3 (eapply rtc_l; [eapply fs_spawn; reflexivity|]). eapply rtc_l; [eapply fs_spawned; reflexivity|].
    cbn [app]. 
    eapply rtc_l; [eapply (fs_work _ _ _ _ _ _ _ _ _ 0); reflexivity|]. cbn [insert list_insert].
    eapply rtc_l; [eapply (fs_end _ _ _ _ _ _ _ _ _ 0); reflexivity|]. cbn [insert list_insert].
    eapply rtc_l; [eapply (fs_send _ _ _ _ _ _ _ _ 0); [reflexivity|cbn; lia]|]. cbn [insert list_insert app].
    eapply rtc_l; [eapply fs_recv; lia|].
    eapply rtc_l; [eapply (fs_work _ _ _ _ _ _ _ _ _ 1); reflexivity|]. cbn [insert list_insert].
    eapply rtc_l; [eapply (fs_end _ _ _ _ _ _ _ _ _ 1); reflexivity|]. cbn [insert list_insert].
    eapply rtc_l; [eapply (fs_send _ _ _ _ _ _ _ _ 1); [reflexivity|cbn; lia]|]. cbn [insert list_insert app].
    eapply rtc_l; [eapply fs_recv; cbn; lia|].
    eapply rtc_l; [eapply fs_return; reflexivity|]. constructor.
  - reflexivity.
Qed.
Print Assumptions C65_max_is_wrong_refuted.

(** a negative parallelism panics (make of a channel of negative size), except
    that Reduce, Max and Min of an empty slice still answer zero *)
Theorem C65_negative : forall (s : list Z) (p : Z), (p < 0)%Z ->
  (forall o, sum_outcome s p o <-> o = None)
  /\ (forall f o, reduce_outcome 0%Z s p f o <-> o = if decide (s = []) then Some 0%Z else None).
Proof.
  intros s p Hp. split; [intros o; by apply out_neg|]. intros f o. unfold reduce_outcome, first_par, split_next.
  rewrite decide_True by lia. cbn [rbind]. rewrite decide_True by done. cbn [rbind]. destruct s as [|m l].
  - rewrite decide_True by done. split; [intros (? & ? & E & H); by injection E as <- <-|intros ->; by exists 0%Z, false].
  - rewrite decide_False by done. split.
    + intros (? & ? & E & H). injection E as <- <-. by apply out_neg in H.
    + intros ->. exists m, true. split; [done|]. by apply out_neg.
Qed.
Print Assumptions C65_negative.

(** * Non-vacuity *)
Example C65_fits_met : fits [5;1;7;3]%Z 2 /\ fits [5;1;7;3]%Z 4 /\ ~ fits [5;1;7;3]%Z 3.
Proof.
  unfold fits. cbn. splits; try lia; [by exists 2%Z|by exists 1%Z|]. intros (_ & _ & [q Hq]). lia.
Qed.
Example C65_values : sum_outcome [5;1;7;3]%Z 2 (Some 16%Z) /\ max_outcome [5;1;7;3]%Z 2 (Some 7%Z)
  /\ reduce_outcome 0%Z [5;1;7;3]%Z 2 Z.add (Some 31%Z).
Proof.
  destruct C65_fits_met as (F & _). splits.
  - apply C65_sum; [by right|done].
  - apply C65_max; [done|by right|]. exists 7%Z. splits; [done|set_solver|repeat constructor; lia].
  - apply C65_reduce; [intros; lia|intros; lia|by right|done].
Qed.
