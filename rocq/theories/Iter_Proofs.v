From Verif Require Import Base Iter_Model Iter_Spec.

Section push.
  Context {T St : Type} (next : St -> res (option T * St)).

  Lemma cast_to_push_ok f l : forall s s' log fuel,
    drains next s l s' -> length l < fuel ->
    exists calls s2, cast_to_push fuel next s (recorder f) log = Ok (s2, log ++ calls) /\
      visits_until_reject f l calls /\
      ((calls = l /\ Forall (fun v => f v = true) l /\ s2 = s') \/
       (Exists (fun v => f v = false) l /\ pulls next s calls s2)).
  Proof.
    induction l as [|v l IH]; intros s s' log fuel (s1 & Hp & Hn) Hf; destruct fuel as [|fuel]; try (simpl in Hf; lia).
    - inversion Hp; subst. exists [], s'. cbn [cast_to_push]. rewrite Hn. cbn [rbind].
      rewrite app_nil_r. split; [done|]. split; left; done.
    - inversion Hp as [|? t ? ? ? Hv Hp']; subst. cbn [cast_to_push]. rewrite Hv. cbn [rbind recorder].
      destruct (f v) eqn:Hfv.
      + destruct (IH t s' (log ++ [v]) fuel) as (calls & s2 & -> & Hvis & Hor).
        { by exists s1. } { simpl in Hf; lia. }
        exists (v :: calls), s2. split; [by rewrite <- app_assoc|]. split.
        * destruct Hvis as [[-> Hall]|(p & x & r & -> & -> & Hall & Hx)].
          -- left. split; [done|]. by constructor.
          -- right. exists (v :: p), x, r. split_and!; try done. by constructor.
        * destruct Hor as [(-> & Hall & ->)|(Hex & Hps)].
          -- left. split_and!; try done. by constructor.
          -- right. split; [by right|]. by econstructor.
      + exists [v], t. split; [done|]. split.
        * right. exists [], v, l. split_and!; try done.
        * right. split; [by left|]. econstructor; [done|constructor].
  Qed.

  Lemma iter_all_ok f l : forall s s' log fuel,
    drains next s l s' -> length l < fuel ->
    iter_all fuel next s (recorder f) log = Ok (s', log ++ l).
  Proof.
    induction l as [|v l IH]; intros s s' log fuel (s1 & Hp & Hn) Hf; destruct fuel as [|fuel]; try (simpl in Hf; lia).
    - inversion Hp; subst. cbn [iter_all]. rewrite Hn. cbn [rbind]. by rewrite app_nil_r.
    - inversion Hp as [|? t ? ? ? Hv Hp']; subst. cbn [iter_all]. rewrite Hv. cbn [rbind recorder].
      rewrite (IH t s'); [by rewrite <- app_assoc| |simpl in Hf; lia]. by exists s1.
  Qed.
End push.

Lemma from_slice_pull {T} (s : list T) i :
  from_slice s i = Ok (s !! i, if decide (i < length s) then i + 1 else i).
Proof.
  unfold from_slice. case_decide.
  - destruct (lookup_lt_is_Some_2 s i) as [v Hv]; [done|]. by rewrite Hv.
  - by rewrite lookup_ge_None_2 by lia.
Qed.
Lemma from_slice_pulls {T} (s : list T) i : i <= length s -> pulls (from_slice s) i (drop i s) (length s).
Proof.
  intros Hi. remember (length s - i) as n eqn:Hn. revert i Hi Hn.
  induction n as [|n IH]; intros i Hi Hn.
  - assert (i = length s) as -> by lia. rewrite drop_all. constructor.
  - destruct (lookup_lt_is_Some_2 s i) as [v Hv]; [lia|].
    rewrite (drop_S _ v) by done. econstructor.
    + rewrite from_slice_pull, Hv, decide_True by lia. done.
    + rewrite Nat.add_1_r. apply IH; lia.
Qed.
Lemma from_slice_drains {T} (s : list T) : drains (from_slice s) 0 s (length s).
Proof.
  exists (length s). split; [apply (from_slice_pulls s 0); lia|].
  rewrite from_slice_pull, lookup_ge_None_2, decide_False by lia. done.
Qed.
Lemma from_slice_exhausted {T} (s : list T) : from_slice s (length s) = Ok (None, length s).
Proof. by rewrite from_slice_pull, lookup_ge_None_2, decide_False by lia. Qed.

Lemma slice_all_ok {T} (f : T -> bool) s : forall log,
  exists calls, slice_all s (recorder f) log = Ok (log ++ calls) /\ visits_until_reject f s calls.
Proof.
  induction s as [|v s IH]; intros log; cbn [slice_all].
  - exists []. rewrite app_nil_r. split; [done|]. by left.
  - cbn [recorder rbind]. destruct (f v) eqn:Hfv.
    + destruct (IH (log ++ [v])) as (calls & -> & Hvis). exists (v :: calls).
      split; [by rewrite <- app_assoc|].
      destruct Hvis as [[-> Hall]|(p & x & r & -> & -> & Hall & Hx)].
      * left. split; [done|]. by constructor.
      * right. exists (v :: p), x, r. split_and!; try done. by constructor.
    + exists [v]. split; [done|]. right. by exists [], v, s.
Qed.

Lemma visits_unique {T} (f : T -> bool) l : forall c1 c2,
  visits_until_reject f l c1 -> visits_until_reject f l c2 -> c1 = c2.
Proof.
  induction l as [|v l IH]; intros c1 c2 H1 H2.
  - destruct H1 as [[-> _]|(p & x & r & E & _)]; [|by destruct p].
    destruct H2 as [[-> _]|(p & x & r & E & _)]; [done|by destruct p].
  - assert (Hstep : forall c, visits_until_reject f (v :: l) c ->
       (f v = false /\ c = [v]) \/ (f v = true /\ exists c', c = v :: c' /\ visits_until_reject f l c')).
    { intros c [[-> Hall]|(p & x & r & E & -> & Hall & Hx)].
      - inversion Hall; subst. right. split; [done|]. exists l. split; [done|]. by left.
      - destruct p as [|y p]; simplify_list_eq.
        + by left.
        + inversion Hall; subst. right. split; [done|]. exists (p ++ [x]). split; [done|].
          right. by exists p, x, r. }
    apply Hstep in H1, H2.
    destruct H1 as [[? ->]|[? (c1' & -> & ?)]], H2 as [[? ->]|[? (c2' & -> & ?)]]; try congruence.
    f_equal. by apply IH.
Qed.

(* Lines *)
Lemma read_string_spec bs :
  match read_string bs with
  | Some (l, r) => bs = l ++ r /\ is_line l
  | None => newline ∉ bs
  end.
Proof.
  induction bs as [|b bs IH]; cbn [read_string]; [apply not_elem_of_nil|].
  case_decide as Hb.
  - subst. split; [done|]. exists []. split; [done|]. apply not_elem_of_nil.
  - destruct (read_string bs) as [[l r]|].
    + destruct IH as [-> (p & -> & Hp)]. split; [done|]. exists (b :: p). split; [done|].
      rewrite not_elem_of_cons. auto.
    + rewrite not_elem_of_cons. auto.
Qed.

Definition lrec (f : list N * option N -> bool) := recorder f.

Lemma lines_loop_ok (f : list N * option N -> bool) : forall fuel bs log, length bs < fuel ->
  exists ls rest, splits_into bs ls rest /\
  forall fin, exists calls,
  lines_loop (recorder f) fuel bs fin log = Ok (log ++ calls) /\
  ((Forall (fun l => f (l, None) = true) ls /\
     calls = ((fun l => (l, None)) <$> ls) ++ match fin with EOF => [] | ReadErr e => [([], Some e)] end) \/
   (exists p l r, ls = p ++ l :: r /\ Forall (fun l => f (l, None) = true) p /\ f (l, None) = false /\
     calls = (fun l => (l, None)) <$> (p ++ [l]))).
Proof.
  induction fuel as [|fuel IH]; intros bs log Hf; [lia|].
  cbn [lines_loop]. pose proof (read_string_spec bs) as Hr.
  destruct (read_string bs) as [[line rest]|].
  - destruct Hr as [-> Hline]. assert (Hlen : length line > 0).
    { destruct Hline as (p & -> & _). rewrite app_length. simpl. lia. }
    rewrite app_length in Hf.
    destruct (IH rest (log ++ [(line, None)])) as (ls & rest' & (Hs & Hls & Hnn) & Hrun); [lia|].
    exists (line :: ls), rest'. split.
    { split_and!; [by rewrite Hs; simpl; rewrite <- app_assoc|by constructor|done]. }
    intros fin. cbn [recorder rbind]. destruct (f (line, None)) eqn:Hfl.
    + destruct (Hrun fin) as (calls & -> & Hor). exists ((line, None) :: calls).
      split; [by rewrite <- app_assoc|].
      destruct Hor as [[Hall ->]|(p & l & r & -> & Hall & Hfl' & ->)].
      * left. split; [by constructor|done].
      * right. exists (line :: p), l, r. split_and!; try done. by constructor.
    + exists [(line, None)]. split; [done|]. right. exists [], line, ls. by split_and!.
  - exists [], bs. split; [split_and!; [done|constructor|done]|].
    intros [|e].
    + exists []. rewrite app_nil_r. split; [done|]. by left.
    + exists [([], Some e)]. split; [done|]. by left.
Qed.

Lemma is_line_app_inv p q r1 r2 :
  is_line p -> is_line q -> p ++ r1 = q ++ r2 -> p = q /\ r1 = r2.
Proof.
  intros (a & -> & Ha) (b & -> & Hb) E. rewrite <- !app_assoc in E. simpl in E.
  assert (a = b) as ->.
  { revert b Hb E. induction a as [|x a IH]; intros [|y b] Hb E; simplify_list_eq; try done.
    - rewrite not_elem_of_cons in Hb. by destruct Hb.
    - rewrite not_elem_of_cons in Ha. by destruct Ha.
    - rewrite not_elem_of_cons in Ha, Hb. f_equal. apply IH; tauto. }
  by simplify_list_eq.
Qed.
Lemma splits_unique bs ls1 : forall r1 ls2 r2,
  splits_into bs ls1 r1 -> splits_into bs ls2 r2 -> ls1 = ls2 /\ r1 = r2.
Proof.
  revert bs. induction ls1 as [|l1 ls1 IH]; intros bs r1 ls2 r2 (E1 & H1 & N1) (E2 & H2 & N2).
  - destruct ls2 as [|l2 ls2]; simpl in *; [by subst|].
    inversion H2 as [|? ? (p & -> & _) ?]; subst.
    rewrite <- !app_assoc in N1. exfalso. apply N1. rewrite elem_of_app. right. left.
  - destruct ls2 as [|l2 ls2]; simpl in *.
    { inversion H1 as [|? ? (p & -> & _) ?]; subst.
      rewrite <- !app_assoc in N2. exfalso. apply N2. rewrite elem_of_app. right. left. }
    inversion H1; inversion H2; subst. rewrite <- !app_assoc in E2.
    destruct (is_line_app_inv l1 l2 (concat ls1 ++ r1) (concat ls2 ++ r2)) as [-> E]; [done..|].
    destruct (IH (concat ls1 ++ r1) r1 ls2 r2) as [-> ->]; [done..|]. done.
Qed.

Lemma lines_ok (f : list N * option N -> bool) bs fin :
  exists ls rest calls, splits_into bs ls rest /\
  lines (recorder f) (Content bs fin) [] = Ok calls /\
  ((Forall (fun l => f (l, None) = true) ls /\
     calls = ((fun l => (l, None)) <$> ls) ++ match fin with EOF => [] | ReadErr e => [([], Some e)] end) \/
   (exists p l r, ls = p ++ l :: r /\ Forall (fun l => f (l, None) = true) p /\ f (l, None) = false /\
     calls = (fun l => (l, None)) <$> (p ++ [l]))).
Proof.
  destruct (lines_loop_ok f (S (length bs)) bs []) as (ls & rest & Hs & Hrun); [lia|].
  destruct (Hrun fin) as (calls & Hc & Hor).
  exists ls, rest, calls. done.
Qed.
Lemma lines_noopen (f : list N * option N -> bool) e :
  lines (recorder f) (NoOpen e) [] = Ok [([], Some e)].
Proof. done. Qed.

Lemma lines_complete_iff bs ls rest : splits_into bs ls rest ->
  (concat ls = bs <-> bs = [] \/ exists p, bs = p ++ [newline]).
Proof.
  intros (E & Hl & Hn). split.
  - intros Ec. assert (rest = []) as -> by (apply (f_equal length) in E; rewrite app_length, Ec in E; destruct rest; simpl in *; [done|lia]).
    destruct ls as [|l ls] using rev_ind; [left; by rewrite E|]. right.
    rewrite Forall_app in Hl. destruct Hl as [_ Hl]. inversion Hl as [|? ? (p & -> & _) ?]; subst.
    exists (concat ls ++ p). rewrite concat_app. simpl. by rewrite !app_nil_r, <- app_assoc.
  - intros [->|(p & ->)].
    + symmetry in E. apply app_eq_nil in E as [-> _]. done.
    + destruct rest as [|x rest _] using rev_ind; [by rewrite app_nil_r in E|].
      rewrite app_assoc in E. apply app_inj_tail in E as [_ <-].
      exfalso. apply Hn. rewrite elem_of_app. right. left.
Qed.

(* CastToPull *)
Section pull.
  Context {T P : Type} (pstep : P -> option T) (pnext : P -> bool -> P) (p0 : P).
  Notation stp := (pstep_all pstep pnext).
  Definition reach := rtc stp (pinit p0).
  Definition closed (s : pstate (T:=T) (P:=P)) := prod s = Closed.

  Definition pinv (s : pstate (T:=T) (P:=P)) : Prop :=
    (exists d k, results s = (Some <$> d) ++ replicate k None /\ (k <> 0 -> prod s = Closed) /\
      match prod s with
      | Offering _ v => exists l, pushed s = l ++ [v] /\ sublist d l /\ (cancelled s = false -> d = l)
      | _ => sublist d (pushed s) /\ (cancelled s = false -> d = pushed s)
      end).

  Lemma pinv_step s s' : pinv s -> stp s s' -> pinv s'.
  Proof.
    intros (d & k & Hr & Hk & Hm) Hs. inversion Hs as [? ? Hi|q c w l r|q c w l r]; subst.
    - inversion Hi; subst; simpl in *.
      + destruct k; [|naive_solver]. exists d, 0. split_and!; [done|done|]. simpl. eauto.
      + exists d, k. destruct k; [|naive_solver]. naive_solver.
      + exists d, k. naive_solver.
      + destruct Hm as (l' & -> & Hsub & _). exists d, k. destruct k; [|naive_solver].
        simpl. split_and!; [done|done|by apply sublist_inserts_r|done].
      + destruct Hm as (l' & -> & Hsub & Hc). destruct k; [|naive_solver].
        exists (d ++ [v]), 0. simpl. split; [|split; [done|split]].
        * rewrite fmap_app, !app_nil_r in *. by rewrite Hr.
        * by apply sublist_app.
        * intros Hcc. by rewrite Hc.
      + exists d, (S k). simpl. split; [|naive_solver].
        rewrite Hr, <- app_assoc. f_equal. symmetry. apply replicate_S_end.
    - exists d, k. done.
    - exists d, k. split_and!; [done|done|]. simpl in *. destruct q; naive_solver.
  Qed.
  Lemma reach_inv s : reach s -> pinv s.
  Proof.
    intros H. unfold reach in H.
    assert (Hg : forall a b, rtc stp a b -> pinv a -> pinv b).
    { intros a b Hab. induction Hab; eauto using pinv_step. }
    apply (Hg _ _ H). exists [], 0. simpl. done.
  Qed.

  Lemma somes_split (d : list T) k : somes ((Some <$> d) ++ replicate k None) = d.
  Proof.
    unfold somes. rewrite omap_app. 
    assert (omap id (replicate k (@None T)) = []) as -> by (induction k; done).
    rewrite app_nil_r. induction d; simpl; [done|]. by f_equal.
  Qed.

  Definition told (s : pstate (T:=T) (P:=P)) : Prop :=
    exists h p, ran pstep pnext p0 h p /\ somes (results s) = accepted h /\ (forall v, (v, false) ∈ h -> cancelled s = true) /\
      match prod s with
      | Running q => q = p /\ pushed s = h.*1
      | Offering q v => q = p /\ pstep p = Some v /\ pushed s = h.*1 ++ [v]
      | _ => pstep p = None /\ pushed s = h.*1
      end.
  Lemma told_step s s' : told s -> stp s s' -> told s'.
  Proof.
    intros (h & p & Hr & Hs & Hc & Hm) St. inversion St as [? ? Hi|q c w l r|q c w l r]; subst.
    - inversion Hi as [q v c w l r E|q c w l r E|c w l r|q v w l r|q v c w l r|c w l r]; subst; cbn [prod cancelled pushed results] in *.
      + destruct Hm as [-> ->]. exists h, p. done.
      + destruct Hm as [-> ->]. exists h, p. done.
      + exists h, p. done.
      + destruct Hm as (-> & E & ->). exists (h ++ [(v, false)]), (pnext p false). cbn [prod cancelled pushed results]. split_and!; [by constructor| |done|done|by rewrite fmap_app].
        unfold accepted. rewrite omap_app. cbn. by rewrite app_nil_r.
      + destruct Hm as (-> & E & ->). exists (h ++ [(v, true)]), (pnext p true). cbn [prod cancelled pushed results]. split_and!; [by constructor| | |done|by rewrite fmap_app].
        * unfold somes, accepted in *. rewrite !omap_app, Hs. done.
        * intros w' Hw. apply elem_of_app in Hw as [Hw|Hw]; [by eapply Hc|]. apply elem_of_list_singleton in Hw. done.
      + exists h, p. cbn [prod cancelled pushed results]. split_and!; try done; try apply Hm. unfold somes in *. by rewrite omap_app, Hs, app_nil_r.
    - exists h, p. done.
    - exists h, p. cbn [prod cancelled pushed results] in *. split_and!; done.
  Qed.
  Lemma pull_told s : reach s -> told s.
  Proof.
    intros Hs. unfold reach in Hs. assert (Hg : forall a b, rtc stp a b -> told a -> told b) by (intros a b Hab; induction Hab; eauto using told_step).
    apply (Hg _ _ Hs). exists [], p0. split_and!; try done; [constructor|]. intros v Hv. by apply elem_of_nil in Hv.
  Qed.
  Lemma runs_count k s : runs_to pstep pnext p0 k s -> waiting s + length (results s) = k.
  Proof.
    induction 1 as [|k s s' _ IH Hi|k q c w l r _ IH|k q c w l r _ IH]; [done| |cbn in *; lia|done].
    inversion Hi; subst; cbn [waiting results] in *; rewrite ?app_length; cbn; lia.
  Qed.
  Lemma runs_reach s : reach s <-> exists k, runs_to pstep pnext p0 k s.
  Proof.
    split.
    - intros Hs. unfold reach in Hs. assert (Hg : forall a b, rtc stp a b -> (exists k, runs_to pstep pnext p0 k a) -> exists k, runs_to pstep pnext p0 k b).
      { intros a b Hab. induction Hab as [|a b c St _ IH]; [done|]. intros [k Hk]. apply IH. inversion St as [? ? Hi|q e w l r|q e w l r]; subst.
        - exists k. by eapply rt_int.
        - exists (S k). by apply rt_next.
        - exists k. by eapply rt_stop. }
      apply (Hg _ _ Hs). exists 0. constructor.
    - intros [k Hk]. unfold reach. induction Hk as [|k s s' _ IH Hi|k q c w l r _ IH|k q c w l r _ IH]; [done| | |]; (eapply rtc_r; [exact IH|]); [by apply PInt|apply PNext|apply PStop].
  Qed.

  Lemma pull_sublist s : reach s -> sublist (somes (results s)) (pushed s).
  Proof.
    intros Hr. destruct (reach_inv s Hr) as (d & k & -> & _ & Hm). rewrite somes_split.
    destruct (prod s); try (by destruct Hm). destruct Hm as (l & -> & ? & _). by apply sublist_inserts_r.
  Qed.
  Lemma pull_prefix s : reach s -> cancelled s = false ->
    (exists r, pushed s = somes (results s) ++ r /\ length r <= 1) /\
    (None ∈ results s -> pushed s = somes (results s)).
  Proof.
    intros Hr Hc. destruct (reach_inv s Hr) as (d & k & E & Hk & Hm). rewrite E, somes_split.
    split.
    - destruct (prod s).
      + destruct Hm as [_ Hm]. rewrite (Hm Hc). exists []. by rewrite app_nil_r; simpl; split; [|lia].
      + destruct Hm as (l & -> & _ & Hm). rewrite (Hm Hc). exists [v]. done.
      + destruct Hm as [_ Hm]. rewrite (Hm Hc). exists []. by rewrite app_nil_r; simpl; split; [|lia].
      + destruct Hm as [_ Hm]. rewrite (Hm Hc). exists []. by rewrite app_nil_r; simpl; split; [|lia].
    - intros Hin. destruct k as [|k].
      + simpl in Hin. rewrite app_nil_r in Hin. apply elem_of_list_fmap in Hin as (? & ? & _). done.
      + rewrite Hk in Hm by done. destruct Hm as [_ Hm]. by rewrite (Hm Hc).
  Qed.
  Lemma pull_exhaustion s : reach s ->
    (exists d k, results s = (Some <$> d) ++ replicate k None) /\
    (None ∈ results s -> prod s = Closed).
  Proof.
    intros Hr. destruct (reach_inv s Hr) as (d & k & E & Hk & Hm). split; [by exists d, k|].
    rewrite E. intros Hin. apply Hk. intros ->. simpl in Hin. rewrite app_nil_r in Hin.
    apply elem_of_list_fmap in Hin as (? & ? & _). done.
  Qed.
  Lemma after_return s s' : prod s = Returned \/ prod s = Closed -> rtc stp s s' ->
    (prod s' = Returned \/ prod s' = Closed) /\ exists k, results s' = results s ++ replicate k None.
  Proof.
    intros Hp Hr. induction Hr as [s|s s1 s' Hs Hr IH].
    - split; [done|]. exists 0. by rewrite app_nil_r.
    - assert (H1 : (prod s1 = Returned \/ prod s1 = Closed) /\ exists k, results s1 = results s ++ replicate k None).
      { inversion Hs as [? ? Hi|q c w l r|q c w l r]; subst; simpl in *.
        - inversion Hi; subst; simpl in *; try naive_solver.
          + split; [auto|]. exists 0. by rewrite app_nil_r.
          + split; [auto|]. by exists 1.
        - split; [auto|]. exists 0. by rewrite app_nil_r.
        - split; [auto|]. exists 0. by rewrite app_nil_r. }
      destruct H1 as [Hp1 [k1 E1]]. destruct (IH Hp1) as [Hp' [k2 E2]]. split; [done|].
      exists (k1 + k2). rewrite E2, E1, <- app_assoc. f_equal. by rewrite replicate_add.
  Qed.
  Lemma pull_progress s : waiting s <> 0 -> exists s', pint pstep pnext s s'.
  Proof.
    destruct s as [q c w l r]. simpl. intros Hw. destruct w as [|w]; [done|].
    destruct q as [p|p v| |].
    - destruct (pstep p) eqn:E; eexists; [by apply PCall|by apply PRet].
    - eexists. apply PSend.
    - eexists. apply PClose.
    - eexists. apply PRecvClosed.
  Qed.
  Lemma stopped_progress s : cancelled s = true -> prod s <> Closed -> exists s', pint pstep pnext s s'.
  Proof.
    destruct s as [q c w l r]. simpl. intros -> Hq.
    destruct q as [p|p v| |]; [|eexists; apply PDone|eexists; apply PClose|done].
    destruct (pstep p) eqn:E; eexists; [by apply PCall|by apply PRet].
  Qed.
  Lemma pull_leak p v l r : forall s', ~ pint pstep pnext (PState (Offering p v) false 0 l r) s'.
  Proof. intros s' H. inversion H. Qed.
End pull.
