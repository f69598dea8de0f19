From Verif Require Import Base Iter_Model Iter_Spec Split_Model Split_Proofs WalkSplit_Model WalkSplit_Spec WalkSplit_Proofs
  Stream_Model Stream_Spec Stream_Proofs Stream_Proofs2 StreamPar_Proofs ParPipe_Model ParPipe_Spec ParPipe_Proofs ParPipe_Proofs2 ParPipe_Proofs3.

Lemma comp_fmap {A B C} (f : A -> B) (h : B -> C) (ls : list A) : (fun l => h (f l)) <$> ls = h <$> (f <$> ls).
Proof. induction ls as [|l ls IH]; [done|]. simpl. by f_equal. Qed.
Lemma made_stable {U T V} (c : stages U T V) (s : stream U T) p ls : stable s p ls -> stable (made c s) p (meaning c <$> ls).
Proof.
  intros Hs. induction c as [|R V c IH g e|R c IH q e|R c IH q e|R c IH e|R V c IH g pp e]; cbn [made meaning].
  - replace ((fun l => l) <$> ls) with ls by (symmetry; apply list_fmap_id). done.
  - rewrite (comp_fmap (meaning c) (fun l => g <$> l)). by apply (map_stable _ g).
  - rewrite (comp_fmap (meaning c) (List.filter q)). by apply (filter_stable _ q).
  - rewrite (comp_fmap (meaning c) (List.filter (fun x => negb (q x)))). by apply (skip_while_stable _ q).
  - by apply inspect_stable.
  - rewrite (comp_fmap (meaning c) (fun l => concat (g <$> l))).
    replace ((fun l => concat (g <$> l)) <$> (meaning c <$> ls)) with (flat_elements (fun t => [g t]) <$> (meaning c <$> ls)).
    + unfold has_segments. eapply flat_gyields; [done|done| |done|exact IH]. intros t u. apply source_stable, slice_source.
    + apply list_fmap_ext. intros _ l _. clear. induction l as [|t l IH]; [done|]. simpl. by rewrite IH.
Qed.
Lemma made_par {U T V} (c : stages U T V) (s : stream U T) : parallelism (made c s) = parallelism s.
Proof. induction c; try done. Qed.
Lemma meaning_app {U T V} (c : stages U T V) l1 l2 : meaning c (l1 ++ l2) = meaning c l1 ++ meaning c l2.
Proof.
  induction c as [|R V c IH g e|R c IH q e|R c IH q e|R c IH e|R V c IH g pp e]; cbn [meaning]; [done|..|done|];
    rewrite IH; [by rewrite fmap_app|apply List.filter_app|apply List.filter_app|by rewrite fmap_app, concat_app].
Qed.
Lemma meaning_nil {U T V} (c : stages U T V) : meaning c [] = [].
Proof. induction c as [|R V c IH g e|R c IH q e|R c IH q e|R c IH e|R V c IH g pp e]; cbn [meaning]; try done; by rewrite IH. Qed.
Lemma meaning_concat {U T V} (c : stages U T V) ls : concat (meaning c <$> ls) = meaning c (concat ls).
Proof. induction ls as [|l ls IH]; [symmetry; apply meaning_nil|]. rewrite fmap_cons. cbn [concat]. rewrite meaning_app. f_equal. exact IH. Qed.

(** what cutting gives *)
Lemma cut_ok {T} (l : list T) p : (1 <= p)%Z -> (p <= Z.of_nat (length l))%Z ->
  exists n segs, cut l p segs /\ pieces l n segs /\ Z.to_nat p <= n /\ (n = Z.to_nat p <-> (p | Z.of_nat (length l))%Z).
Proof.
  intros Hp Hn. destruct (split_partitions l p Hp Hn) as (segs & fin & Hd & He & Hc & _ & Hl & Hla & Hk & Hge).
  exists (length segs), segs. split; [by exists fin|]. split; [|done]. split; [done|]. split; [done|].
  destruct (step_bounds (length l) p Hp Hn) as [_ Hs].
  apply Forall_lookup. intros i sg Hi ->. destruct (decide (i + 1 < length segs)) as [Hlt|Hge'].
  - specialize (Hl _ _ Hi Hlt). simpl in Hl. lia.
  - assert (i = pred (length segs)) as ->. { pose proof (lookup_lt_Some _ _ _ Hi). lia. }
    rewrite <- last_lookup in Hi. specialize (Hla _ Hi). simpl in Hla. lia.
Qed.
Lemma cut_seq {T} (l : list T) p : (p <= 0)%Z -> cut l p [l].
Proof. intros Hp. destruct (split_seq l p Hp) as (H & H2). exists 1. split; [exact H|apply H2; lia]. Qed.
Lemma cut_empty {T} p : (1 <= p)%Z -> cut (@nil T) p [].
Proof. intros Hp. exists 0. split; [exists 0; split; [constructor|]|]; apply split_empty; lia. Qed.
Lemma cut_det {T} (l : list T) p s1 s2 : cut l p s1 -> cut l p s2 -> s1 = s2.
Proof.
  intros (f1 & (x1 & H1 & E1) & _) (f2 & (x2 & H2 & E2) & _). revert s2 H2. induction H1 as [i|i i1 i2 v vs H Hp IH]; intros s2 H2.
  - inversion H2 as [|? ? ? ? ? H3]; subst; [done|]. congruence.
  - inversion H2 as [|? j1 ? ? ? H3 H4]; subst; [congruence|]. rewrite H in H3. injection H3 as <- <-. f_equal. by apply IH.
Qed.

(** the segments of a stream are determined *)
Lemma yields_det {U T} (it : iter U T) l1 : forall l2 (w : world U), Y it l1 -> Y it l2 -> l1 = l2.
Proof.
  revert it. induction l1 as [|x l1 IH]; intros it l2 w H1 H2;
    destruct (yields_inv _ _ _ H1 w) as (o & it' & w' & R & _ & Ho); destruct (yields_inv _ _ _ H2 w) as (o2 & it2 & w2 & R2 & _ & Ho2);
    destruct (returns_det _ _ _ _ _ _ _ _ R R2) as (<- & <- & <-).
  - subst o. destruct l2; [done|]. by destruct Ho2.
  - destruct Ho as [-> Hy]. destruct l2 as [|y l2]; [done|]. destruct Ho2 as [[= ->] Hy2]. f_equal. by eapply IH.
Qed.
Lemma gyields_det {U T} (g : gen U T) l1 : forall l2 (w : world U), G g l1 -> G g l2 -> l1 = l2.
Proof.
  revert g. induction l1 as [|x l1 IH]; intros g l2 w H1 H2;
    destruct (gyields_inv _ _ _ H1 w) as (o & g' & w' & R & _ & Ho); destruct (gyields_inv _ _ _ H2 w) as (o2 & g2 & w2 & R2 & _ & Ho2);
    destruct (greturns_det _ _ _ _ _ _ _ _ R R2) as (<- & <- & <-).
  - destruct Ho as [-> _]. destruct l2; [done|]. by destruct Ho2 as (? & ? & _).
  - destruct Ho as (it & -> & Hy & Hg). destruct l2 as [|y l2]; [by destruct Ho2|]. destruct Ho2 as (it2 & [= <-] & Hy2 & Hg2).
    f_equal; [by eapply yields_det|by eapply IH].
Qed.
Lemma stable_det {U T} (s : stream U T) p l1 l2 (w : world U) : stable s p l1 -> stable s p l2 -> l1 = l2.
Proof. intros. by eapply gyields_det. Qed.
Lemma cut_any {T} (l : list T) p : (p <= Z.of_nat (length l))%Z \/ l = [] -> exists segs, cut l p segs.
Proof.
  intros H. destruct (decide (p <= 0)%Z) as [Hp|Hp]; [exists [l]; by apply cut_seq|]. destruct H as [H| ->].
  - destruct (cut_ok l p) as (n & segs & Hc & _); [lia|done|]. eauto.
  - exists []. apply cut_empty. lia.
Qed.
Lemma walk_like_slice {U N T} (next : N -> option N) (val : N -> T) front ns (whole : iter U T) q :
  node_path next front ns -> Stream_Spec.yields eq whole (val <$> ns) ->
  like_slice (walk_stream front next val (Z.of_nat (length ns)) whole q) (val <$> ns).
Proof.
  intros Hf Hw p Hp. destruct (cut_any _ _ Hp) as [segs Hc]. exists segs. split; [by apply slice_cut|by apply walk_cut].
Qed.

(** streams that are cut like a slice *)
Lemma like_segs {U T} (src : stream U T) (l : list T) (w : world U) (p : Z) : like_slice src l -> (1 <= p)%Z -> (p <= Z.of_nat (length l))%Z ->
  exists n segs, source src p segs /\ pieces l n segs /\ Z.to_nat p <= n /\ (n = Z.to_nat p <-> (p | Z.of_nat (length l))%Z).
Proof.
  intros Hsrc Hp Hn. destruct (cut_ok l p Hp Hn) as (n & segs & Hc & H). exists n, segs. split; [|done].
  destruct (Hsrc p (or_introl Hn)) as (segs' & H1 & H2).
  replace segs with segs'; [done|]. eapply (stable_det (slice_stream l 0) p _ _ w); apply source_stable; [done|by apply slice_cut].
Qed.
Lemma like_empty {U T} (src : stream U T) (w : world U) (p : Z) : like_slice src [] -> (1 <= p)%Z -> source src p [].
Proof.
  intros Hsrc Hp. destruct (Hsrc p (or_intror eq_refl)) as (segs & H1 & H2).
  replace [] with segs; [done|]. eapply (stable_det (slice_stream [] 0) p _ _ w); apply source_stable; [done|]. by apply slice_cut, cut_empty.
Qed.
Lemma like_seq {U T} (src : stream U T) l (w : world U) (p : Z) : like_slice src l -> (p <= 0)%Z -> source src p [l].
Proof.
  intros Hsrc Hp. destruct (Hsrc p) as (segs & H1 & H2); [left; lia|].
  replace [l] with segs; [done|]. eapply (stable_det (slice_stream l 0) p _ _ w); apply source_stable; [done|]. by apply slice_cut, cut_seq.
Qed.
