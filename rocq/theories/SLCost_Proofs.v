(** Proofs for C72: comparator calls of the skip list. *)
From Verif Require Import Base Iter_Model Iter_Spec SkipList_Model SkipList_Spec SkipList_Proofs SkipList_Proofs2 SkipList_Proofs3 SkipList_Proofs4.
From Verif Require Import PanicComp_Model PanicCompSL_Model PanicComp_Spec PanicCompSL_Spec PanicComp_Proofs PanicCompSL_Proofs.

(** exactly [u] answers are used, and [a] comes out *)
Definition uses {S A} (m : cm S A) (u : nat) (a : A) : Prop := forall n, m (u + n) = Done a n.
Definition within {S A} (m : cm S A) (c : nat) (a : A) : Prop := exists u, u <= c /\ uses m u a.

Lemma uses_bind {S A B} (m : cm S A) (f : A -> cm S B) u u' a b : uses m u a -> uses (f a) u' b -> uses (cbnd m f) (u + u') b.
Proof. intros H H' n. unfold cbnd. rewrite <- Nat.add_assoc, H. apply H'. Qed.
Lemma uses_ret {S A} (a : A) : uses (cret a : cm S A) 0 a.
Proof. done. Qed.
Lemma uses_cl {S A} (a : A) : uses (cl (Ok a) : cm S A) 0 a.
Proof. done. Qed.
Lemma uses_ask {S K} (comp : K -> K -> Z) (s : S) x y : uses (ask comp s x y) 1 (comp x y).
Proof. done. Qed.
Lemma within_bind {S A B} (m : cm S A) (f : A -> cm S B) c c' a b : within m c a -> within (f a) c' b -> within (cbnd m f) (c + c') b.
Proof. intros (u & L & H) (u' & L' & H'). exists (u + u'). split; [lia|by eapply uses_bind]. Qed.
Lemma within_uses {S A} (m : cm S A) u c a : uses m u a -> u <= c -> within m c a.
Proof. intros H L. by exists u. Qed.
Lemma within_mono {S A} (m : cm S A) c c' a : within m c a -> c <= c' -> within m c' a.
Proof. intros (u & L & H) L'. exists u. split; [lia|done]. Qed.
Lemma within_ret {S A} (a : A) : within (cret a : cm S A) 0 a.
Proof. exists 0. split; [done|apply uses_ret]. Qed.
Lemma within_cl {S A} (a : A) : within (cl (Ok a) : cm S A) 0 a.
Proof. exists 0. split; [done|apply uses_cl]. Qed.
Lemma within_ask {S K} (comp : K -> K -> Z) (s : S) x y : within (ask comp s x y) 1 (comp x y).
Proof. exists 1. split; [done|apply uses_ask]. Qed.
Lemma uses_exact {S A} (m : cm S A) u a r : uses m u a -> recovers m r -> r = Ok a /\ forall n, n < u -> exists s, m n = Crash s.
Proof.
  intros H (k & H1 & H2). assert (k = u) as ->.
  { destruct (Nat.lt_trichotomy k u) as [L|[->|L]]; [|done|].
    - exfalso. pose proof (H2 (u - k)) as E. replace (k + (u - k)) with (u + 0) in E by lia. rewrite (H 0) in E.
      pose proof (H2 (u - k + 1)) as E'. replace (k + (u - k + 1)) with (u + 1) in E' by lia. rewrite (H 1) in E'.
      destruct r; cbn [cl] in *; try done. injection E as _ E. lia.
    - exfalso. destruct (H1 u L) as [s E]. specialize (H 0). rewrite Nat.add_0_r in H. congruence. }
  split; [|done]. pose proof (H2 0) as E. rewrite (H 0) in E. destruct r; cbn [cl] in E; congruence.
Qed.

Section sl.
  Context {K V : Type} (vzero : V) (comp : K -> K -> Z).
  Implicit Types s : slist K V.
  Section costs.
    Context s ns (HR : repr s ns).
    Notation h := (hp s).
    Notation xs := (hdr s :: ns).
    Lemma cost_walk ans b i fuel : forall C x R r, xs = C ++ x :: R -> i < ht (h x) -> i < level s -> length R < fuel ->
      exists D x' C' R', within (walk_c comp fuel s ans b i x r) (length D + 1) (x', (r + Z.of_nat (length D))%Z) /\
        R = D ++ R' /\ xs = C' ++ x' :: R' /\ i < ht (h x').
    Proof.
      induction fuel as [|f IH]; intros C x R r HX Hi Hl Hf; [lia|].
      cbn [walk_c]. pose proof (r_links _ _ HR _ _ _ HX i Hi Hl) as L.
      assert (E : rd_fwd h x i = Ok (fwd (h x) i)) by (unfold rd_fwd; by rewrite decide_True). rewrite E.
      destruct (fwd (h x) i) as [y|] eqn:Ey.
      - destruct (ans (comp (key (h y)) b)) eqn:Et.
        + symmetry in L. destruct (nx_some _ _ _ _ _ L) as (P & Q & -> & HP & Hy & Hd).
          destruct (IH (C ++ x :: P) y Q (r + span (h x) i)%Z) as (D & x' & C' & R' & W & -> & EX & Hx');
            [by rewrite HX, <- app_assoc|done|done|rewrite app_length in Hf; cbn in Hf; lia|].
          exists (P ++ y :: D), x', C', R'. splits; [|by rewrite <- app_assoc|done|done].
          eapply within_mono; [eapply within_bind; [apply within_cl|]|].
          { eapply within_bind; [apply within_ask|]. rewrite Et.
            eapply within_bind.
            - assert (E' : rd_span h x i = Ok (span (h x) i)) by (unfold rd_span; by rewrite decide_True). rewrite E'. apply within_cl.
            - cbn beta. replace (r + Z.of_nat (length (P ++ y :: D)))%Z with (r + span (h x) i + Z.of_nat (length D))%Z; [exact W|].
              rewrite Hd, app_length. cbn. lia. }
          rewrite app_length. cbn. lia.
        + exists [], x, C, R. cbn [length]. rewrite Z.add_0_r. splits; try done.
          eapply within_mono; [eapply within_bind; [apply within_cl|]|].
          { eapply within_bind; [apply within_ask|]. rewrite Et. apply within_ret. }
          done.
      - exists [], x, C, R. cbn [length]. rewrite Z.add_0_r. splits; try done.
        eapply within_mono; [eapply within_bind; [apply within_cl|apply within_ret]|]. lia.
    Qed.
    Lemma cost_descend ans b fuel n : forall C x R r a, xs = C ++ x :: R -> n <= ht (h x) -> n <= level s -> length R < fuel ->
      exists D R' x' a' C', within (descend_c comp fuel s ans b n x r a) (length D + n) (x', a') /\ R = D ++ R' /\ xs = C' ++ x' :: R'.
    Proof.
      induction n as [|i IH]; intros C x R r a HX Hn Hl Hf.
      - exists [], R, x, a, C. splits; [apply within_ret|done|done].
      - destruct (cost_walk ans b i fuel C x R r HX) as (D & x1 & C1 & R1 & W & -> & EX & Hx1); [lia|lia|done|].
        destruct (IH C1 x1 R1 (r + Z.of_nat (length D))%Z (<[i := Some x1]> a.1, <[i := (r + Z.of_nat (length D))%Z]> a.2) EX) as (D2 & R2 & x2 & a2 & C2 & W2 & -> & EX2);
          [lia|lia|rewrite app_length in Hf; lia|].
        exists (D ++ D2), R2, x2, a2, C2. splits; [|by rewrite app_assoc|done]. cbn [descend_c]. eapply within_mono; [eapply within_bind; [exact W|exact W2]|].
        rewrite app_length. lia.
    Qed.
    Lemma cost_descend_top ans b fuel : length ns < fuel ->
      exists D R' x' a' C', within (descend_c comp fuel s ans b (level s) (hdr s) 0 no_arrays) (length D + level s) (x', a') /\ ns = D ++ R' /\ xs = C' ++ x' :: R'.
    Proof.
      intros Hf. pose proof (r_lv _ _ HR) as HLv. apply (cost_descend ans b fuel (level s) [] (hdr s) ns 0 no_arrays); [done|rewrite (r_hdr _ _ HR); lia|done|done].
    Qed.
    Lemma cost_search_from k fuel n : forall C x R r, xs = C ++ x :: R -> n <= ht (h x) -> n <= level s -> length R < fuel ->
      exists D R' o, within (search_from_c comp fuel s k n x r) (length D + 2 * n) o /\ R = D ++ R'.
    Proof.
      induction n as [|i IH]; intros C x R r HX Hn Hl Hf.
      - exists [], R, (None, 0%Z). split; [apply within_ret|done].
      - destruct (cost_walk (fun c => bool_decide (c <> 1%Z)) k i fuel C x R r HX) as (D & x1 & C1 & R1 & W & -> & EX & Hx1); [lia|lia|done|].
        destruct (decide (comp (key (h x1)) k = 0%Z)) as [E0|E0] eqn:Ed.
        + exists D, R1, (Some x1, (r + Z.of_nat (length D))%Z). split; [|done]. cbn [search_from_c].
          eapply within_mono; [eapply within_bind; [exact W|]|].
          { cbn beta iota. eapply within_bind; [apply within_ask|]. rewrite Ed. apply within_ret. }
          lia.
        + destruct (IH C1 x1 R1 (r + Z.of_nat (length D))%Z EX) as (D2 & R2 & o & W2 & ->); [lia|lia|rewrite app_length in Hf; lia|].
          exists (D ++ D2), R2, o. split; [|by rewrite app_assoc]. cbn [search_from_c]. eapply within_mono; [eapply within_bind; [exact W|]|].
          { cbn beta iota. eapply within_bind; [apply within_ask|]. rewrite Ed. exact W2. }
          rewrite app_length. lia.
    Qed.
    Lemma cost_search k fuel : length ns < fuel -> exists o, within (sl_search_c comp fuel s k) (length ns + 2 * level s) o.
    Proof.
      intros Hf. pose proof (r_lv _ _ HR) as HLv.
      destruct (cost_search_from k fuel (level s) [] (hdr s) ns 0) as (D & R' & o & W & E); [done|rewrite (r_hdr _ _ HR); lia|done|done|].
      exists o. eapply within_mono; [exact W|]. rewrite E, app_length. lia.
    Qed.
  End costs.

  (** ** at most [c] answers are used, whatever comes out *)
  Definition atmost {S A} (m : cm S A) (c : nat) : Prop :=
    forall n, match m n with Done _ n' => n <= n' + c | Crash _ => n < c | _ => True end.
  Lemma am_ret {S A} (a : A) : atmost (cret a : cm S A) 0.
  Proof. intros n. cbn. lia. Qed.
  Lemma am_cl {S A} (r : res A) : atmost (cl r : cm S A) 0.
  Proof. intros n. destruct r; cbn; lia. Qed.
  Lemma am_ask {S A} (cp : A -> A -> Z) (s : S) x y : atmost (ask cp s x y) 1.
  Proof. intros [|n]; cbn; lia. Qed.
  Lemma am_bind {S A B} (m : cm S A) (f : A -> cm S B) c c' : atmost m c -> (forall a n n', m n = Done a n' -> atmost (f a) c') -> atmost (cbnd m f) (c + c').
  Proof.
    intros H H' n. unfold cbnd. specialize (H n). destruct (m n) as [a n'|s| |] eqn:E; [|lia|done|done].
    specialize (H' a n n' E n'). destruct (f a n'); [lia|lia|done|done].
  Qed.
  Lemma am_mono {S A} (m : cm S A) c c' : atmost m c -> c <= c' -> atmost m c'.
  Proof. intros H L n. specialize (H n). destruct (m n); [lia|lia|done|done]. Qed.
  Lemma am_within {S A} (m : cm S A) c a r : within m c a -> recovers m r -> atmost m c /\ forall b n n', m n = Done b n' -> b = a.
  Proof.
    intros (u & L & H) Hr. destruct (uses_exact _ _ _ _ H Hr) as [-> C]. split.
    - intros n. destruct (decide (n < u)) as [Hn|Hn]; [destruct (C n Hn) as [s ->]; lia|].
      specialize (H (n - u)). replace (u + (n - u)) with n in H by lia. rewrite H. lia.
    - intros b n n' E. destruct (decide (n < u)) as [Hn|Hn]; [destruct (C n Hn) as [s E']; congruence|].
      specialize (H (n - u)). replace (u + (n - u)) with n in H by lia. congruence.
  Qed.
  Lemma am_descend s ns ans b fuel : repr s ns -> length ns < fuel ->
    exists D R' x' a' C', atmost (descend_c comp fuel s ans b (level s) (hdr s) 0 no_arrays) (length D + level s) /\
      (forall r n n', descend_c comp fuel s ans b (level s) (hdr s) 0 no_arrays n = Done r n' -> r = (x', a')) /\ ns = D ++ R' /\ hdr s :: ns = C' ++ x' :: R'.
  Proof.
    intros HR Hf. destruct (cost_descend_top s ns HR ans b fuel Hf) as (D & R' & x' & a' & C' & W & E1 & E2).
    destruct (am_within _ _ _ _ W (rec_descend _ _ _ _ _ _ _ _ _)) as [A1 A2]. exists D, R', x', a', C'. done.
  Qed.
  Lemma am_search s ns k fuel : repr s ns -> length ns < fuel -> atmost (sl_search_c comp fuel s k) (length ns + 2 * level s).
  Proof.
    intros HR Hf. destruct (cost_search s ns HR k fuel Hf) as [o W]. by destruct (am_within _ _ _ _ W (rec_sl_search _ _ _ _)).
  Qed.
  Lemma am_insert s ns k v unique draw fuel : repr s ns -> length ns < fuel ->
    atmost (sl_insert_c comp fuel s k v unique draw) (length ns + level s + if unique then 1 else 0).
  Proof.
    intros HR Hf. destruct (am_descend s ns (fun c => bool_decide (c = 0%Z)) k fuel HR Hf) as (D & R' & x' & a' & C' & A & _ & E & _).
    unfold sl_insert_c. apply am_bind; [eapply am_mono; [exact A|]; rewrite E, app_length; lia|]. intros [x a] _ _ _.
    apply (am_bind _ _ 0); [apply am_cl|]. intros u0 _ _ _. apply (am_bind _ _ 0); [apply am_cl|]. intros f0 _ _ _.
    replace (if unique then 1 else 0) with ((if unique then 1 else 0) + 0) by lia. apply am_bind.
    - destruct unique; [|apply am_ret]. destruct f0; [|eapply am_mono; [apply am_ret|lia]]. apply (am_bind _ _ 1 0); [apply am_ask|]. intros; apply am_ret.
    - intros [] _ _ _; [apply am_ret|apply am_cl].
  Qed.
  Lemma am_delete s ns k fuel : repr s ns -> length ns < fuel -> atmost (sl_delete_c comp fuel s k) (length ns + level s + 1).
  Proof.
    intros HR Hf. destruct (am_descend s ns (fun c => bool_decide (c = 0%Z)) k fuel HR Hf) as (D & R' & x' & a' & C' & A & _ & E & _).
    unfold sl_delete_c. apply am_bind; [eapply am_mono; [exact A|]; rewrite E, app_length; lia|]. intros [x a] _ _ _.
    apply (am_bind _ _ 0); [apply am_cl|]. intros [y|] _ _ _; [|eapply am_mono; [apply am_ret|lia]].
    apply (am_bind _ _ 1 0); [apply am_ask|]. intros c _ _ _. destruct (decide _); [|apply am_ret].
    apply (am_bind _ _ 0 0); [apply am_cl|]. intros; apply am_ret.
  Qed.
  Lemma am_range_loop fuel max : forall s A B a c, repr s (A ++ B) -> (forall i, i < level s -> arr_at (hp s) a (hdr s :: A) i) ->
    atmost (sl_delete_range_loop_c comp fuel s max a (head B) c) (length B).
  Proof.
    induction fuel as [|f IH]; intros s A B a c HR HArr; [by intros n|].
    cbn [sl_delete_range_loop_c]. destruct B as [|x B]; cbn [head length]; [apply am_ret|].
    apply (am_bind _ _ 1); [apply am_ask|]. intros z m m' Hz. cbn in Hz. destruct m as [|m]; [done|]. injection Hz as <- _.
    destruct (decide _) as [Hx|Hx]; [|eapply am_mono; [apply am_ret|lia]].
    assert (Hnx : rd_fwd (hp s) x 0 = Ok (head B)).
    { destruct (fwd0_of s (A ++ x :: B) HR (A ++ [x]) B x (hdr s :: A)) as [E _]; [by rewrite <- app_assoc|done|done]. }
    rewrite Hnx. destruct (delete_node_ok s A x B a HR HArr) as (s1 & Ed & HR1 & Hd1 & _ & Hl1 & HK1). rewrite Ed.
    apply (am_bind _ _ 0); [apply am_cl|]. intros o ? ? [= <- _]. apply (am_bind _ _ 0); [apply am_cl|]. intros s2 ? ? [= <- _].
    apply (IH s1 A B). { exact HR1. }
    intros i Hi. destruct (HArr i ltac:(lia)) as (C & u & D & E1 & E2 & E3 & E4 & E5). exists C, u, D.
    rewrite Hd1. splits; try done; [destruct (HK1 u) as (_ & _ & ->); done|].
    eapply low_ext; [|exact E5]. intros l _. by destruct (HK1 l) as (_ & _ & ->).
  Qed.
  Lemma am_range s ns mi ma fuel : repr s ns -> length ns < fuel -> atmost (sl_delete_range_c comp fuel s mi ma) (length ns + level s).
  Proof.
    intros HR Hf. destruct (am_descend s ns (fun c => bool_decide (c = (-1)%Z)) mi fuel HR Hf) as (D & R' & x' & a' & C' & A1 & A2 & E & EX).
    destruct (descend_full s ns HR (fun k' => bool_decide (comp k' mi = (-1)%Z)) fuel Hf) as (A & B & x0 & a & E0 & ED & EN & EE & HA & HB & HArr & _).
    unfold sl_delete_range_c. replace (length ns + level s) with (length D + level s + length R') by (rewrite E, app_length; lia).
    apply am_bind; [exact A1|]. intros [x1 a1] n n' Hd. pose proof (A2 _ _ _ Hd) as Hq.
    pose proof (rec_descend comp fuel s (fun c => bool_decide (c = (-1)%Z)) mi (level s) (hdr s) 0 no_arrays) as RD.
    apply (done_model mi comp _ _ _ _ _ RD) in Hd.
    rewrite ED in Hd. injection Hd as <- <-. injection Hq as -> ->.
    assert (B = R') as <-.
    { assert (H : hdr s :: ns = E0 ++ x' :: B) by (rewrite EN; change (hdr s :: A ++ B) with ((hdr s :: A) ++ B); by rewrite EE, <- app_assoc).
      pose proof (r_nodup _ _ HR) as ND. rewrite H in ND, EX. by destruct (split_unique _ _ _ _ _ ND EX). }
    destruct (fwd0_of s ns HR A B x' E0 EN EE) as [Ef _]. rewrite Ef. apply (am_bind _ _ 0); [apply am_cl|]. intros o ? ? [= <- _].
    rewrite EN in HR. by apply (am_range_loop fuel ma s A B).
  Qed.
  Lemma am_whole s ns k v vc fuel : repr s ns -> length ns < fuel -> atmost (sl_delete_whole_c comp fuel s k v vc) (2 * length ns + 3 * level s + 2).
  Proof.
    intros HR Hf. unfold sl_delete_whole_c. replace (2 * length ns + 3 * level s + 2) with ((length ns + 2 * level s) + (1 + (length ns + level s + 1))) by lia.
    apply am_bind; [by apply am_search|]. intros [[x|] z] _ _ _; [|eapply am_mono; [apply am_ret|lia]].
    apply am_bind; [apply am_ask|]. intros c _ _ _. destruct (decide _); [|eapply am_mono; [apply am_ret|lia]].
    rewrite <- (Nat.add_0_r (length ns + level s + 1)). apply am_bind; [by apply am_delete|]. intros [b s'] _ _ _. apply am_ret.
  Qed.
  (** the number of calls, exactly, and at most [c] *)
  Lemma counted {A} (m : cm (slist K V) A) r a c : recovers m r -> r = Ok a -> atmost m c ->
    exists k, k <= c /\ (forall n, n < k -> exists s, m n = Crash s) /\ forall n, m (k + n) = Done a n.
  Proof.
    intros (k & H1 & H2) -> HA. exists k. splits; [|done|done]. destruct (decide (k <= c)) as [|Hk]; [done|].
    destruct (H1 c ltac:(lia)) as [s E]. specialize (HA c). rewrite E in HA. lia.
  Qed.
End sl.

Section keys.
  Context {K V : Type} (kzero : K) (vzero : V) (comp : K -> K -> Z).
  Implicit Types s : slist K V.
  Lemma am_delete_keys ks : forall s ns fuel, repr s ns -> length ns < fuel ->
    atmost (sl_delete_keys_c comp fuel s ks) (length ks * (length ns + 33)).
  Proof.
    induction ks as [|k ks IH]; intros s ns fuel HR Hf; [apply am_ret|]. cbn [sl_delete_keys_c length Nat.mul].
    pose proof (r_lv _ _ HR) as HLv. unfold max_level in HLv.
    apply am_bind; [eapply am_mono; [by apply (am_delete comp s ns)|lia]|]. intros [b s1] n n' Hd.
    apply (done_model kzero comp _ _ _ _ _ (rec_sl_delete comp fuel s k)) in Hd.
    destruct (delete_spec_ok comp s ns k fuel HR Hf) as (b1 & s2 & ns' & E & HR' & HL & _). rewrite Hd in E. injection E as <- <-.
    rewrite <- (Nat.add_0_r (length ks * (length ns + 33))).
    apply am_bind; [eapply am_mono; [apply (IH s1 ns' fuel); [done|lia]|apply Nat.mul_le_mono_l; lia]|]. intros [z s3] _ _ _. apply am_ret.
  Qed.
  Definition op_bound (n : nat) (o : op K V) : nat :=
    match o with
    | OInsertUnique _ _ _ | ODelete _ => n + 33
    | OInsertEquals _ _ _ | ODeleteRange _ _ => n + 32
    | ODeleteKeys ks => length ks * (n + 33)
    | ODeleteWhole _ _ _ => 2 * n + 98
    | OClear | OSetValue _ _ => 0
    end.
  Lemma am_step s ns fuel o : repr s ns -> length ns < fuel -> atmost (sl_step_c vzero comp kzero fuel s o) (op_bound (length ns) o).
  Proof.
    intros HR Hf. pose proof (r_lv _ _ HR) as HLv. unfold max_level in HLv.
    assert (B : forall A B (m : cm (slist K V) A) (f : A -> cm (slist K V) B) c, atmost m c -> (forall a, exists b, f a = cret b) -> atmost (cbnd m f) c).
    { intros A B m f c H1 H2. rewrite <- (Nat.add_0_r c). apply am_bind; [done|]. intros a _ _ _. destruct (H2 a) as [b ->]. apply am_ret. }
    destruct o as [k v u|k v u|k|ks|k v vc|mi ma| |i v]; cbn [sl_step_c op_bound].
    - apply B; [eapply am_mono; [by apply (am_insert comp s ns)|cbn; lia]|]. intros [b s']. by eexists.
    - apply B; [eapply am_mono; [by apply (am_insert comp s ns)|cbn; lia]|]. intros [b s']. by eexists.
    - apply B; [eapply am_mono; [by apply (am_delete comp s ns)|lia]|]. intros [b s']. by eexists.
    - apply B; [by apply am_delete_keys|]. intros [b s']. by eexists.
    - apply B; [eapply am_mono; [by apply (am_whole comp s ns)|lia]|]. intros [b s']. by eexists.
    - apply B; [eapply am_mono; [by apply (am_range comp s ns)|lia]|]. intros [b s']. by eexists.
    - apply am_cl.
    - apply am_cl.
  Qed.

  (** ** lists of height 1 *)
  Lemma insert_level s k v unique draw fuel b s' : insert comp fuel s k v unique draw = Ok (b, s') -> s' = s \/ level s' = level s `max` random_level draw.
  Proof.
    unfold insert. repeat lazymatch goal with
    | |- rbind ?m _ = _ -> _ => destruct m as [?| |] eqn:?; cbn [rbind]; [|done|done]
    | |- (let '(_, _) := ?p in _) = _ -> _ => destruct p
    | |- (if ?c then _ else _) = _ -> _ => destruct c; [intros [= <- <-]; by left|]
    | |- (let '(_, _) := match ?x with Some _ => _ | None => _ end in _) = _ -> _ => destruct x
    end.
    all: intros [= <- <-]; by right.
  Qed.
  Lemma flat_run (P : K -> Prop) os : forall s ns fuel,
    Forall (fun o => match o with OInsertUnique k _ u => P k /\ random_level u = 1 | _ => False end) os ->
    repr s ns -> zero_hdr kzero vzero s -> level s = 1 -> Forall (fun l => P (key (hp s l))) ns -> length os + length ns < fuel ->
    exists rs s' ns', run kzero vzero comp fuel s os = Ok (rs, s') /\ repr s' ns' /\ zero_hdr kzero vzero s' /\ level s' = 1 /\
      Forall (fun l => P (key (hp s' l))) ns' /\ length ns' = length os + length ns.
  Proof.
    induction os as [|o os IH]; intros s ns fuel HO HR HZ HL HP Hf.
    - by exists [], s, ns.
    - apply Forall_cons in HO as [Ho HO]. destruct o as [k v u| | | | | | |]; try done. destruct Ho as [Hk Hu]. cbn [length] in Hf.
      destruct (insert_ok comp s ns k v true u fuel HR ltac:(lia)) as (s1 & A & B & E & -> & HR1 & Hh & K1 & V1 & KV & _).
      assert (Hne : forall l, l ∈ hdr s :: A ++ B -> l <> brk s).
      { intros l Hl ->. pose proof (r_brk _ _ HR) as F. rewrite Forall_forall in F. specialize (F (brk s) Hl). lia. }
      destruct (IH s1 (A ++ brk s :: B) fuel HO HR1) as (rs & s2 & ns2 & E2 & H2 & H3 & H4 & H5 & H6).
      + destruct HZ as [Z1 Z2]. unfold zero_hdr. rewrite Hh. destruct (KV (hdr s)) as [-> ->]; [apply Hne; left|done].
      + destruct (insert_level _ _ _ _ _ _ _ _ E) as [->|El]; [done|]. rewrite El, HL, Hu. done.
      + rewrite Forall_forall in HP |- *. intros l Hl. destruct (decide (l = brk s)) as [->|Nl]; [by rewrite K1|].
        destruct (KV l Nl) as [-> _]. apply HP. apply elem_of_app in Hl as [Hl|[->|Hl]%elem_of_cons]; [apply elem_of_app; by left|done|apply elem_of_app; by right].
      + rewrite app_length in *. cbn. lia.
      + exists (RBool true :: rs), s2, ns2. splits; try done.
        * cbn [run]. unfold step. rewrite E. cbn [rbind]. by rewrite E2.
        * rewrite H6, !app_length. cbn. lia.
  Qed.
  Lemma flat_walk s ns (HR : repr s ns) ans b fuel : Forall (fun l => ans (comp (key (hp s l)) b) = true) ns ->
    forall C x R r, hdr s :: ns = C ++ x :: R -> length R < fuel ->
    uses (walk_c comp fuel s ans b 0 x r) (length R) (default x (last R), (r + Z.of_nat (length R))%Z).
  Proof.
    intros HT. induction fuel as [|f IH]; intros C x R r HX Hf; [lia|]. cbn [walk_c].
    assert (Hx : 0 < ht (hp s x)) by (pose proof (in_ht s ns HR x); rewrite HX in *; apply H, elem_of_app; right; left).
    pose proof (r_lv _ _ HR) as HLv. pose proof (r_links _ _ HR _ _ _ HX 0 Hx ltac:(lia)) as L.
    assert (E : rd_fwd (hp s) x 0 = Ok (fwd (hp s x) 0)) by (unfold rd_fwd; by rewrite decide_True). rewrite E.
    assert (E' : rd_span (hp s) x 0 = Ok (span (hp s x) 0)) by (unfold rd_span; by rewrite decide_True).
    destruct R as [|y R].
    - cbn in L. injection L as L1 L2. rewrite L1. cbn. rewrite Z.add_0_r. intros n. done.
    - assert (Hy : y ∈ ns).
      { destruct C as [|c C]; injection HX as _ ->; [left|]. apply elem_of_app. right. right. left. }
      assert (nx (fun l => ht (hp s l)) 0 (y :: R) = (Some y, 1%Z)) as Ln.
      { pose proof (r_ht _ _ HR) as F. rewrite Forall_forall in F. specialize (F _ Hy). cbn. rewrite decide_True by lia. done. }
      rewrite Ln in L. injection L as L1 L2. rewrite L1.
      rewrite Forall_forall in HT. specialize (HT _ Hy).
      assert (U : uses (walk_c comp f s ans b 0 y (r + span (hp s x) 0)%Z) (length R) (default y (last R), (r + span (hp s x) 0 + Z.of_nat (length R))%Z)).
      { apply (IH (C ++ [x])); [by rewrite <- app_assoc|cbn in Hf; lia]. }
      intros n. unfold cbnd, ask. cbn [cl length Nat.add]. rewrite HT, E'. cbn [cl]. rewrite U. f_equal. f_equal.
      + destruct R as [|z R]; [done|]. cbn [last]. destruct (last (z :: R)) eqn:El; [done|]. by apply last_None in El.
      + rewrite L2. cbn [length]. lia.
  Qed.
  Lemma flat_has s ns k fuel : repr s ns -> level s = 1 -> length ns < fuel -> Forall (fun l => comp (key (hp s l)) k = (-1)%Z) (hdr s :: ns) ->
    uses (sl_has_c comp fuel s k) (length ns + 1) false.
  Proof.
    intros HR HL Hf HT. apply Forall_cons in HT as [H0 HT].
    pose proof (flat_walk s ns HR (fun c => bool_decide (c <> 1%Z)) k fuel) as W.
    assert (HT' : Forall (fun l => bool_decide (comp (key (hp s l)) k <> 1%Z) = true) ns).
    { eapply Forall_impl; [exact HT|]. cbn. intros l ->. done. }
    specialize (W HT' [] (hdr s) ns 0%Z eq_refl Hf). unfold sl_has_c, sl_search_c. rewrite HL. cbn [search_from_c].
    assert (Hl : comp (key (hp s (default (hdr s) (last ns)))) k = (-1)%Z).
    { destruct (last ns) as [z|] eqn:El; [|done]. cbn. rewrite Forall_forall in HT. apply HT. apply last_Some in El as [l' ->]. apply elem_of_app. right. left. }
    intros n. unfold cbnd, ask. rewrite <- Nat.add_assoc, W. cbn [Nat.add]. rewrite Hl. done.
  Qed.
End keys.
