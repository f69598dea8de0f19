(** Proofs for C74: the general part and the priority queue. *)
From Verif Require Import Base PQ_Model PQ_Spec PQ_Proofs PanicComp_Model PanicComp_Spec.

(** ** recovering the model *)
Section recover.
  Context {St : Type}.
  Lemma rec_cl {A} (r : res A) : recovers (S := St) (cl r) r.
  Proof. exists 0. split; [lia|]. done. Qed.
  Lemma rec_ret {A} (a : A) : recovers (S := St) (cret a) (Ok a).
  Proof. exists 0. split; [lia|]. done. Qed.
  Lemma rec_fuel {A} : recovers (S := St) (fun _ => CFuel) (Fuel : res A).
  Proof. exists 0. split; [lia|]. done. Qed.
  Lemma rec_bind {A B} (m : cm St A) (r : res A) (f : A -> cm St B) (g : A -> res B) :
    recovers m r -> (forall a, r = Ok a -> recovers (f a) (g a)) -> recovers (cbnd m f) (rbind r g).
  Proof.
    intros (k & H1 & H2) Hf. destruct r as [a| |].
    - destruct (Hf a eq_refl) as (k' & H3 & H4). exists (k + k'). split.
      + intros n Hn. unfold cbnd. destruct (decide (n < k)) as [Hk|Hk].
        * destruct (H1 n Hk) as [s ->]. by exists s.
        * replace n with (k + (n - k)) by lia. rewrite H2. cbn [cl].
          destruct (H3 (n - k)) as [s ->]; [lia|]. by exists s.
      + intros n. unfold cbnd. rewrite <- Nat.add_assoc, H2. cbn [cl rbind]. apply H4.
    - exists k. split.
      + intros n Hn. unfold cbnd. destruct (H1 n Hn) as [s ->]. by exists s.
      + intros n. unfold cbnd. by rewrite H2.
    - exists k. split.
      + intros n Hn. unfold cbnd. destruct (H1 n Hn) as [s ->]. by exists s.
      + intros n. unfold cbnd. by rewrite H2.
  Qed.
  Lemma rec_cl_bind {A B} (r : res A) (f : A -> cm St B) (g : A -> res B) :
    (forall a, r = Ok a -> recovers (f a) (g a)) -> recovers (cbnd (cl r) f) (rbind r g).
  Proof. apply rec_bind, rec_cl. Qed.
  Lemma rec_ret_bind {A B} (a : A) (f : A -> cm St B) r :
    recovers (f a) r -> recovers (cbnd (cret a) f) r.
  Proof. intros H. apply (rec_bind (cret a) (Ok a) f (fun _ => r)); [apply rec_ret|]. by intros ? [= <-]. Qed.
  Lemma rec_ask {K A} (comp : K -> K -> Z) (s : St) x y (f : Z -> cm St A) r :
    recovers (f (comp x y)) r -> recovers (cbnd (ask comp s x y) f) r.
  Proof.
    intros (k & H1 & H2). exists (S k). split.
    - intros [|n] Hn; [by exists s|]. unfold cbnd. simpl. apply H1. lia.
    - intros n. unfold cbnd. simpl. apply H2.
  Qed.
  Lemma rec_seen {S' A} (g : S' -> St) (m : cm S' A) r : recovers m r -> recovers (seen_as g m) r.
  Proof.
    intros (k & H1 & H2). exists k. split.
    - intros n Hn. unfold seen_as. destruct (H1 n Hn) as [s ->]. by eexists.
    - intros n. unfold seen_as. rewrite H2. by destruct r.
  Qed.
End recover.

(** ** the state left behind *)
Section left_behind.
  Context {St : Type} (P : St -> Prop).
  Lemma ab_cl {A} (r : res A) : abandoned (cl r) P.
  Proof. intros n s. destruct r; discriminate. Qed.
  Lemma ab_ret {A} (a : A) : abandoned (cret a) P.
  Proof. intros n s. discriminate. Qed.
  Lemma ab_fuel {A} : abandoned (fun _ => CFuel : cr St A) P.
  Proof. intros n s. discriminate. Qed.
  Lemma ab_bind {A B} (m : cm St A) (f : A -> cm St B) :
    abandoned m P -> (forall n a n', m n = Done a n' -> abandoned (f a) P) -> abandoned (cbnd m f) P.
  Proof.
    intros H1 H2 n s. unfold cbnd. destruct (m n) as [a n'|s'| |] eqn:E; try discriminate.
    - intros Hs. eapply H2; [exact E|exact Hs].
    - intros [= <-]. eapply H1, E.
  Qed.
  Lemma ab_cl_bind {A B} (r : res A) (f : A -> cm St B) :
    (forall a, r = Ok a -> abandoned (f a) P) -> abandoned (cbnd (cl r) f) P.
  Proof. intros H. apply ab_bind; [apply ab_cl|]. intros n a n' E. apply H. destruct r; by simplify_eq/=. Qed.
  Lemma ab_ask {K A} (comp : K -> K -> Z) (s : St) x y (f : Z -> cm St A) :
    P s -> abandoned (f (comp x y)) P -> abandoned (cbnd (ask comp s x y) f) P.
  Proof. intros Hs H [|n] s'; unfold cbnd; simpl; [by intros [= <-]|]. apply H. Qed.
End left_behind.

(** how a computation is built up from its parts *)
Lemma bind_done {St A B} (m : cm St A) (f : A -> cm St B) n b n' :
  cbnd m f n = Done b n' <-> exists a n1, m n = Done a n1 /\ f a n1 = Done b n'.
Proof.
  unfold cbnd. destruct (m n) as [a n1|s| |]; split; intros H; try discriminate;
    try (destruct H as (?&?&?&?); discriminate).
  - eauto.
  - destruct H as (?&?&[= <- <-]&?). done.
Qed.
Lemma bind_crash {St A B} (m : cm St A) (f : A -> cm St B) n s :
  cbnd m f n = Crash s <-> m n = Crash s \/ exists a n1, m n = Done a n1 /\ f a n1 = Crash s.
Proof.
  unfold cbnd. destruct (m n) as [a n1|s1| |]; split; intros H; try discriminate.
  - right. eauto.
  - destruct H as [H|(?&?&[= <- <-]&?)]; [discriminate|done].
  - left. congruence.
  - destruct H as [H|(?&?&H&?)]; [congruence|discriminate].
  - destruct H as [H|(?&?&H&?)]; discriminate.
  - destruct H as [H|(?&?&H&?)]; discriminate.
Qed.

(** ** the priority queue *)
Section pq.
  Context {T : Type} (zero : T) (comp : T -> T -> Z).

  Lemma rec_up fuel : forall els pos, recovers (percolate_up_c comp fuel els pos) (percolate_up comp fuel els pos).
  Proof.
    induction fuel as [|fuel IH]; intros els pos; [apply rec_fuel|]. cbn [percolate_up_c percolate_up].
    destruct (decide _); [apply rec_ret|].
    apply rec_cl_bind. intros x _. apply rec_cl_bind. intros y _. apply rec_ask.
    destruct (0 <=? comp x y)%Z; [apply rec_ret|apply IH].
  Qed.
  Lemma rec_down fuel : forall els i n, recovers (percolate_down_c comp fuel els i n) (percolate_down comp fuel els i n).
  Proof.
    induction fuel as [|fuel IH]; intros els i n; [apply rec_fuel|]. cbn [percolate_down_c percolate_down].
    destruct (decide _); [apply rec_ret|].
    apply rec_bind.
    { destruct (decide _); [|apply rec_ret].
      apply rec_cl_bind. intros x _. apply rec_cl_bind. intros y _. apply rec_ask. apply rec_ret. }
    intros j _. apply rec_cl_bind. intros x _. apply rec_cl_bind. intros y _. apply rec_ask.
    destruct (0 <=? comp x y)%Z; [apply rec_ret|apply IH].
  Qed.
  Lemma rec_push q v : recovers (q_push_c comp q v) (q_push comp q v).
  Proof.
    unfold q_push_c, q_push. apply rec_bind; [apply rec_seen, rec_up|]. intros els _. apply rec_ret.
  Qed.
  Lemma rec_pop q : recovers (q_pop_c zero comp q) (q_pop zero comp q).
  Proof.
    unfold q_pop_c, q_pop. destruct (decide _); [apply rec_ret|].
    apply rec_cl_bind. intros a _. apply rec_cl_bind. intros b _.
    apply rec_bind; [apply rec_seen, rec_down|]. intros r _.
    apply rec_cl_bind. intros v _. apply rec_ret.
  Qed.
  Lemma rec_step q o : recovers (q_step_c zero comp q o) (q_step zero comp q o).
  Proof.
    destruct o as [v| | |]; cbn [q_step_c q_step].
    - apply rec_bind; [apply rec_push|]. intros r _. apply rec_ret.
    - apply rec_bind; [apply rec_pop|]. intros r _. apply rec_ret.
    - apply rec_cl_bind. intros r _. apply rec_ret.
    - apply rec_ret.
  Qed.

  (** the elements stay the same up to their order *)
  Definition same (n : nat) (els els' : list T) : Prop :=
    length els' = length els /\ take n els' ≡ₚ take n els /\ drop n els' = drop n els.
  Lemma same_refl n els : same n els els.
  Proof. done. Qed.
  Lemma same_trans n a b c : same n a b -> same n b c -> same n a c.
  Proof. intros (H1&H2&H3) (H4&H5&H6). unfold same. split; [congruence|]. split; [by rewrite H5|congruence]. Qed.
  Lemma same_swap n els i j x y : i < n -> j < n -> els !! i = Some x -> els !! j = Some y ->
    same n els (<[j:=x]> (<[i:=y]> els)).
  Proof.
    intros H1 H2 H3 H4. unfold same. rewrite !insert_length. split; [done|]. split; [by apply swap_take_perm|by apply swap_drop].
  Qed.

  Lemma up_c n fuel : forall els pos a, pos < fuel -> pos < n -> n <= length els ->
    match percolate_up_c comp fuel els pos a with
    | Done els' _ => same n els els'
    | Crash els' => same n els els' /\ 0 < pos /\ els' !! 0 = els !! 0
    | _ => False
    end.
  Proof.
    induction fuel as [|fuel IH]; intros els pos a Hf Hp Hl; [lia|]. cbn [percolate_up_c].
    destruct (decide _) as [E|E]; [apply same_refl|].
    assert (Hpos : 0 < pos) by (destruct pos; [done|lia]).
    assert (Hi : (pos - 1) / 2 < pos) by lia.
    destruct (lookup_lt_is_Some_2 els pos) as [x Hx]; [lia|].
    destruct (lookup_lt_is_Some_2 els ((pos - 1) / 2)) as [y Hy]; [lia|].
    unfold cbnd. rewrite Hx, Hy. cbn [deref cl]. unfold ask.
    destruct a as [|a]; [done|].
    destruct (0 <=? comp x y)%Z; [apply same_refl|].
    assert (Hs : same n els (<[pos:=y]> (<[(pos - 1) / 2:=x]> els))) by (apply same_swap; [lia|lia|done|done]).
    specialize (IH (<[pos:=y]> (<[(pos - 1) / 2:=x]> els)) ((pos - 1) / 2) a ltac:(lia) ltac:(lia)).
    rewrite !insert_length in IH. specialize (IH Hl).
    destruct (percolate_up_c _ _ _ _ _); [by eapply same_trans|..|done|done].
    destruct IH as (H1 & H2 & H3). splits; [by eapply same_trans|done|].
    rewrite H3. by rewrite !list_lookup_insert_ne by lia.
  Qed.

  Lemma down_c n fuel : forall els i a, n < fuel + i -> (i < n \/ i = 0) -> n <= length els ->
    match percolate_down_c comp fuel els i n a with
    | Done r _ => same n els r.1
    | Crash els' => same n els els' /\ 2 * i + 1 < n
    | _ => False
    end.
  Proof.
    induction fuel as [|fuel IH]; intros els i a Hf Hi Hl; [lia|]. cbn [percolate_down_c].
    destruct (decide _) as [E|E]; [apply same_refl|].
    destruct (lookup_lt_is_Some_2 els i) as [y Hy]; [lia|].
    destruct (lookup_lt_is_Some_2 els (2 * i + 1)) as [b Hb]; [lia|].
    assert (Hj : forall j (a : nat), i < j -> j < n ->
      match (let^ x := cl (deref (els !! j)) in
             let^ y := cl (deref (els !! i)) in
             let^ c := ask comp els x y in
             if (0 <=? c)%Z then cret (els, i)
             else percolate_down_c comp fuel (<[j:=y]> (<[i:=x]> els)) j n) a with
      | Done r _ => same n els r.1
      | Crash els' => same n els els' /\ 2 * i + 1 < n
      | _ => False
      end).
    { intros j a' Hij Hjn. destruct (lookup_lt_is_Some_2 els j) as [x Hx]; [lia|].
      unfold cbnd. rewrite Hx, Hy. cbn [deref cl]. unfold ask. destruct a' as [|a']; [split; [done|lia]|].
      destruct (0 <=? comp x y)%Z; [apply same_refl|].
      assert (Hs : same n els (<[j:=y]> (<[i:=x]> els))) by (apply same_swap; [lia|lia|done|done]).
      specialize (IH (<[j:=y]> (<[i:=x]> els)) j a' ltac:(lia) ltac:(lia)).
      rewrite !insert_length in IH. specialize (IH Hl).
      destruct (percolate_down_c _ _ _ _ _ _); [by eapply same_trans|..|done|done].
      destruct IH as (H1 & H2). split; [by eapply same_trans|lia]. }
    destruct (decide (2 * i + 1 + 1 < n)) as [H2|H2].
    - destruct (lookup_lt_is_Some_2 els (2 * i + 1 + 1)) as [c Hc]; [lia|].
      unfold cbnd at 1. unfold cbnd at 1 2 3. rewrite Hc, Hb. cbn [deref cl]. unfold ask at 1.
      destruct a as [|a]; [split; [done|lia]|]. unfold cret at 1.
      destruct (comp c b <? 0)%Z; apply Hj; lia.
    - unfold cbnd at 1. unfold cret at 1. apply Hj; lia.
  Qed.

  (** one call *)
  Lemma push_c_ok q v a b : holds q b ->
    match q_push_c comp q v a with
    | Done r _ => r.1 = true /\ holds r.2 (v :: b)
    | Crash q' => b <> [] /\ holds q' (v :: b) /\ q_peek zero q' = q_peek zero q
    | _ => False
    end.
  Proof.
    intros [Hs Hb]. unfold q_push_c.
    set (els := if decide (length (PQ_Model.elements q) <= qsize q) then _ else _).
    assert (Hlen : qsize q + 1 <= length els).
    { unfold els. case_decide; rewrite ?app_length, ?insert_length; simpl; lia. }
    assert (Hlt : forall j, j < qsize q -> els !! j = PQ_Model.elements q !! j).
    { intros j Hj. unfold els. case_decide.
      - rewrite lookup_app_l by lia. done.
      - rewrite list_lookup_insert_ne by lia. done. }
    assert (Heq : els !! qsize q = Some v).
    { unfold els. case_decide.
      - rewrite lookup_app_r by lia. replace (qsize q - _) with 0 by lia. done.
      - rewrite list_lookup_insert by lia. done. }
    assert (Ht : take (qsize q + 1) els ≡ₚ v :: b).
    { replace (qsize q + 1) with (S (qsize q)) by lia.
      rewrite (take_S_r _ _ v) by done. rewrite Permutation_app_comm. simpl. f_equiv. rewrite <- Hb.
      replace (take (qsize q) els) with (take (qsize q) (PQ_Model.elements q)); [done|].
      apply list_eq. intros k. destruct (decide (k < qsize q)).
      - rewrite !lookup_take by done. by rewrite Hlt.
      - by rewrite !lookup_take_ge by lia. }
    pose proof (up_c (qsize q + 1) (S (qsize q + 1)) els (qsize q + 1 - 1) a ltac:(lia) ltac:(lia) Hlen) as H.
    unfold cbnd, seen_as. destruct (percolate_up_c _ _ _ _ _) as [els' a'|els'| |]; [..|done|done].
    - destruct H as (H1&H2&H3). split; [done|]. split; cbn [PQ_Model.elements qsize snd]; [lia|]. by rewrite H2.
    - destruct H as ((H1&H2&H3)&H4&H5). splits.
      + intros ->. apply Permutation_length in Hb. rewrite take_length in Hb. simpl in Hb. lia.
      + split; cbn [PQ_Model.elements qsize]; [lia|]. by rewrite H2.
      + unfold q_peek. cbn [PQ_Model.elements qsize]. rewrite !decide_True by lia. by rewrite H5, Hlt by lia.
  Qed.

  Lemma pop_c_ok q a b : holds q b ->
    match q_pop_c zero comp q a with
    | Done (v, ok, q') _ => q_peek zero q = Ok (v, ok) /\
        if ok : bool then b ≡ₚ v :: take (qsize q') (PQ_Model.elements q') /\ qsize q' <= length (PQ_Model.elements q')
        else b = [] /\ v = zero /\ q' = q
    | Crash q' => 3 <= length b /\ holds q' b
    | _ => False
    end.
  Proof.
    intros [Hs Hb]. unfold q_pop_c.
    assert (Hlb : length b = qsize q).
    { apply Permutation_length in Hb. rewrite take_length in Hb. lia. }
    destruct (decide _) as [E|E].
    { cbn. unfold q_peek. rewrite decide_False by lia. splits; try done. destruct b; [done|simpl in *; lia]. }
    set (n := qsize q - 1).
    destruct (lookup_lt_is_Some_2 (PQ_Model.elements q) n) as [x Hx]; [lia|].
    destruct (lookup_lt_is_Some_2 (PQ_Model.elements q) 0) as [y Hy]; [lia|].
    unfold cbnd, seen_as. rewrite Hx, Hy. cbn [deref cl].
    set (els := <[n:=y]> (<[0:=x]> (PQ_Model.elements q))).
    assert (Hl : length els = length (PQ_Model.elements q)) by (unfold els; by rewrite !insert_length).
    assert (Hsw : take (qsize q) els ≡ₚ b).
    { rewrite <- Hb. unfold els. apply swap_take_perm; [lia|lia|done|done]. }
    assert (Hn : els !! n = Some y).
    { unfold els. apply list_lookup_insert. rewrite insert_length. lia. }
    assert (Hss : forall els', same n els els' -> take (qsize q) els' ≡ₚ b /\ els' !! n = Some y /\ length els' = length els).
    { intros els' (H1&H2&H3).
      assert (Hy' : els' !! n = Some y).
      { rewrite <- (Nat.add_0_r n), <- lookup_drop, H3, lookup_drop, Nat.add_0_r. done. }
      splits; [|done|done]. rewrite <- Hsw. replace (qsize q) with (S n) by lia.
      rewrite !(take_S_r _ _ y) by done. by rewrite H2. }
    pose proof (down_c n (S n) els 0 a ltac:(lia) ltac:(lia) ltac:(lia)) as H.
    destruct (percolate_down_c _ _ _ _ _ _) as [r a'|els'| |]; [..|done|done].
    - destruct (Hss _ H) as (H1 & H2 & H3). rewrite H2. cbn [deref cl cret].
      unfold q_peek. rewrite decide_True by lia. rewrite Hy. cbn [deref rbind]. splits; [done|..|simpl; lia].
      cbn [PQ_Model.elements qsize]. rewrite <- H1. replace (qsize q) with (S n) at 1 by lia.
      rewrite (take_S_r _ _ y) by done. fold n. rewrite Permutation_app_comm. done.
    - destruct H as [H HH]. destruct (Hss _ H) as (H1 & H2 & H3). split; [lia|].
      split; cbn [PQ_Model.elements qsize]; [lia|done].
  Qed.

  Lemma peek_c_ok q b : holds q b -> exists v ok, q_peek zero q = Ok (v, ok) /\
    if ok : bool then v ∈ b else b = [] /\ v = zero.
  Proof.
    intros [Hs Hb]. unfold q_peek. destruct (decide _) as [E|E].
    - destruct (lookup_lt_is_Some_2 (PQ_Model.elements q) 0) as [y Hy]; [lia|]. rewrite Hy.
      exists y, true. split; [done|]. rewrite <- Hb. apply elem_of_list_lookup. exists 0. by rewrite lookup_take.
    - exists zero, false. splits; try done. assert (qsize q = 0) as E0 by lia. rewrite E0 in Hb. by apply Permutation_nil in Hb.
  Qed.

  Lemma step_c_ok q o a b : holds q b ->
    match q_step_c zero comp q o a with
    | Done r _ => exists b', cbag_step zero b o (Some r.1) b' /\ holds r.2 b'
    | Crash q' => exists b', cbag_step zero b o None b' /\ holds q' b'
    | _ => False
    end.
  Proof.
    intros H. destruct o as [v| | |]; cbn [q_step_c].
    - pose proof (push_c_ok q v a b H) as HP. unfold cbnd.
      destruct (q_push_c _ _ _ _) as [[r q'] a'|q'| |]; [..|done|done]; cbn in *.
      + destruct HP as [-> HP]. exists (v :: b). split; [constructor|done].
      + destruct HP as (H1&H2&_). exists (v :: b). split; [by constructor|done].
    - pose proof (pop_c_ok q a b H) as HP. unfold cbnd.
      destruct (q_pop_c _ _ _ _) as [[[v ok] q'] a'|q'| |]; [..|done|done]; cbn [fst snd cret] in *.
      + destruct HP as [_ HP]. destruct ok.
        * destruct HP as [HP HQ]. eexists. split; [by apply CPop|]. by split.
        * destruct HP as (-> & -> & ->). exists []. split; [constructor|done].
      + destruct HP as [H1 H2]. exists b. split; [by constructor|done].
    - destruct (peek_c_ok q b H) as (v & ok & E & HP). unfold cbnd. rewrite E. cbn [cl cret fst snd].
      exists b. split; [|done]. destruct ok; [by constructor|]. destruct HP as [-> ->]. constructor.
    - cbn. exists b. split; [|done]. destruct H as [Hs Hb]. unfold q_len.
      replace (qsize q) with (length b); [constructor|]. apply Permutation_length in Hb. rewrite take_length in Hb. lia.
  Qed.

  Lemma run_c_ok os : forall q b, holds q b ->
    exists rs q' b', q_run_c zero comp q os = Ok (rs, q') /\ cbag_run zero b os.*1 rs b' /\ holds q' b'.
  Proof.
    induction os as [|[o a] os IH]; intros q b H; cbn [q_run_c].
    { exists [], q, b. splits; [done|constructor|done]. }
    pose proof (step_c_ok q o a b H) as HS.
    destruct (q_step_c _ _ _ _ _) as [[r q1] a'|q1| |]; [..|done|done]; cbn [fst snd] in *;
      destruct HS as (b1 & HS & H1); destruct (IH q1 b1 H1) as (rs & q2 & b2 & E & HR & H2); rewrite E; cbn [rbind fst snd].
    - exists (Some r :: rs), q2, b2. splits; [done|by econstructor|done].
    - exists (None :: rs), q2, b2. splits; [done|by econstructor|done].
  Qed.
End pq.
